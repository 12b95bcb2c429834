(** Accuracy of means and variances in doubles. *)
From Coq Require Import ZArith Reals Lia Lra List Bool Psatz.
From Flocq Require Import Core.Core IEEE754.BinarySingleNaN.
From Verif Require Import Base F64 Num M_Accum S_Accum L_Sum L_Accum.
Import ListNotations.
Open Scope R_scope.

(** Half the smallest subnormal against the unit roundoff. *)
Lemma eta_uro (e : Z) : (-900 <= e)%Z -> IZR (2 ^ 100) * eta <= uro * bpow radix2 e.
Proof.
  intros H. change (2 ^ 100)%Z with (Zpower radix2 100). rewrite IZR_Zpower by lia.
  unfold eta, uro. rewrite <- !bpow_plus. apply bpow_le. lia.
Qed.

Lemma uro_tiny : uro <= / 2 ^ 53.
Proof. rewrite uro_val. rewrite pow_IZR. apply Rle_refl. Qed.

(** ** The mean *)

(** One step away from the exact update. *)
Lemma step_mean x m k B D : fmt x -> fmt m -> 1 <= k -> Rabs (x - m) <= D ->
  Rabs (rnd (m + rnd (rnd (x - m) / k))) <= B ->
  k * Rabs (rnd (m + rnd (rnd (x - m) / k)) - (m + (x - m) / k)) <=
    (2 * uro + uro ^ 2) * D + k * (uro * B + eta).
Proof.
  intros Fx Fm Hk HD HB. pose proof uro_pos as U.
  assert (Fq : fmt (rnd (rnd (x - m) / k))) by apply fmt_rnd.
  pose proof (minus_err x m Fx Fm) as E1. set (d := rnd (x - m)) in *.
  pose proof (rnd_err (d / k)) as E2. set (q := rnd (d / k)) in *.
  pose proof (plus_err_r m q Fm Fq) as E3. set (m' := rnd (m + q)) in *.
  assert (E1' : Rabs (d - (x - m)) <= uro * D) by nra.
  assert (Hd : Rabs d <= (1 + uro) * D).
  { replace d with ((d - (x - m)) + (x - m)) by ring. eapply Rle_trans; [apply Rabs_triang|]. lra. }
  assert (Pk : 0 < / k) by (apply Rinv_0_lt_compat; lra).
  assert (E2' : k * Rabs (q - d / k) <= uro * ((1 + uro) * D) + k * eta).
  { unfold Rdiv in E2 at 2. rewrite Rabs_mult, (Rabs_pos_eq (/ k)) in E2 by lra.
    apply Rle_trans with (k * (uro * (Rabs d * / k) + eta)); [apply Rmult_le_compat_l; lra|].
    replace (k * (uro * (Rabs d * / k) + eta)) with (uro * Rabs d + k * eta) by (field; lra). nra. }
  replace (m' - (m + (x - m) / k)) with ((m' - (m + q)) + ((q - d / k) + (d - (x - m)) / k)) by (field; lra).
  apply Rle_trans with (k * (Rabs (m' - (m + q)) + (Rabs (q - d / k) + Rabs (d - (x - m)) * / k))).
  { apply Rmult_le_compat_l; [lra|]. eapply Rle_trans; [apply Rabs_triang|]. apply Rplus_le_compat_l.
    eapply Rle_trans; [apply Rabs_triang|]. apply Rplus_le_compat_l. unfold Rdiv.
    rewrite Rabs_mult, (Rabs_pos_eq (/ k)) by lra. lra. }
  rewrite !Rmult_plus_distr_l.
  replace (k * (Rabs (d - (x - m)) * / k)) with (Rabs (d - (x - m))) by (field; lra).
  assert (k * Rabs (m' - (m + q)) <= k * (uro * B)).
  { apply Rmult_le_compat_l; [lra|]. apply Rle_trans with (1 := E3). apply Rmult_le_compat_l; lra. }
  nra.
Qed.

Definition within (lo hi B : R) (l : list f64) : Prop :=
  Forall (fun x => fin x /\ lo <= RR x <= hi /\ Rabs (RR x) <= B) l.

Definition reals (l : list f64) : list R := map RR l.

(** The values of the fields after one more value. *)
Lemma kw_fields l x : Forall (fun x => fin x /\ Rabs (RR x) <= lim) (l ++ [x]) ->
  (Z.of_nat (length (l ++ [x])) <= 2 ^ 53)%Z ->
  let m := RR (kw_mean (kw_of l)) in
  let m' := RR (kw_mean (kw_of (l ++ [x]))) in
  m' = rnd (m + rnd (rnd (RR x - m) / (INR (length l) + 1))) /\
  fin (fsub x (kw_mean (kw_of l))) /\ RR (fsub x (kw_mean (kw_of l))) = rnd (RR x - m) /\
  fin (fsub x (kw_mean (kw_of (l ++ [x])))) /\ RR (fsub x (kw_mean (kw_of (l ++ [x])))) = rnd (RR x - m') /\
  kw_m2 (kw_of (l ++ [x])) = fadd (kw_m2 (kw_of l))
    (fmul (fsub x (kw_mean (kw_of l))) (fsub x (kw_mean (kw_of (l ++ [x]))))).
Proof.
  intros Hl Hn m m'. assert (Hl' := Hl). apply Forall_app in Hl. destruct Hl as [Hl Hx].
  apply Forall_inv in Hx. destruct Hx as [Fx Hx].
  assert (Hb : forall l0, Forall (fun x => fin x /\ Rabs (RR x) <= lim) l0 -> (Z.of_nat (length l0) <= 2 ^ 53)%Z ->
    fin (kw_mean (kw_of l0)) /\ Rabs (RR (kw_mean (kw_of l0))) <= lim).
  { intros l0 H0 H1. destruct (kw_inv l0 H0) as (F & _ & Hz & Hr); [unfold two64; lia|]. split; [exact F|].
    destruct l0 as [|y l0]; [rewrite Hz by reflexivity; rewrite Rabs_R0; apply bpow_ge_0|].
    apply Rabs_le, Hr; [discriminate|]. revert H0. apply Forall_impl. intros z [_ Hz']. now apply Rabs_le_inv. }
  destruct (Hb (l ++ [x]) Hl' Hn) as [Fm' Bm']. rewrite app_length in Hn. cbn [length] in Hn.
  destruct (Hb l Hl) as [Fm Bm]; [lia|]. fold m in Bm. fold m' in Bm'.
  assert (Fs : forall a, fin a -> Rabs (RR a) <= lim -> fin (fsub x a) /\ RR (fsub x a) = rnd (RR x - RR a)).
  { intros a Fa Ba. destruct (fsub_ok x a Fx Fa); [|auto].
    apply (no_overflow _ 1023); [lia|]. rewrite <- two_lim. pose proof (Rabs_triang (RR x) (- RR a)).
    rewrite Rabs_Ropp in *. unfold Rminus. lra. }
  destruct (Fs _ Fm Bm) as [F1 E1]. destruct (Fs _ Fm' Bm') as [F2 E2].
  assert (Em2 : kw_m2 (kw_of (l ++ [x])) = fadd (kw_m2 (kw_of l))
    (fmul (fsub x (kw_mean (kw_of l))) (fsub x (kw_mean (kw_of (l ++ [x])))))).
  { unfold kw_of. rewrite fold_left_app. reflexivity. }
  repeat (split; auto).
  pose proof (kw_count_of l) as Hc. rewrite u64_small in Hc by (unfold two64; lia).
  assert (E : kw_mean (kw_of (l ++ [x])) =
    fadd (kw_mean (kw_of l)) (fdiv (fsub x (kw_mean (kw_of l))) (of_Z (Z.of_nat (length l) + 1)))).
  { unfold kw_of in *. rewrite fold_left_app. cbn [fold_left]. set (a := fold_left _ l _) in *. unfold kw_step.
    cbn [kw_mean numF n_add n_sub n_div n_ofZ]. rewrite Hc, u64_small by (unfold two64; lia). reflexivity. }
  destruct (of_Z_exact (Z.of_nat (length l) + 1)) as [En Fn]; [lia|].
  unfold m'. rewrite E in *. destruct (fadd_inv _ _ Fm') as (_ & Fd & ->). fold m.
  destruct (fdiv_inv _ _ Fd Fn) as (_ & _ & ->). rewrite E1, En. fold m.
  rewrite plus_IZR, <- INR_IZR_INZ. reflexivity.
Qed.

Lemma reals_snoc l x : reals (l ++ [x]) = reals l ++ [RR x].
Proof. apply map_app. Qed.

Lemma within_lim lo hi B l : within lo hi B l -> B <= lim -> Forall (fun x => fin x /\ Rabs (RR x) <= lim) l.
Proof. intros H HB. revert H. apply Forall_impl. intros x (F & _ & Hx). split; [exact F|lra]. Qed.

Lemma kw_range lo hi B l : within lo hi B l -> B <= lim -> l <> [] -> (Z.of_nat (length l) <= 2 ^ 53)%Z ->
  fin (kw_mean (kw_of l)) /\ lo <= RR (kw_mean (kw_of l)) <= hi /\ Rabs (RR (kw_mean (kw_of l))) <= B.
Proof.
  intros Hw HB Hl Hn. destruct (kw_inv l (within_lim _ _ _ _ Hw HB)) as (F & _ & _ & H); [unfold two64; lia|].
  split; [exact F|]. split; [|apply Rabs_le]; apply H; auto; revert Hw; apply Forall_impl; intros x (_ & Hx & HBx); auto.
  now apply Rabs_le_inv.
Qed.

Lemma kw_mean_error lo hi B l : within lo hi B l -> B <= lim -> l <> [] -> (Z.of_nat (length l) <= 2 ^ 53)%Z ->
  let n := INR (length l) in
  Rabs (n * RR (kw_mean (kw_of l)) - sumR (reals l)) <=
    n * ((2 * uro + uro ^ 2) * (hi - lo)) + n * (n + 1) / 2 * (uro * B + eta).
Proof.
  pose proof uro_pos as U. assert (Pe : 0 < eta) by apply bpow_gt_0.
  intros Hw HB. induction l as [|x l IH] using rev_ind; [congruence|]. intros _ Hn n.
  destruct (kw_fields l x (within_lim _ _ _ _ Hw HB) Hn) as (Em & _).
  destruct (kw_range lo hi B (l ++ [x]) Hw HB) as (Fm' & Rm' & Bm'); [destruct l; discriminate|exact Hn|].
  assert (Hw' := Hw). apply Forall_app in Hw'. destruct Hw' as [Hwl Hx]. apply Forall_inv in Hx. destruct Hx as (Fx & Hx & HBx).
  subst n. rewrite app_length in *. cbn [length] in *. rewrite plus_INR. cbn [INR]. rewrite reals_snoc, sumR_snoc.
  set (n := INR (length l)) in *. assert (Pn : 0 <= n) by apply pos_INR.
  set (m' := RR (kw_mean (kw_of (l ++ [x])))) in *. set (m := RR (kw_mean (kw_of l))) in *.
  destruct l as [|y l0].
  { cbn [length INR] in n. subst n. assert (Em0 : m' = RR x).
    { rewrite Em. unfold m. cbn [kw_of fold_left kw_new kw_mean numF n_ofZ]. change (of_Z 0) with f0. rewrite RR_f0.
      rewrite Rminus_0_r, Rplus_0_l. replace (rnd (RR x) / (0 + 1)) with (RR x); [rewrite !(rnd_fmt (RR x)); auto using fmt_RR|].
      rewrite (rnd_fmt (RR x)) by apply fmt_RR. field. }
    rewrite Em0. cbn [reals map]. unfold sumR. cbn [fold_right].
    replace ((0 + 1) * RR x - (0 + RR x)) with 0 by ring. rewrite Rabs_R0.
    pose proof (Rabs_pos (RR x)). pose proof (Rmult_le_pos uro B). pose proof (pow2_ge_0 uro). nra. }
  set (l := y :: l0) in *. specialize (IH Hwl ltac:(discriminate) ltac:(lia)). cbv zeta in IH. fold n m in IH.
  destruct (kw_range lo hi B l Hwl HB) as (Fm & Rm & Bm); [discriminate|lia|]. fold m in Rm, Bm.
  assert (HD : Rabs (RR x - m) <= hi - lo) by (apply Rabs_le; lra).
  pose proof (step_mean (RR x) m (n + 1) B (hi - lo) (fmt_RR x) (fmt_RR _) ltac:(lra) HD) as S.
  rewrite <- Em in S. specialize (S Bm').
  replace ((n + 1) * m' - (sumR (reals l) + RR x)) with
    ((n + 1) * (m' - (m + (RR x - m) / (n + 1))) + (n * m - sumR (reals l))) by (field; lra).
  eapply Rle_trans; [apply Rabs_triang|]. rewrite Rabs_mult, (Rabs_pos_eq (n + 1)) by lra. lra.
Qed.

Lemma uro_n (n : nat) (e : Z) : (0 <= e)%Z -> (Z.of_nat n <= 2 ^ e)%Z -> uro * INR n <= bpow radix2 (e - 53).
Proof.
  intros He H. rewrite INR_IZR_INZ. apply Rle_trans with (uro * bpow radix2 e).
  - apply Rmult_le_compat_l; [left; apply uro_pos|]. rewrite <- IZR_Zpower by exact He. apply IZR_le. exact H.
  - unfold uro. rewrite <- bpow_plus. apply bpow_le. lia.
Qed.

(** eta is negligible. *)
Lemma eta_small n B : (Z.of_nat n <= 2 ^ 53)%Z -> bpow radix2 (-900) <= B -> (INR n + 1) * eta <= uro * B.
Proof.
  intros Hn HB. pose proof (eta_uro (-900) ltac:(lia)) as H. pose proof uro_pos as U.
  assert (Pe : 0 < eta) by apply bpow_gt_0.
  apply Rle_trans with (IZR (2 ^ 100) * eta); [|nra].
  apply Rmult_le_compat_r; [lra|]. rewrite INR_IZR_INZ, <- plus_IZR. apply IZR_le.
  assert (2 ^ 53 + 1 <= 2 ^ 100)%Z by (vm_compute; discriminate). lia.
Qed.

Lemma meanR_sum l : l <> [] -> INR (length l) * meanR l = sumR l.
Proof. intros H. unfold meanR. field. apply not_0_INR. destruct l; [congruence|discriminate]. Qed.

Lemma reals_length l : length (reals l) = length l. Proof. apply map_length. Qed.

Lemma INR_pos {A} (l : list A) : l <> [] -> 1 <= INR (length l).
Proof. intros H. change 1 with (INR 1). apply le_INR. destruct l; [congruence|cbn; lia]. Qed.

(** The mean is within a few n roundings of the exact one. *)
Lemma kw_mean_bound lo hi B l : within lo hi B l -> bpow radix2 (-900) <= B <= lim -> l <> [] ->
  (Z.of_nat (length l) <= 2 ^ 53)%Z ->
  Rabs (RR (kw_mean (kw_of l)) - meanR (reals l)) <= uro * ((INR (length l) + 2) / 2 * B + 3 * (hi - lo)).
Proof.
  intros Hw HB Hl Hn. pose proof (kw_mean_error lo hi B l Hw ltac:(lra) Hl Hn) as E. cbv zeta in E.
  pose proof (eta_small _ B Hn ltac:(lra)) as Ee. pose proof (INR_pos l Hl) as P.
  set (n := INR (length l)) in *. pose proof uro_pos as U. pose proof uro_small as U2.
  assert (HD : 0 <= hi - lo).
  { destruct l as [|x l0]; [congruence|]. apply Forall_inv in Hw. destruct Hw as (_ & H & _). lra. }
  assert (El : reals l <> []) by (destruct l; [congruence|discriminate]).
  rewrite <- (meanR_sum (reals l) El), reals_length in E. fold n in E.
  rewrite <- Rmult_minus_distr_l, Rabs_mult, (Rabs_pos_eq n) in E by lra.
  apply Rmult_le_reg_l with n; [lra|]. apply Rle_trans with (1 := E).
  replace (n * ((2 * uro + uro ^ 2) * (hi - lo)) + n * (n + 1) / 2 * (uro * B + eta))
    with (n * ((2 * uro + uro ^ 2) * (hi - lo) + (n + 1) / 2 * (uro * B) + ((n + 1) * eta) / 2)) by field.
  apply Rmult_le_compat_l; [lra|]. assert (uro ^ 2 <= uro) by nra. nra.
Qed.

(** ** The sum of squared deviations *)

Lemma sq_devs_snoc l x : l <> [] ->
  sq_devs (l ++ [x]) = sq_devs l + (x - meanR l) * (x - meanR (l ++ [x])).
Proof.
  intros H. assert (P := INR_pos l H). rewrite !sq_devs_sumsq by (destruct l; discriminate || congruence).
  rewrite sumsq_snoc, sumR_snoc. unfold meanR. rewrite sumR_snoc, app_length, plus_INR. cbn [length INR].
  field. lra.
Qed.

Lemma sumR_bounds l lo hi : Forall (fun x => lo <= x <= hi) l ->
  INR (length l) * lo <= sumR l <= INR (length l) * hi.
Proof.
  induction 1 as [|x l Hx _ IH]; [cbn; lra|]. cbn [length]. rewrite S_INR. unfold sumR in *. cbn [fold_right]. lra.
Qed.

Lemma meanR_bounds l lo hi : l <> [] -> Forall (fun x => lo <= x <= hi) l -> lo <= meanR l <= hi.
Proof.
  intros H HF. assert (P := INR_pos l H). pose proof (sumR_bounds l lo hi HF) as S. rewrite <- (meanR_sum l H) in S. nra.
Qed.

Lemma sq_devs_bounds l lo hi : l <> [] -> Forall (fun x => lo <= x <= hi) l ->
  0 <= sq_devs l <= INR (length l) * (hi - lo) ^ 2.
Proof.
  intros H HF. destruct (meanR_bounds l lo hi H HF) as [M1 M2]. unfold sq_devs. generalize dependent (meanR l).
  intros m M1 M2. clear H. induction HF as [|x l Hx _ IH]; [cbn; lra|]. cbn [length map]. rewrite S_INR.
  unfold sumR in *. cbn [fold_right]. assert (0 <= (x - m) ^ 2 <= (hi - lo) ^ 2) by (split; [apply pow2_ge_0|nra]). nra.
Qed.

Lemma within_reals lo hi B l : within lo hi B l -> Forall (fun x => lo <= x <= hi) (reals l).
Proof. unfold within, reals. rewrite Forall_map. apply Forall_impl. intros x (_ & H & _). exact H. Qed.

(** One product of deviations. *)
Lemma step_product x m m' D : fmt x -> fmt m -> fmt m' -> Rabs (x - m) <= D -> Rabs (x - m') <= D ->
  bpow radix2 (-400) <= D ->
  Rabs (rnd (rnd (x - m) * rnd (x - m')) - (x - m) * (x - m')) <= 4 * uro * D ^ 2 /\
  Rabs (rnd (x - m)) <= 2 * D /\ Rabs (rnd (x - m')) <= 2 * D.
Proof.
  intros Fx Fm Fm' H H' HD. pose proof uro_pos as U. pose proof uro_small as U2.
  assert (P : 0 < D) by (pose proof (bpow_gt_0 radix2 (-400)); lra).
  pose proof (minus_err x m Fx Fm) as E. pose proof (minus_err x m' Fx Fm') as E'.
  set (d := rnd (x - m)) in *. set (d' := rnd (x - m')) in *. set (a := x - m) in *. set (b := x - m') in *.
  assert (G : forall v w, Rabs (v - w) <= uro * Rabs w -> Rabs w <= D -> Rabs (v - w) <= uro * D /\ Rabs v <= (1 + uro) * D).
  { intros v w Hv Hw. assert (Rabs (v - w) <= uro * D) by nra. split; [assumption|].
    replace v with ((v - w) + w) by ring. eapply Rle_trans; [apply Rabs_triang|]. lra. }
  destruct (G _ _ E H) as [E1 B1]. destruct (G _ _ E' H') as [E2 B2].
  split; [|split; nra].
  pose proof (rnd_err (d * d')) as R. rewrite Rabs_mult in R.
  assert (Ee : eta <= uro * D ^ 2 / 2).
  { pose proof (eta_uro (-800) ltac:(lia)) as K. assert (bpow radix2 (-800) <= D ^ 2).
    { replace (bpow radix2 (-800)) with (bpow radix2 (-400) * bpow radix2 (-400)) by (rewrite <- bpow_plus; reflexivity).
      pose proof (bpow_gt_0 radix2 (-400)). nra. }
    assert (0 < eta) by apply bpow_gt_0. assert (2 <= IZR (2 ^ 100)) by (apply IZR_le; vm_compute; discriminate). nra. }
  assert (K1 : Rabs d * Rabs d' <= (1 + uro) ^ 2 * D ^ 2).
  { replace ((1 + uro) ^ 2 * D ^ 2) with (((1 + uro) * D) * ((1 + uro) * D)) by ring.
    apply Rmult_le_compat; auto using Rabs_pos. }
  assert (K2 : Rabs (d * d' - a * b) <= (2 * uro + uro ^ 2) * D ^ 2).
  { replace (d * d' - a * b) with ((d - a) * d' + a * (d' - b)) by ring.
    eapply Rle_trans; [apply Rabs_triang|]. rewrite !Rabs_mult.
    assert (Rabs (d - a) * Rabs d' <= (uro * D) * ((1 + uro) * D)) by (apply Rmult_le_compat; auto using Rabs_pos).
    assert (Rabs a * Rabs (d' - b) <= D * (uro * D)) by (apply Rmult_le_compat; auto using Rabs_pos). nra. }
  replace (rnd (d * d') - a * b) with ((rnd (d * d') - d * d') + (d * d' - a * b)) by ring.
  eapply Rle_trans; [apply Rabs_triang|]. assert (0 < D ^ 2) by nra.
  assert (uro * (Rabs d * Rabs d') <= uro * ((1 + uro) ^ 2 * D ^ 2)) by (apply Rmult_le_compat_l; lra).
  assert (uro * ((1 + uro) ^ 2 * D ^ 2) + (2 * uro + uro ^ 2) * D ^ 2 <= 7 / 2 * (uro * D ^ 2)).
  { replace (uro * ((1 + uro) ^ 2 * D ^ 2) + (2 * uro + uro ^ 2) * D ^ 2) with ((3 + 3 * uro + uro ^ 2) * (uro * D ^ 2)) by ring.
    apply Rmult_le_compat_r; [apply Rmult_le_pos; lra|]. nra. }
  lra.
Qed.

(** Error budget. *)
Definition budget (n B D : R) : R := uro * n * D * ((n + 3) * B + (n + 11) * D).

Lemma budget_step n B D : 1 <= n -> 0 <= B -> 0 <= D -> uro * (n + 11) <= 1 ->
  (1 + uro) * (budget n B D + uro * D * ((n + 3) * B + 10 * D)) + uro * (n + 1) * D ^ 2 <= budget (n + 1) B D.
Proof.
  intros Hn HB HD Hu. pose proof uro_pos as U. unfold budget.
  assert (E : uro * (n + 1) * D * ((n + 1 + 3) * B + (n + 1 + 11) * D) -
    ((1 + uro) * (uro * n * D * ((n + 3) * B + (n + 11) * D) + uro * D * ((n + 3) * B + 10 * D)) + uro * (n + 1) * D ^ 2) =
    uro * D * (B * (n + 1 - uro * (n + 1) * (n + 3)) + D * (n + 1 - uro * (n * (n + 11) + 10)))) by ring.
  assert (0 <= n + 1 - uro * (n + 1) * (n + 3)) by nra.
  assert (0 <= n + 1 - uro * (n * (n + 11) + 10)) by nra.
  assert (0 <= uro * D * (B * (n + 1 - uro * (n + 1) * (n + 3)) + D * (n + 1 - uro * (n * (n + 11) + 10)))).
  { apply Rmult_le_pos; [apply Rmult_le_pos; lra|]. apply Rplus_le_le_0_compat; apply Rmult_le_pos; lra. }
  lra.
Qed.

Lemma bpow_up e f : (e <= f)%Z -> bpow radix2 e <= bpow radix2 f. Proof. apply bpow_le. Qed.

Lemma budget_small n B D : 0 <= n -> 0 <= B <= bpow radix2 480 -> 0 <= D <= bpow radix2 481 -> uro * (n + 11) <= 1 ->
  n * D ^ 2 + budget n B D <= bpow radix2 1020.
Proof.
  intros Hn HB HD Hu. pose proof uro_pos as U. unfold budget.
  assert (Hn2 : n <= bpow radix2 53).
  { apply Rmult_le_reg_l with uro; [exact U|]. replace (uro * bpow radix2 53) with 1 by (unfold uro; rewrite <- bpow_plus; reflexivity). lra. }
  set (b := bpow radix2 481) in *. assert (HB' : B <= b) by (apply Rle_trans with (1 := proj2 HB); apply bpow_le; lia).
  assert (Pb : 0 < b) by apply bpow_gt_0.
  assert (K : uro * n * D * ((n + 3) * B + (n + 11) * D) <= n * b * (2 * b)).
  { replace (uro * n * D * ((n + 3) * B + (n + 11) * D)) with ((n * D) * ((uro * (n + 3)) * B + (uro * (n + 11)) * D)) by ring.
    assert (0 <= uro * (n + 3) <= 1) by nra. assert (0 <= uro * (n + 11)) by nra.
    apply Rmult_le_compat; [apply Rmult_le_pos; lra| |apply Rmult_le_compat_l; lra|].
    - apply Rplus_le_le_0_compat; apply Rmult_le_pos; lra.
    - nra. }
  assert (K2 : n * D ^ 2 <= n * (b * b)) by (apply Rmult_le_compat_l; [lra|]; nra).
  apply Rle_trans with (bpow radix2 53 * (4 * (b * b))).
  - assert (0 < b * b) by nra. nra.
  - unfold b. change 4 with (bpow radix2 2). rewrite <- !bpow_plus. apply bpow_le. lia.
Qed.

Lemma kw_m2_error lo hi B l : within lo hi B l -> B <= bpow radix2 480 ->
  bpow radix2 (-400) <= hi - lo <= 2 * B -> l <> [] -> (Z.of_nat (length l) <= 2 ^ 52)%Z ->
  fin (kw_m2 (kw_of l)) /\
  Rabs (RR (kw_m2 (kw_of l)) - sq_devs (reals l)) <= budget (INR (length l)) B (hi - lo).
Proof.
  intros Hw HB HD. pose proof uro_pos as U. pose proof uro_small as U2.
  assert (PD : 0 < hi - lo) by (pose proof (bpow_gt_0 radix2 (-400)); lra).
  assert (HBl : B <= lim) by (apply Rle_trans with (1 := HB); apply bpow_le; lia).
  assert (HBb : bpow radix2 (-900) <= B).
  { apply Rle_trans with (bpow radix2 (-401)); [apply bpow_le; lia|].
    assert (bpow radix2 (-400) = 2 * bpow radix2 (-401)) by (change 2 with (bpow radix2 1); rewrite <- bpow_plus; reflexivity). lra. }
  assert (HDb : hi - lo <= bpow radix2 481).
  { replace (bpow radix2 481) with (2 * bpow radix2 480) by (change 2 with (bpow radix2 1); rewrite <- bpow_plus; reflexivity). lra. }
  set (D := hi - lo) in *.
  induction l as [|x l IH] using rev_ind; [congruence|]. intros _ Hn.
  destruct (kw_fields l x (within_lim _ _ _ _ Hw HBl)) as (Em & F1 & E1 & F2 & E2 & E3); [lia|].
  destruct (kw_range lo hi B (l ++ [x]) Hw HBl) as (Fm' & Rm' & Bm'); [destruct l; discriminate|lia|].
  pose proof (kw_mean_bound lo hi B (l ++ [x]) Hw ltac:(lra) ltac:(destruct l; discriminate) ltac:(lia)) as Me'.
  assert (Hr := within_reals _ _ _ _ Hw).
  assert (Hw' := Hw). apply Forall_app in Hw'. destruct Hw' as [Hwl Hx]. apply Forall_inv in Hx. destruct Hx as (Fx & Hx & HBx).
  assert (Hmax : uro * (INR (length (l ++ [x])) + 11) <= 1).
  { rewrite Rmult_plus_distr_l. pose proof (uro_n (length (l ++ [x])) 52 ltac:(lia) Hn) as K.
    change (52 - 53)%Z with (-1)%Z in K. change (bpow radix2 (-1)) with (/ 2) in K. lra. }
  rewrite E3. destruct l as [|y l0].
  { assert (E0 : RR (kw_mean (kw_of [x])) = RR x).
    { destruct (kw_range (RR x) (RR x) B [x]) as (_ & H & _); try lia; try discriminate; auto; [|lra].
      constructor; [|constructor]. split; [auto|split; [lra|auto]]. }
    cbn [app] in *. assert (Ez : RR (fsub x (kw_mean (kw_of [x]))) = 0).
    { rewrite E2, E0. replace (RR x - RR x) with 0 by ring. apply rnd_0. }
    assert (Hz : Rabs (rnd (RR (fsub x (kw_mean (kw_of []))) * RR (fsub x (kw_mean (kw_of [x]))))) < fmax).
    { rewrite Ez, Rmult_0_r, rnd_0, Rabs_R0. apply bpow_gt_0. }
    destruct (fmul_ok _ _ F1 F2 Hz) as [Ep Fp]. rewrite Ez, Rmult_0_r, rnd_0 in Ep.
    change (kw_m2 (kw_of [])) with f0.
    destruct (fadd_ok f0 _ fin_f0 Fp) as [Es Fs].
    { rewrite RR_f0, Ep, Rplus_0_r, rnd_0, Rabs_R0. apply bpow_gt_0. }
    rewrite RR_f0, Ep, Rplus_0_r, rnd_0 in Es. split; [exact Fs|]. rewrite Es.
    unfold sq_devs, meanR, sumR, reals. cbn [map fold_right length INR].
    replace (0 - ((RR x - (RR x + 0) / 1) ^ 2 + 0)) with 0 by field. rewrite Rabs_R0. unfold budget.
    assert (0 <= B) by (pose proof (bpow_gt_0 radix2 (-900)); lra).
    apply Rmult_le_pos; [apply Rmult_le_pos; [lra|lra]|nra]. }
  set (l := y :: l0) in *. rewrite app_length in Hn, Hmax, Me'. cbn [length] in Hn, Hmax, Me'.
  destruct (IH Hwl ltac:(discriminate) ltac:(lia)) as [Fi Ei].
  destruct (kw_range lo hi B l Hwl HBl) as (Fm & Rm & Bm); [discriminate|lia|].
  pose proof (kw_mean_bound lo hi B l Hwl ltac:(lra) ltac:(discriminate) ltac:(lia)) as Me. fold D in Me, Me'.
  rewrite reals_snoc in *. assert (Nr : reals l <> []) by discriminate.
  assert (Hrl := within_reals _ _ _ _ Hwl).
  destruct (meanR_bounds (reals l) lo hi Nr Hrl) as [M1 M2].
  destruct (meanR_bounds (reals l ++ [RR x]) lo hi) as [M1' M2']; [destruct l; discriminate|exact Hr|].
  destruct (sq_devs_bounds (reals l ++ [RR x]) lo hi) as [S1 S2]; [destruct l; discriminate|exact Hr|].
  rewrite app_length, reals_length in S2. cbn [length] in S2. fold D in S2.
  rewrite app_length. cbn [length]. rewrite plus_INR in *. cbn [INR] in *.
  pose proof (INR_pos l ltac:(discriminate)) as Pn. set (n := INR (length l)) in *.
  rewrite (sq_devs_snoc _ _ Nr) in *. set (S := sq_devs (reals l)) in *.
  set (M := meanR (reals l)) in *. set (M' := meanR (reals l ++ [RR x])) in *.
  set (m' := RR (kw_mean (kw_of (l ++ [x])))) in *. set (m := RR (kw_mean (kw_of l))) in *.
  set (s := RR (kw_m2 (kw_of l))) in *.
  destruct (step_product (RR x) m m' D) as (Pp & B1 & B2); auto using fmt_RR; try apply fmt_RR; [apply Rabs_le; unfold D; lra..|lra|].
  assert (Hov : forall v, Rabs v <= bpow radix2 1021 -> Rabs (rnd v) < fmax).
  { intros v Hv. apply (no_overflow _ 1021); [lia|exact Hv]. }
  assert (HB1 : Rabs (rnd (RR x - m) * rnd (RR x - m')) <= bpow radix2 1021).
  { rewrite Rabs_mult. apply Rle_trans with (bpow radix2 482 * bpow radix2 482).
    - assert (2 * D <= bpow radix2 482).
      { replace (bpow radix2 482) with (2 * bpow radix2 481) by (change 2 with (bpow radix2 1); rewrite <- bpow_plus; reflexivity). lra. }
      apply Rmult_le_compat; auto using Rabs_pos; lra.
    - rewrite <- bpow_plus. apply bpow_le. lia. }
  destruct (fmul_ok _ _ F1 F2) as [Ep Fp]; [rewrite E1, E2; apply Hov, HB1|].
  rewrite E1, E2 in Ep. set (p := rnd (rnd (RR x - m) * rnd (RR x - m'))) in *.
  assert (Ed : Rabs (p - (RR x - M) * (RR x - M')) <= uro * D * ((n + 3) * B + 10 * D)).
  { replace (p - (RR x - M) * (RR x - M')) with
      ((p - (RR x - m) * (RR x - m')) + (- ((RR x - m) * (m' - M')) + - ((m - M) * (RR x - M')))) by ring.
    eapply Rle_trans; [apply Rabs_triang|].
    assert (Q1 : Rabs (- ((RR x - m) * (m' - M'))) <= D * (uro * ((n + 1 + 2) / 2 * B + 3 * D))).
    { rewrite Rabs_Ropp, Rabs_mult. apply Rmult_le_compat; auto using Rabs_pos. apply Rabs_le. unfold D. lra. }
    assert (Q2 : Rabs (- ((m - M) * (RR x - M'))) <= (uro * ((n + 2) / 2 * B + 3 * D)) * D).
    { rewrite Rabs_Ropp, Rabs_mult. apply Rmult_le_compat; auto using Rabs_pos. apply Rabs_le. unfold D. lra. }
    pose proof (Rabs_triang (- ((RR x - m) * (m' - M'))) (- ((m - M) * (RR x - M')))) as Q3.
    assert (0 <= uro * D * B) by (apply Rmult_le_pos; [apply Rmult_le_pos; lra|pose proof (bpow_gt_0 radix2 (-900)); lra]).
    lra. }
  assert (Pb : 0 <= B) by (pose proof (bpow_gt_0 radix2 (-900)); lra).
  assert (Hb := budget_step n B D Pn Pb ltac:(lra) ltac:(lra)).
  assert (Hsm := budget_small (n + 1) B D ltac:(lra) ltac:(lra) ltac:(lra) Hmax).
  set (t := uro * D * ((n + 3) * B + 10 * D)) in *.
  set (S' := S + (RR x - M) * (RR x - M')) in *.
  assert (Hsp : Rabs (s + p - S') <= budget n B D + t).
  { replace (s + p - S') with ((s - S) + (p - (RR x - M) * (RR x - M'))) by (unfold S'; ring).
    eapply Rle_trans; [apply Rabs_triang|]. lra. }
  assert (Ha : Rabs (s + p) <= budget n B D + t + (n + 1) * D ^ 2).
  { replace (s + p) with ((s + p - S') + S') by ring. eapply Rle_trans; [apply Rabs_triang|].
    rewrite (Rabs_pos_eq S') by lra. lra. }
  assert (Pbt : 0 <= budget n B D + t) by (eapply Rle_trans; [apply Rabs_pos|exact Hsp]).
  destruct (fadd_ok _ _ Fi Fp) as [Es Fs].
  { rewrite Ep. apply Hov. fold s. apply Rle_trans with (1 := Ha).
    apply Rle_trans with (bpow radix2 1020); [|apply bpow_le; lia]. nra. }
  split; [exact Fs|]. rewrite Es, Ep. fold s.
  assert (Fp' : fmt p) by apply fmt_rnd.
  pose proof (plus_err s p (fmt_RR _) Fp') as Er.
  replace (rnd (s + p) - S') with ((rnd (s + p) - (s + p)) + (s + p - S')) by ring.
  eapply Rle_trans; [apply Rabs_triang|]. apply Rle_trans with (2 := Hb).
  assert (uro * Rabs (s + p) <= uro * (budget n B D + t + (n + 1) * D ^ 2)) by (apply Rmult_le_compat_l; lra).
  lra.
Qed.

(** ** The reported numbers *)

Definition divisor (corrected : bool) (n : R) : R := if corrected then n - 1 else n.

Lemma kw_variance_error lo hi B l c : within lo hi B l -> B <= bpow radix2 480 ->
  bpow radix2 (-400) <= hi - lo <= 2 * B -> (2 <= Z.of_nat (length l) <= 2 ^ 52)%Z ->
  let n := INR (length l) in
  let d := divisor c n in
  fin (KwVariance numF c (kw_of l)) /\ 0 <= RR (KwVariance numF c (kw_of l)) /\
  Rabs (RR (KwVariance numF c (kw_of l)) - sq_devs (reals l) / d) <=
    uro * (n / d) * (hi - lo) * ((n + 4) * B + (n + 14) * (hi - lo)).
Proof.
  intros Hw HB HD Hn n d. pose proof uro_pos as U.
  assert (Hl : l <> []) by (destruct l; [cbn in Hn; lia|discriminate]).
  destruct (kw_m2_error lo hi B l Hw HB HD Hl ltac:(lia)) as [F2 E2]. fold n in E2.
  assert (HBl : B <= lim) by (apply Rle_trans with (1 := HB); apply bpow_le; lia).
  assert (N2 : nonneg (kw_m2 (kw_of l))) by (apply (kw_inv l (within_lim _ _ _ _ Hw HBl)); unfold two64; lia).
  assert (P2 : 0 <= RR (kw_m2 (kw_of l))).
  { apply nonneg_cases in N2. destruct N2 as [[_ H]|H]; [exact H|]. rewrite H in F2. discriminate. }
  destruct (sq_devs_bounds (reals l) lo hi) as [S1 S2]; [destruct l; [congruence|discriminate]|eapply within_reals; eauto|].
  rewrite reals_length in S2. fold n in S2.
  assert (Hn2 : 2 <= n) by (unfold n; rewrite INR_IZR_INZ; apply IZR_le; lia).
  assert (Hd : 1 <= d <= n) by (unfold d, divisor; destruct c; lra).
  assert (Ev : KwVariance numF c (kw_of l) = fdiv (kw_m2 (kw_of l)) (of_Z (if c then Z.of_nat (length l) - 1 else Z.of_nat (length l)))).
  { unfold KwVariance. rewrite kw_count_of, u64_small by (unfold two64; lia).
    destruct (Z.ltb_spec (Z.of_nat (length l)) 2); [lia|]. destruct c; [rewrite u64_small by (unfold two64; lia)|]; reflexivity. }
  destruct (of_Z_exact (if c then Z.of_nat (length l) - 1 else Z.of_nat (length l))) as [En Fn]; [destruct c; lia|].
  assert (En' : RR (of_Z (if c then Z.of_nat (length l) - 1 else Z.of_nat (length l))) = d).
  { rewrite En. unfold d, divisor, n. destruct c; rewrite ?minus_IZR, <- INR_IZR_INZ; reflexivity. }
  clear En. rewrite Ev. set (D := hi - lo) in *. set (S := sq_devs (reals l)) in *. set (s := RR (kw_m2 (kw_of l))) in *.
  assert (PD : 0 < D) by (pose proof (bpow_gt_0 radix2 (-400)); lra).
  assert (PB : 0 < B) by lra.
  assert (Hmax : uro * (n + 11) <= 1).
  { rewrite Rmult_plus_distr_l. pose proof (uro_n (length l) 52 ltac:(lia) ltac:(lia)) as K. pose proof uro_small.
    change (52 - 53)%Z with (-1)%Z in K. change (bpow radix2 (-1)) with (/ 2) in K. fold n in K. lra. }
  assert (Hs : s <= n * D ^ 2 + budget n B D) by (apply Rabs_le_inv in E2; lra).
  assert (HDb : D <= bpow radix2 481).
  { replace (bpow radix2 481) with (2 * bpow radix2 480) by (change 2 with (bpow radix2 1); rewrite <- bpow_plus; reflexivity). lra. }
  pose proof (budget_small n B D ltac:(lra) ltac:(lra) ltac:(lra) Hmax) as Hsm.
  assert (Pi : 0 < / d <= 1) by (split; [apply Rinv_0_lt_compat; lra|rewrite <- Rinv_1; apply Rinv_le; lra]).
  destruct (fdiv_ok (kw_m2 (kw_of l)) (of_Z (if c then Z.of_nat (length l) - 1 else Z.of_nat (length l)))) as [Eq Fq]; auto.
  { rewrite En'. lra. }
  { rewrite En'. fold s. apply (no_overflow _ 1020); [lia|]. unfold Rdiv. rewrite Rabs_mult, (Rabs_pos_eq s), (Rabs_pos_eq (/ d)) by lra. nra. }
  split; [exact Fq|]. rewrite Eq, En'. fold s. split; [apply rnd_pos; apply Rmult_le_pos; lra|].
  pose proof (rnd_err (s / d)) as Er. rewrite (Rabs_pos_eq (s / d)) in Er by (apply Rmult_le_pos; lra).
  replace (rnd (s / d) - S / d) with ((rnd (s / d) - s / d) + (s - S) * / d) by (field; lra).
  eapply Rle_trans; [apply Rabs_triang|]. rewrite (Rabs_mult (s - S)), (Rabs_pos_eq (/ d)) by lra.
  assert (Ee : eta <= uro * D ^ 2).
  { pose proof (eta_uro (-800) ltac:(lia)) as K. assert (bpow radix2 (-800) <= D ^ 2).
    { replace (bpow radix2 (-800)) with (bpow radix2 (-400) * bpow radix2 (-400)) by (rewrite <- bpow_plus; reflexivity).
      pose proof (bpow_gt_0 radix2 (-400)). nra. }
    assert (0 < eta) by apply bpow_gt_0. assert (1 <= IZR (2 ^ 100)) by (apply IZR_le; vm_compute; discriminate). nra. }
  assert (Hr : 1 <= n * / d) by (apply Rmult_le_reg_r with d; [lra|]; rewrite Rmult_assoc, Rinv_l by lra; lra).
  apply Rle_trans with (uro * (s / d) + eta + budget n B D * / d).
  { apply Rplus_le_compat; [exact Er|apply Rmult_le_compat_r; lra]. }
  apply Rle_trans with (uro * ((n * D ^ 2 + budget n B D) / d) + uro * (n * / d) * D ^ 2 + budget n B D * / d).
  { apply Rplus_le_compat_r. apply Rplus_le_compat.
    - apply Rmult_le_compat_l; [lra|]. apply Rmult_le_compat_r; lra.
    - assert (0 <= uro * D ^ 2) by (apply Rmult_le_pos; [lra|nra]). nra. }
  unfold budget, Rdiv.
  replace (uro * ((n * D ^ 2 + uro * n * D * ((n + 3) * B + (n + 11) * D)) * / d) + uro * (n * / d) * D ^ 2 +
     uro * n * D * ((n + 3) * B + (n + 11) * D) * / d)
   with (uro * (n * / d) * D * (2 * D + (uro * (n + 3)) * B + (uro * (n + 11)) * D + ((n + 3) * B + (n + 11) * D))) by ring.
  apply Rmult_le_compat_l; [apply Rmult_le_pos; [apply Rmult_le_pos; lra|lra]|].
  assert (uro * (n + 3) <= 1) by nra. nra.
Qed.

Lemma sqrt_dist a b : 0 <= a -> 0 <= b -> Rabs (sqrt a - sqrt b) <= sqrt (Rabs (a - b)).
Proof.
  assert (G : forall a b, 0 <= b <= a -> sqrt a - sqrt b <= sqrt (a - b)).
  { intros a0 b0 H. pose proof (sqrt_pos a0). pose proof (sqrt_pos b0). pose proof (sqrt_pos (a0 - b0)).
    pose proof (sqrt_sqrt a0 ltac:(lra)). pose proof (sqrt_sqrt b0 ltac:(lra)). pose proof (sqrt_sqrt (a0 - b0) ltac:(lra)).
    apply Rnot_lt_le. intros K. nra. }
  intros Ha Hb. destruct (Rle_lt_dec b a) as [H|H].
  - rewrite (Rabs_pos_eq (a - b)) by lra. rewrite Rabs_pos_eq; [apply G; lra|].
    pose proof (sqrt_le_1 b a Hb Ha H). lra.
  - rewrite (Rabs_minus_sym a b), (Rabs_minus_sym (sqrt a)), (Rabs_pos_eq (b - a)) by lra.
    rewrite Rabs_pos_eq; [apply G; lra|]. pose proof (sqrt_le_1 a b Ha Hb ltac:(lra)). lra.
Qed.

Lemma kw_deviation_error lo hi B l c : within lo hi B l -> B <= bpow radix2 480 ->
  bpow radix2 (-400) <= hi - lo <= 2 * B -> (2 <= Z.of_nat (length l) <= 2 ^ 52)%Z ->
  let n := INR (length l) in
  let d := divisor c n in
  fin (KwStandardDeviation numF c (kw_of l)) /\
  Rabs (RR (KwStandardDeviation numF c (kw_of l)) - sqrt (sq_devs (reals l) / d)) <=
    uro * sqrt (sq_devs (reals l) / d) +
    2 * sqrt (uro * (n / d) * (hi - lo) * ((n + 4) * B + (n + 14) * (hi - lo))).
Proof.
  intros Hw HB HD Hn n d. destruct (kw_variance_error lo hi B l c Hw HB HD Hn) as (Fv & Pv & Ev). fold n in Ev. fold d in Ev.
  assert (Hl : l <> []) by (destruct l; [cbn in Hn; lia|discriminate]).
  destruct (sq_devs_bounds (reals l) lo hi) as [S1 _]; [destruct l; [congruence|discriminate]|eapply within_reals; eauto|].
  assert (Hn2 : 2 <= n) by (unfold n; rewrite INR_IZR_INZ; apply IZR_le; lia).
  assert (Hd : 1 <= d <= n) by (unfold d, divisor; destruct c; lra).
  unfold KwStandardDeviation. cbn [numF n_sqrt]. destruct (fsqrt_ok _ Fv Pv) as [Es Fs]. split; [exact Fs|]. rewrite Es.
  set (v := RR (KwVariance numF c (kw_of l))) in *. set (V := sq_devs (reals l) / d) in *.
  set (D := hi - lo) in *. set (err := uro * (n / d) * D * ((n + 4) * B + (n + 14) * D)) in *.
  assert (PV : 0 <= V) by (apply Rmult_le_pos; [exact S1|left; apply Rinv_0_lt_compat; lra]).
  pose proof (sqrt_dist v V Pv PV) as H. pose proof (sqrt_le_1 (Rabs (v - V)) err (Rabs_pos _) (Rle_trans _ _ _ (Rabs_pos _) Ev) Ev) as H1.
  pose proof (rnd_err (sqrt v)) as Er. rewrite (Rabs_pos_eq (sqrt v)) in Er by apply sqrt_pos.
  pose proof uro_pos as U. pose proof uro_small as U2.
  assert (PD : bpow radix2 (-400) <= D) by apply HD. pose proof (bpow_gt_0 radix2 (-400)) as P4.
  assert (Ee : eta <= sqrt err / 2).
  { assert (L : bpow radix2 (-900) <= sqrt err).
    { rewrite <- (sqrt_square (bpow radix2 (-900))) by apply bpow_ge_0. apply sqrt_le_1.
      - apply Rmult_le_pos; apply bpow_ge_0.
      - apply Rle_trans with (1 := Rabs_pos _) (2 := Ev).
      - rewrite <- bpow_plus. apply Rle_trans with (uro * bpow radix2 (-400) * bpow radix2 (-400)).
        + unfold uro. rewrite <- !bpow_plus. apply bpow_le. lia.
        + unfold err. assert (1 <= n / d).
          { apply Rmult_le_reg_r with d; [lra|]. unfold Rdiv. rewrite Rmult_assoc, Rinv_l by lra. lra. }
          assert (D <= (n + 4) * B + (n + 14) * D) by nra.
          apply Rmult_le_compat; [apply Rmult_le_pos; lra|lra| |lra].
          apply Rmult_le_compat; [lra|lra| |lra]. nra. }
    apply Rle_trans with (bpow radix2 (-900) / 2); [|lra].
    unfold Rdiv. change (/ 2) with (bpow radix2 (-1)). rewrite <- bpow_plus. apply bpow_le. lia. }
  replace (rnd (sqrt v) - sqrt V) with ((rnd (sqrt v) - sqrt v) + (sqrt v - sqrt V)) by ring.
  eapply Rle_trans; [apply Rabs_triang|].
  assert (sqrt v <= sqrt V + sqrt err) by (apply Rabs_le_inv in H; lra).
  pose proof (sqrt_pos err). nra.
Qed.

Lemma kw_sum_error lo hi B l : within lo hi B l -> bpow radix2 (-900) <= B <= bpow radix2 960 -> l <> [] ->
  (Z.of_nat (length l) <= 2 ^ 53)%Z ->
  let n := INR (length l) in
  fin (KwSum numF (kw_of l)) /\
  Rabs (RR (KwSum numF (kw_of l)) - sumR (reals l)) <= uro * n * ((n + 6) / 2 * B + 3 * (hi - lo)).
Proof.
  intros Hw HB Hl Hn n. assert (HBl : B <= lim) by (apply Rle_trans with (1 := proj2 HB); apply bpow_le; lia).
  destruct (kw_range lo hi B l Hw HBl Hl Hn) as (Fm & _ & Bm).
  pose proof (kw_mean_bound lo hi B l Hw ltac:(lra) Hl Hn) as E. fold n in E. pose proof (INR_pos l Hl) as Pn. fold n in Pn.
  pose proof (eta_small _ B Hn ltac:(lra)) as Ee. fold n in Ee.
  unfold KwSum. rewrite kw_count_of, u64_small by (unfold two64; lia). cbn [numF n_mul n_ofZ].
  destruct (of_Z_exact (Z.of_nat (length l))) as [En Fn]; [lia|]. rewrite <- INR_IZR_INZ in En. fold n in En.
  set (m := RR (kw_mean (kw_of l))) in *. pose proof uro_pos as U.
  assert (Hn53 : n <= bpow radix2 53).
  { unfold n. rewrite INR_IZR_INZ, <- IZR_Zpower by lia. apply IZR_le. exact Hn. }
  destruct (fmul_ok _ _ Fm Fn) as [Ep Fp].
  { rewrite En. fold m. apply (no_overflow _ 1013); [lia|]. rewrite Rabs_mult, (Rabs_pos_eq n) by lra.
    apply Rle_trans with (bpow radix2 960 * bpow radix2 53); [|rewrite <- bpow_plus; apply bpow_le; lia].
    apply Rmult_le_compat; auto using Rabs_pos; lra. }
  split; [exact Fp|]. rewrite Ep, En. fold m.
  assert (El : reals l <> []) by (destruct l; [congruence|discriminate]).
  rewrite <- (meanR_sum (reals l) El), reals_length. fold n. set (M := meanR (reals l)) in *.
  pose proof (rnd_err (m * n)) as Er. rewrite Rabs_mult, (Rabs_pos_eq n) in Er by lra.
  replace (rnd (m * n) - n * M) with ((rnd (m * n) - m * n) + n * (m - M)) by ring.
  eapply Rle_trans; [apply Rabs_triang|]. rewrite (Rabs_mult n), (Rabs_pos_eq n) by lra.
  assert (n * Rabs (m - M) <= n * (uro * ((n + 2) / 2 * B + 3 * (hi - lo)))) by (apply Rmult_le_compat_l; lra).
  assert (uro * (Rabs m * n) <= uro * (B * n)) by (apply Rmult_le_compat_l; [lra|]; apply Rmult_le_compat_r; lra).
  assert (Pe : 0 < eta) by apply bpow_gt_0.
  assert (eta <= uro * B) by nra. assert (0 <= uro * B) by lra. nra.
Qed.

(** Equal values: nothing is lost. *)
Lemma kw_constant l x : l <> [] -> (Z.of_nat (length l) <= 2 ^ 53)%Z -> fin x -> Rabs (RR x) <= lim ->
  Forall (fun y => y = x) l ->
  RR (kw_mean (kw_of l)) = RR x /\ fin (kw_m2 (kw_of l)) /\ RR (kw_m2 (kw_of l)) = 0.
Proof.
  intros Hl Hn Fx Hx HF.
  assert (Hw : within (RR x) (RR x) (Rabs (RR x)) l).
  { revert HF. apply Forall_impl. intros y ->. split; [auto|split; lra]. }
  assert (Em : forall l0, l0 <> [] -> (Z.of_nat (length l0) <= 2 ^ 53)%Z -> within (RR x) (RR x) (Rabs (RR x)) l0 -> RR (kw_mean (kw_of l0)) = RR x).
  { intros l0 H0 H1 H2. destruct (kw_range _ _ _ _ H2 Hx H0 H1) as (_ & H & _). lra. }
  split; [now apply Em|]. clear Hl. induction l as [|y l IH] using rev_ind; [split; reflexivity|].
  apply Forall_app in HF as HF'. destruct HF' as [HFl HFy]. apply Forall_inv in HFy. subst y.
  apply Forall_app in Hw as Hw'. destruct Hw' as [Hwl _].
  assert (Hnl : (Z.of_nat (length l) <= 2 ^ 53)%Z) by (rewrite app_length in Hn; lia).
  destruct (IH Hnl HFl Hwl) as [F2 E2].
  destruct (kw_fields l x (within_lim _ _ _ _ Hw Hx) Hn) as (_ & F1 & _ & F3 & E3 & E).
  rewrite E. rewrite (Em (l ++ [x])) in E3 by (auto; destruct l; discriminate).
  replace (RR x - RR x) with 0 in E3 by ring. rewrite rnd_0 in E3.
  destruct (fmul_ok _ _ F1 F3) as [Ep Fp]; [rewrite E3, Rmult_0_r, rnd_0, Rabs_R0; apply bpow_gt_0|].
  rewrite E3, Rmult_0_r, rnd_0 in Ep.
  destruct (fadd_ok _ _ F2 Fp) as [Es Fs]; [rewrite E2, Ep, Rplus_0_r, rnd_0, Rabs_R0; apply bpow_gt_0|].
  rewrite E2, Ep, Rplus_0_r, rnd_0 in Es. auto.
Qed.

(** ** Means of compensated sums *)

Lemma sum_abs_bound l B : Forall (fun x => Rabs x <= B) l -> sum_abs l <= INR (length l) * B /\ Rabs (sumR l) <= INR (length l) * B.
Proof.
  induction 1 as [|x l Hx _ [IH1 IH2]]; [cbn; rewrite Rabs_R0; lra|]. cbn [length]. rewrite S_INR.
  unfold sum_abs, sumR in *. cbn [map fold_right]. pose proof (Rabs_triang x (fold_right Rplus 0 l)). lra.
Qed.

Lemma mean_of_sum (S : f64) (n : nat) s B E : fin S -> (1 <= Z.of_nat n <= 2 ^ 53)%Z ->
  Rabs (RR S - s) <= INR n * E -> Rabs s <= INR n * B ->
  fin (fdiv S (of_Z (Z.of_nat n))) /\
  Rabs (RR (fdiv S (of_Z (Z.of_nat n))) - s / INR n) <= E + uro * (B + E) + eta.
Proof.
  intros F Hn HE HB. destruct (of_Z_exact (Z.of_nat n)) as [En Fn]; [lia|]. rewrite <- INR_IZR_INZ in En.
  assert (Pn : 1 <= INR n) by (rewrite INR_IZR_INZ; apply IZR_le; lia).
  assert (Pi : 0 < / INR n <= 1) by (split; [apply Rinv_0_lt_compat; lra|rewrite <- Rinv_1; apply Rinv_le; lra]).
  set (N := INR n) in *.
  destruct (fdiv_ok S (of_Z (Z.of_nat n)) F) as [Eq Fq]; [rewrite En; lra| |].
  { rewrite En. apply Rle_lt_trans with (Rabs (RR S)); [|apply RR_lt_fmax].
    apply rnd_abs_le; [apply fmt_abs, fmt_RR|]. unfold Rdiv. rewrite Rabs_mult, (Rabs_pos_eq (/ N)) by lra.
    pose proof (Rabs_pos (RR S)). nra. }
  split; [exact Fq|]. rewrite Eq, En.
  assert (Q1 : Rabs (RR S / N - s / N) <= E).
  { replace (RR S / N - s / N) with ((RR S - s) * / N) by (field; lra). rewrite Rabs_mult, (Rabs_pos_eq (/ N)) by lra.
    apply Rle_trans with (N * E * / N); [apply Rmult_le_compat_r; lra|]. right. field. lra. }
  assert (Q2 : Rabs (s / N) <= B).
  { unfold Rdiv. rewrite Rabs_mult, (Rabs_pos_eq (/ N)) by lra.
    apply Rle_trans with (N * B * / N); [apply Rmult_le_compat_r; lra|]. right. field. lra. }
  pose proof (rnd_err (RR S / N)) as Er. pose proof uro_pos as U.
  assert (Q3 : Rabs (RR S / N) <= B + E).
  { replace (RR S / N) with ((RR S / N - s / N) + s / N) by ring. eapply Rle_trans; [apply Rabs_triang|]. lra. }
  replace (rnd (RR S / N) - s / N) with ((rnd (RR S / N) - RR S / N) + (RR S / N - s / N)) by ring.
  eapply Rle_trans; [apply Rabs_triang|]. nra.
Qed.

Lemma bounded_sum B l : Forall (fun x => fin x /\ Rabs (RR x) <= B) l -> B <= bpow radix2 960 ->
  (Z.of_nat (length l) <= 2 ^ 52)%Z -> Forall fin l /\ sum_abs (map RR l) <= INR (length l) * B /\
  Rabs (sumR (map RR l)) <= INR (length l) * B /\ sum_abs (map RR l) <= b1019.
Proof.
  intros H HB Hn. destruct (sum_abs_bound (map RR l) B) as [S1 S2].
  { apply Forall_map. revert H. apply Forall_impl. tauto. }
  rewrite map_length in *. split; [revert H; apply Forall_impl; tauto|]. split; [exact S1|]. split; [exact S2|].
  apply Rle_trans with (1 := S1). apply Rle_trans with (bpow radix2 52 * bpow radix2 960).
  - apply Rle_trans with (INR (length l) * bpow radix2 960); [apply Rmult_le_compat_l; [apply pos_INR|exact HB]|].
    apply Rmult_le_compat_r; [apply bpow_ge_0|]. rewrite INR_IZR_INZ, <- IZR_Zpower by lia. apply IZR_le. exact Hn.
  - unfold b1019. rewrite <- bpow_plus. apply bpow_le. lia.
Qed.

Lemma kahan_count_of l : k_count (kahan_of l) = u64 (Z.of_nat (length l)).
Proof. apply (count_mod (kahan_step numF) k_count (kahan_new numF)); reflexivity. Qed.
Lemma neumaier_count_of l : n_count (neumaier_of l) = u64 (Z.of_nat (length l)).
Proof. apply (count_mod (neumaier_step numF) n_count (neumaier_new numF)); reflexivity. Qed.

Lemma kahan_mean_error B l : Forall (fun x => fin x /\ Rabs (RR x) <= B) l ->
  bpow radix2 (-900) <= B <= bpow radix2 960 -> (1 <= Z.of_nat (length l) <= 2 ^ 49)%Z ->
  fin (KahanMean numF (kahan_of l)) /\ Rabs (RR (KahanMean numF (kahan_of l)) - meanR (map RR l)) <= 7 * uro * B.
Proof.
  intros H HB Hn. destruct (bounded_sum B l H) as (Ff & S1 & S2 & S3); [lra|lia|].
  destruct (kahan_finite l Ff ltac:(lia) S3) as [F _].
  destruct (kahan_bound l ltac:(lia) F) as [_ E]. unfold KahanSum in E.
  set (S := RR (k_sum (kahan_of l))) in *. set (s := sumR (map RR l)) in *. set (A := sum_abs (map RR l)) in *.
  pose proof uro_pos as U. pose proof uro_small as U2. set (n := INR (length l)) in *.
  assert (Pn : 1 <= n) by (unfold n; rewrite INR_IZR_INZ; apply IZR_le; lia).
  assert (Hnu : 16 * (n * uro) <= 1).
  { pose proof (uro_n (length l) 49 ltac:(lia) ltac:(lia)) as K. change (49 - 53)%Z with (-4)%Z in K.
    change (bpow radix2 (-4)) with (/ 16) in K. fold n in K. lra. }
  assert (PB : 0 < B) by (pose proof (bpow_gt_0 radix2 (-900)); lra).
  assert (PA : 0 <= A) by apply sum_abs_pos.
  assert (E1 : Rabs (S - s) <= uro * Rabs S + 3 * uro * (n * B)).
  { apply Rle_trans with (1 := E). apply Rplus_le_compat_l.
    apply Rmult_le_compat; [| |nra|lra]; [|exact PA]. nra. }
  assert (E2 : Rabs S <= 2 * (n * B)).
  { assert (Rabs S <= Rabs s + Rabs (S - s)) by (replace S with (s + (S - s)) at 1 by ring; apply Rabs_triang).
    assert (0 < n * B) by nra. nra. }
  assert (E3 : Rabs (S - s) <= n * (101 / 20 * uro * B)).
  { assert (Rabs S <= Rabs s + Rabs (S - s)) by (replace S with (s + (S - s)) at 1 by ring; apply Rabs_triang).
    assert (0 < n * B) by nra. assert (uro * Rabs S <= uro * (2 * (n * B))) by nra. nra. }
  assert (Em : KahanMean numF (kahan_of l) = fdiv (k_sum (kahan_of l)) (of_Z (Z.of_nat (length l)))).
  { unfold KahanMean. rewrite kahan_count_of, u64_small by (unfold two64; lia). reflexivity. }
  rewrite Em. destruct (mean_of_sum (k_sum (kahan_of l)) (length l) s B (101 / 20 * uro * B) F ltac:(lia) E3 S2) as [Fm Hm].
  split; [exact Fm|]. unfold meanR. rewrite map_length. fold s. apply Rle_trans with (1 := Hm).
  pose proof (eta_small (length l) B ltac:(lia) ltac:(lra)) as Ee. fold n in Ee.
  assert (Pe : 0 < eta) by apply bpow_gt_0. assert (2 * eta <= uro * B) by nra. nra.
Qed.

Lemma neumaier_mean_error B l : Forall (fun x => fin x /\ Rabs (RR x) <= B) l ->
  bpow radix2 (-900) <= B <= bpow radix2 960 -> (1 <= Z.of_nat (length l) <= 2 ^ 52)%Z ->
  fin (NeumaierMean numF (neumaier_of l)) /\
  Rabs (RR (NeumaierMean numF (neumaier_of l)) - meanR (map RR l)) <= (3 * uro + 6 * (INR (length l) * uro) ^ 2) * B.
Proof.
  intros H HB Hn. destruct (bounded_sum B l H) as (Ff & S1 & S2 & S3); [lra|lia|].
  destruct (neumaier_finite l Ff ltac:(lia) S3) as (_ & _ & F).
  pose proof (neumaier_bound_simple l ltac:(lia) F) as E.
  set (Sv := NeumaierSum numF (neumaier_of l)) in *. set (s := sumR (map RR l)) in *. set (A := sum_abs (map RR l)) in *.
  pose proof uro_pos as U. pose proof uro_small as U2. set (n := INR (length l)) in *.
  assert (Pn : 1 <= n) by (unfold n; rewrite INR_IZR_INZ; apply IZR_le; lia).
  assert (PB : 0 < B) by (pose proof (bpow_gt_0 radix2 (-900)); lra).
  assert (PA : 0 <= A) by apply sum_abs_pos.
  set (e := (n * uro) ^ 2) in *. assert (Pe : 0 <= e) by apply pow2_ge_0.
  assert (E3 : Rabs (RR Sv - s) <= n * ((uro + 5 * e) * B)).
  { apply Rle_trans with (1 := E). assert (5 * e * A <= 5 * e * (n * B)) by (apply Rmult_le_compat_l; lra).
    assert (uro * Rabs s <= uro * (n * B)) by (apply Rmult_le_compat_l; lra). lra. }
  assert (Em : NeumaierMean numF (neumaier_of l) = fdiv Sv (of_Z (Z.of_nat (length l)))).
  { unfold NeumaierMean. rewrite neumaier_count_of, u64_small by (unfold two64; lia). reflexivity. }
  rewrite Em. destruct (mean_of_sum Sv (length l) s B ((uro + 5 * e) * B) F ltac:(lia) E3 S2) as [Fm Hm].
  split; [exact Fm|]. unfold meanR. rewrite map_length. fold s. apply Rle_trans with (1 := Hm).
  pose proof (eta_small (length l) B ltac:(lia) ltac:(lra)) as Ee. fold n in Ee.
  assert (Pet : 0 < eta) by apply bpow_gt_0. assert (2 * eta <= uro * B) by nra.
  assert (0 <= e * B) by nra. assert (uro * (uro * B) <= uro * B / 4) by nra. assert (uro * (e * B) <= e * B / 5) by nra. lra.
Qed.

(** ** In the shape of the theorems *)

Lemma within_intro lo hi B l : Forall (fun x => fin x /\ lo <= RR x <= hi) l -> - B <= lo -> hi <= B -> within lo hi B l.
Proof.
  intros H Hlo Hhi. revert H. apply Forall_impl. intros x [F Hx]. split; [exact F|]. split; [exact Hx|]. apply Rabs_le. lra.
Qed.

Lemma kw_scaled_error lo hi B l : within lo hi B l -> B <= bpow radix2 480 ->
  bpow radix2 (-400) <= hi - lo <= 2 * B -> (2 <= Z.of_nat (length l) <= 2 ^ 52)%Z ->
  fin (KwScaledVariance numF (kw_of l)) /\
  Rabs (RR (KwScaledVariance numF (kw_of l)) - sq_devs (reals l)) <= budget (INR (length l)) B (hi - lo).
Proof.
  intros Hw HB HD Hn. assert (Hl : l <> []) by (destruct l; [cbn in Hn; lia|discriminate]).
  unfold KwScaledVariance. rewrite kw_count_of, u64_small by (unfold two64; lia).
  destruct (Z.ltb_spec (Z.of_nat (length l)) 2); [lia|]. exact (kw_m2_error lo hi B l Hw HB HD Hl ltac:(lia)).
Qed.

Lemma kw_constant_reports n x c : (2 <= Z.of_nat n <= 2 ^ 53)%Z -> fin x -> Rabs (RR x) <= lim ->
  let a := kw_of (repeat x n) in
  feq (KwMean a) x = true /\ feq (KwVariance numF c a) f0 = true /\
  feq (KwStandardDeviation numF c a) f0 = true /\ feq (KwError numF c a) f0 = true.
Proof.
  intros Hn Fx Hx a. assert (Hl : repeat x n <> []) by (destruct n; [cbn in Hn; lia|discriminate]).
  assert (Hlen : length (repeat x n) = n) by apply repeat_length.
  assert (HF : Forall (fun y => y = x) (repeat x n)) by (apply Forall_forall; intros y; apply repeat_spec).
  destruct (kw_constant (repeat x n) x Hl) as (Em & F2 & E2); auto; [rewrite Hlen; lia|].
  destruct (kw_range (RR x) (RR x) (Rabs (RR x)) (repeat x n)) as (Fm & _); auto; [|rewrite Hlen; lia|].
  { revert HF. apply Forall_impl. intros y ->. split; [auto|split; lra]. }
  fold a in Em, F2, E2, Fm. split; [apply feq_R; auto|].
  assert (Hc : kw_count a = Z.of_nat n) by (unfold a; rewrite kw_count_of, Hlen; apply u64_small; unfold two64; lia).
  assert (EV : exists z, (1 <= z <= 2 ^ 53)%Z /\ KwVariance numF c a = fdiv (kw_m2 a) (of_Z z)).
  { unfold KwVariance. rewrite Hc. destruct (Z.ltb_spec (Z.of_nat n) 2); [lia|].
    destruct c; [exists (Z.of_nat n - 1)%Z; rewrite u64_small by (unfold two64; lia)|exists (Z.of_nat n)]; (split; [lia|reflexivity]). }
  destruct EV as (z & Hz & EV). destruct (of_Z_exact z) as [Ez Fz]; [lia|].
  assert (Pz : 1 <= RR (of_Z z)) by (rewrite Ez; apply IZR_le; lia).
  assert (Z0 : forall v, RR v = 0 -> Rabs (rnd (RR v)) < fmax) by (intros v ->; rewrite rnd_0, Rabs_R0; apply bpow_gt_0).
  assert (Dv : forall u v, fin u -> RR u = 0 -> 1 <= RR v -> fin (fdiv u v) /\ RR (fdiv u v) = 0).
  { intros u v Fu Eu Hv. destruct (fdiv_ok u v Fu) as [Eq Fq]; [lra| |].
    - rewrite Eu. unfold Rdiv. rewrite Rmult_0_l, rnd_0, Rabs_R0. apply bpow_gt_0.
    - split; [exact Fq|]. rewrite Eq, Eu. unfold Rdiv. now rewrite Rmult_0_l, rnd_0. }
  destruct (Dv _ _ F2 E2 Pz) as [FV EV0]. rewrite <- EV in FV, EV0.
  destruct (fsqrt_ok _ FV) as [Es Fs]; [lra|]. rewrite EV0, sqrt_0, rnd_0 in Es.
  split; [apply feq_R; auto using fin_f0|]. split; [apply feq_R; auto using fin_f0|].
  destruct (of_Z_exact (Z.of_nat n)) as [En Fn]; [lia|].
  assert (Pn : 1 <= RR (of_Z (Z.of_nat n))) by (rewrite En; apply IZR_le; lia).
  destruct (fsqrt_ok _ Fn) as [Er Fr]; [lra|].
  assert (Pr : 1 <= RR (fsqrt (of_Z (Z.of_nat n)))).
  { rewrite Er. apply rnd_ge_fmt; [apply (fmt_IZR 1); cbn; lia|]. rewrite <- sqrt_1. apply sqrt_le_1; lra. }
  destruct (Dv _ _ Fs Es Pr) as [Fe Ee]. apply feq_R; auto using fin_f0; unfold KwError; rewrite Hc; [exact Fe|exact Ee].
Qed.

Lemma dyad_le m e : (Z.abs m = 1)%Z -> (-1074 <= e <= 1023)%Z -> fin (dyad m e) /\ Rabs (RR (dyad m e)) <= bpow radix2 e.
Proof.
  intros Hm He. assert (E : Rabs (F2R (Float radix2 m e)) = bpow radix2 e).
  { rewrite <- F2R_Zabs, Hm. unfold F2R. cbn [Fnum Fexp]. ring. }
  assert (H : Rabs (rnd (F2R (Float radix2 m e))) <= bpow radix2 e) by (apply rnd_abs_le; [apply fmt_bpow; lia|lra]).
  destruct (dyad_ok m e) as [R F]; [apply Rle_lt_trans with (1 := H); apply bpow_lt; lia|]. split; [exact F|]. now rewrite R.
Qed.
