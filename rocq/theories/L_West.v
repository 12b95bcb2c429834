(** Accuracy of the weighted mean and variance in doubles. *)
From Coq Require Import ZArith Reals Lia Lra List Bool Psatz.
From Flocq Require Import Core.Core IEEE754.BinarySingleNaN.
From Verif Require Import Base F64 Num M_Accum S_Accum L_Sum L_Accum L_Welford.
Import ListNotations.
Open Scope R_scope.

Definition west_add (a : west f64) (p : f64 * f64) : west f64 := west_step numF a (fst p) (snd p).
Definition west_of (l : list (f64 * f64)) : west f64 := fold_left west_add l (west_new numF).
Definition real2 (p : f64 * f64) : R * R := (RR (fst p), RR (snd p)).
Definition heavy (l : list (f64 * f64)) : list (f64 * f64) := filter (fun p => flt f0 (snd p)) l.

Lemma west_fold chk l a :
  apply_accumulator (fun a p => WestAdd numF chk a (fst p) (snd p)) l (west_new numF) = (a, Ok tt) ->
  a = west_of (heavy l).
Proof.
  revert a; induction l as [|p l IH] using rev_ind; intros a H.
  { injection H as <-. reflexivity. }
  rewrite apply_app_gen in H. unfold heavy. rewrite filter_app.
  destruct (apply_accumulator _ l (west_new numF)) as [b [[]| | |]]; try discriminate.
  cbn [filter]. revert H. cbn [apply_accumulator]. unfold WestAdd. cbn [numF n_lt n_ofZ]. change (of_Z 0) with f0.
  specialize (IH b eq_refl). unfold west_of, heavy in *.
  destruct (flt f0 (snd p)).
  - destruct (chk && _)%bool; [discriminate|]. intros H. injection H as <-. rewrite fold_left_app, <- IH. reflexivity.
  - intros H. injection H as <-. rewrite app_nil_r. exact IH.
Qed.

Lemma heavy_positive l : Forall (fun p => fin (snd p)) l ->
  map real2 (heavy l) = positive_weights (map real2 l).
Proof.
  induction 1 as [|p l Hp _ IH]; [reflexivity|]. unfold heavy, positive_weights in *. cbn [filter map real2 snd].
  destruct (Rlt_dec 0 (RR (snd p))) as [H|H].
  - rewrite (proj2 (flt_R f0 (snd p) fin_f0 Hp)) by (rewrite RR_f0; exact H). cbn [map]. now rewrite IH.
  - replace (flt f0 (snd p)) with false; [exact IH|]. symmetry. apply (proj2 (flt_R_false f0 (snd p) fin_f0 Hp)).
    rewrite RR_f0. lra.
Qed.

Lemma west_of_snoc l p : west_of (l ++ [p]) = west_add (west_of l) p.
Proof. unfold west_of. rewrite fold_left_app. reflexivity. Qed.

(** Values in [lo, hi] within [-B, B], positive weights. *)
Definition heavies (lo hi B : R) (l : list (f64 * f64)) : Prop :=
  Forall (fun p => fin (fst p) /\ fin (snd p) /\ lo <= RR (fst p) <= hi /\ Rabs (RR (fst p)) <= B /\ 0 < RR (snd p)) l.

Definition reals2 (l : list (f64 * f64)) : list (R * R) := map real2 l.

Lemma reals2_snoc l p : reals2 (l ++ [p]) = reals2 l ++ [real2 p]. Proof. apply map_app. Qed.
Lemma tw_snoc l p : total_weight (l ++ [p]) = total_weight l + snd p.
Proof. unfold total_weight. apply (sumR_map_snoc snd). Qed.
Lemma ws_snoc l p : wsum (l ++ [p]) = wsum l + snd p * fst p.
Proof. unfold wsum. apply (sumR_map_snoc (fun p => snd p * fst p)). Qed.

Lemma tw_pos l : Forall (fun p => 0 < snd p) l -> 0 <= total_weight l.
Proof.
  induction 1 as [|p l Hp _ IH]; [unfold total_weight, sumR; cbn; lra|].
  unfold total_weight, sumR in *. cbn [map fold_right]. lra.
Qed.

Lemma heavies_pos lo hi B l : heavies lo hi B l -> Forall (fun p => 0 < snd p) (reals2 l).
Proof. intros H. apply Forall_map. revert H. apply Forall_impl. cbn. tauto. Qed.

(** ** Sum of the weights *)
Lemma west_sw l : Forall (fun p => fin (snd p) /\ 0 < RR (snd p)) l ->
  total_weight (reals2 l) <= bpow radix2 500 -> (Z.of_nat (length l) <= 2 ^ 49)%Z ->
  fin (w_sw (west_of l)) /\
  Rabs (RR (w_sw (west_of l)) - total_weight (reals2 l)) <= 2 * INR (length l) * uro * total_weight (reals2 l).
Proof.
  pose proof uro_pos as U.
  induction l as [|p l IH] using rev_ind; intros Hl HW Hn.
  { split; [reflexivity|]. cbn [west_of fold_left west_new w_sw numF n_ofZ]. change (RR (of_Z 0)) with 0.
    unfold total_weight, sumR. cbn. rewrite Rminus_0_r, Rabs_R0. lra. }
  apply Forall_app in Hl. destruct Hl as [Hl Hp]. apply Forall_inv in Hp. destruct Hp as [Fp Pp].
  rewrite reals2_snoc, tw_snoc in *. cbn [real2 snd] in *. rewrite app_length in *. cbn [length] in *.
  destruct IH as [F E]; [exact Hl|lra|lia|].
  assert (PW : 0 <= total_weight (reals2 l)).
  { apply tw_pos, Forall_map. revert Hl. apply Forall_impl. cbn. tauto. }
  rewrite plus_INR. cbn [INR]. set (W := total_weight (reals2 l)) in *. set (n := INR (length l)) in *.
  assert (Hnu : n * uro <= / 16).
  { pose proof (uro_n (length l) 49 ltac:(lia) ltac:(lia)) as K. change (49 - 53)%Z with (-4)%Z in K.
    change (bpow radix2 (-4)) with (/ 16) in K. fold n in K. lra. }
  assert (Pn : 0 <= n) by apply pos_INR.
  rewrite west_of_snoc. cbn [west_add west_step w_sw numF n_add].
  change (fst (fst p, snd p)) with (fst p). set (s := RR (w_sw (west_of l))) in *. set (w := RR (snd p)) in *.
  assert (K : Rabs (s + w - (W + w)) <= W + w).
  { replace (s + w - (W + w)) with (s - W) by ring. apply Rle_trans with (1 := E). nra. }
  assert (K2 : Rabs (s + w) <= bpow radix2 502).
  { replace (s + w) with ((s + w - (W + w)) + (W + w)) by ring. eapply Rle_trans; [apply Rabs_triang|].
    rewrite (Rabs_pos_eq (W + w)) by lra. replace (bpow radix2 502) with (4 * bpow radix2 500) by
      (change 4 with (bpow radix2 2); rewrite <- bpow_plus; reflexivity). pose proof (bpow_gt_0 radix2 500). lra. }
  destruct (fadd_ok _ _ F Fp) as [Ea Fa]; [apply (no_overflow _ 502); [lia|exact K2]|].
  split; [exact Fa|]. rewrite Ea. fold s w.
  pose proof (plus_err s w (fmt_RR _) (fmt_RR _)) as Er.
  replace (rnd (s + w) - (W + w)) with ((rnd (s + w) - (s + w)) + (s - W)) by ring.
  eapply Rle_trans; [apply Rabs_triang|].
  assert (Rabs (s + w) <= 2 * (W + w)).
  { replace (s + w) with ((s + w - (W + w)) + (W + w)) by ring. eapply Rle_trans; [apply Rabs_triang|].
    rewrite (Rabs_pos_eq (W + w)) by lra. lra. }
  assert (2 * n * uro * W <= 2 * n * uro * (W + w)) by (apply Rmult_le_compat_l; nra).
  assert (uro * Rabs (s + w) <= uro * (2 * (W + w))) by (apply Rmult_le_compat_l; lra).
  lra.
Qed.

(** ** The weighted mean *)

(** One increment of the mean against the exact one. *)
Lemma step_ratio w sw W n : 0 < w <= W -> Rabs (sw - W) <= 2 * n * uro * W -> 1 <= n -> n * uro <= / 16 ->
  0 < sw /\ Rabs (rnd (w / sw) - w / W) <= (3 * n + 2) * uro * (w / W) + eta.
Proof.
  intros Hw Hs Hn Hu. pose proof uro_pos as U. pose proof uro_small as U2.
  assert (Hs' : Rabs (sw - W) <= W / 8) by nra.
  assert (Ps : 7 / 8 * W <= sw <= 9 / 8 * W) by (apply Rabs_le_inv in Hs'; lra). split; [lra|].
  assert (Pr : 0 < w / W <= 1).
  { split; [apply Rdiv_lt_0_compat; lra|]. apply Rmult_le_reg_r with W; [lra|]. unfold Rdiv. rewrite Rmult_assoc, Rinv_l; lra. }
  set (r := w / W) in *. assert (Er : w = r * W) by (unfold r; field; lra).
  assert (Q1 : Rabs (w / sw - r) <= 3 * n * uro * r).
  { replace (w / sw - r) with (r * ((W - sw) * / sw)) by (rewrite Er; field; lra).
    rewrite Rabs_mult, (Rabs_pos_eq r), Rabs_mult, Rabs_minus_sym by lra.
    rewrite (Rabs_pos_eq (/ sw)) by (left; apply Rinv_0_lt_compat; lra).
    replace (3 * n * uro * r) with (r * (3 * n * uro)) by ring. apply Rmult_le_compat_l; [lra|].
    apply Rmult_le_reg_r with sw; [lra|]. rewrite Rmult_assoc, Rinv_l, Rmult_1_r by lra.
    apply Rle_trans with (1 := Hs).
    assert (0 <= (n * uro) * (3 * sw - 2 * W)) by (apply Rmult_le_pos; [apply Rmult_le_pos; lra|lra]). lra. }
  pose proof (rnd_err (w / sw)) as Q2. assert (Q3 : Rabs (w / sw) <= 2 * r).
  { replace (w / sw) with ((w / sw - r) + r) by ring. eapply Rle_trans; [apply Rabs_triang|]. rewrite (Rabs_pos_eq r) by lra. nra. }
  replace (rnd (w / sw) - r) with ((rnd (w / sw) - w / sw) + (w / sw - r)) by ring.
  eapply Rle_trans; [apply Rabs_triang|]. nra.
Qed.

Lemma eta_uro2 : IZR (2 ^ 100) * eta <= uro.
Proof. pose proof (eta_uro 0 ltac:(lia)) as H. change (bpow radix2 0) with 1 in H. lra. Qed.
Lemma big100 : 1000000 <= IZR (2 ^ 100). Proof. apply IZR_le. vm_compute. discriminate. Qed.

Lemma step_west x m w sw W n B : fmt x -> fmt m -> 0 < w <= W -> Rabs (sw - W) <= 2 * n * uro * W ->
  1 <= n -> n * uro <= / 16 -> Rabs (x - m) <= 4 * B -> bpow radix2 (-900) <= B ->
  Rabs (rnd (x - m)) <= 5 * B /\ Rabs (rnd (w / sw)) <= 2 /\
  Rabs (rnd (rnd (w / sw) * rnd (x - m)) - w / W * (x - m)) <= w / W * Rabs (x - m) * ((3 * n + 5) * uro) + uro * B / 8.
Proof.
  intros Fx Fm Hw Hs Hn Hu HG HB. pose proof uro_pos as U. pose proof uro_small as U2.
  destruct (step_ratio w sw W n Hw Hs Hn Hu) as [Ps Hr].
  assert (Pr : 0 < w / W <= 1).
  { split; [apply Rdiv_lt_0_compat; lra|]. apply Rmult_le_reg_r with W; [lra|]. unfold Rdiv. rewrite Rmult_assoc, Rinv_l; lra. }
  set (r := w / W) in *. set (p := rnd (w / sw)) in *.
  pose proof (minus_err x m Fx Fm) as Hd. set (d := rnd (x - m)) in *. set (g := x - m) in *. set (G := Rabs g) in *.
  assert (PG : 0 <= G) by apply Rabs_pos. assert (PB : 0 < B) by (pose proof (bpow_gt_0 radix2 (-900)); lra).
  assert (Pe : 0 < eta) by apply bpow_gt_0. pose proof eta_uro2 as Ee. pose proof (eta_uro (-900) ltac:(lia)) as Ee2.
  pose proof big100 as B100.
  assert (Hd2 : Rabs d <= (1 + uro) * G).
  { replace d with ((d - g) + g) by ring. eapply Rle_trans; [apply Rabs_triang|]. fold G. lra. }
  assert (Hp2 : Rabs p <= (1 + (3 * n + 2) * uro) * r + eta).
  { replace p with ((p - r) + r) by ring. eapply Rle_trans; [apply Rabs_triang|]. rewrite (Rabs_pos_eq r) by lra. lra. }
  assert (He1 : 1000000 * eta <= uro) by nra.
  split; [nra|]. split; [nra|].
  pose proof (rnd_err (p * d)) as Hq. set (q := rnd (p * d)) in *.
  replace (q - r * g) with ((q - p * d) + ((p - r) * d + r * (d - g))) by ring.
  eapply Rle_trans; [apply Rabs_triang|].
  assert (K1 : Rabs ((p - r) * d + r * (d - g)) <= ((3 * n + 2) * uro * r + eta) * ((1 + uro) * G) + r * (uro * G)).
  { eapply Rle_trans; [apply Rabs_triang|]. rewrite !Rabs_mult, (Rabs_pos_eq r) by lra. apply Rplus_le_compat.
    - apply Rmult_le_compat; auto using Rabs_pos.
    - apply Rmult_le_compat_l; lra. }
  assert (K2 : Rabs (q - p * d) <= uro * (((1 + (3 * n + 2) * uro) * r + eta) * ((1 + uro) * G)) + eta).
  { apply Rle_trans with (1 := Hq). apply Rplus_le_compat_r, Rmult_le_compat_l; [lra|]. rewrite Rabs_mult.
    apply Rmult_le_compat; auto using Rabs_pos. }
  assert (K3 : ((3 * n + 2) * uro * r + eta) * ((1 + uro) * G) + r * (uro * G) +
     (uro * (((1 + (3 * n + 2) * uro) * r + eta) * ((1 + uro) * G)) + eta) <=
     r * G * ((3 * n + 5) * uro) + (2 * eta * G + eta)).
  { set (t := (3 * n + 2) * uro) in *. assert (Ht : 0 <= t <= / 4) by (unfold t; nra).
    replace ((3 * n + 5) * uro) with (t + 3 * uro) by (unfold t; ring).
    assert (0 <= r * G) by (apply Rmult_le_pos; lra). assert (0 <= eta * G) by (apply Rmult_le_pos; lra).
    replace ((t * r + eta) * ((1 + uro) * G) + r * (uro * G) + (uro * (((1 + t) * r + eta) * ((1 + uro) * G)) + eta))
      with ((r * G) * (t + uro * (t + 1 + (1 + t) * (1 + uro))) + (eta * G) * ((1 + uro) * (1 + uro)) + eta) by ring.
    assert (t + uro * (t + 1 + (1 + t) * (1 + uro)) <= t + 3 * uro).
    { apply Rplus_le_compat_l. replace (3 * uro) with (uro * 3) by ring. apply Rmult_le_compat_l; nra. }
    assert ((1 + uro) * (1 + uro) <= 2) by nra. nra. }
  assert (K4 : 2 * eta * G + eta <= uro * B / 8).
  { assert (2 * eta * G <= 8 * eta * B) by nra. assert (1000000 * eta <= uro * B) by nra.
    assert (1000000 * (eta * B) <= uro * B) by nra. lra. }
  lra.
Qed.

(** The weighted mean of values in an interval lies in it. *)
Lemma wmean_bounds l lo hi : l <> [] -> Forall (fun p => lo <= fst p <= hi /\ 0 < snd p) l -> lo <= wmean l <= hi.
Proof.
  intros H HF. assert (PW : 0 < total_weight l).
  { apply total_weight_pos; [revert HF; apply Forall_impl; tauto|exact H]. }
  assert (S : total_weight l * lo <= wsum l <= total_weight l * hi).
  { clear H PW. unfold total_weight, wsum, sumR. induction HF as [|p l [Hp Pp] _ IH]; cbn [map fold_right]; [lra|]. nra. }
  unfold wmean. split; apply Rmult_le_reg_r with (total_weight l); try exact PW;
    unfold Rdiv; rewrite Rmult_assoc, Rinv_l, Rmult_1_r by lra; lra.
Qed.

Lemma wmean_snoc l p : 0 < total_weight l -> 0 < snd p ->
  wmean (l ++ [p]) = wmean l + snd p / total_weight (l ++ [p]) * (fst p - wmean l).
Proof. intros H Hp. unfold wmean. rewrite ws_snoc, tw_snoc. field. lra. Qed.

Lemma wmean_abs l B : l <> [] -> Forall (fun p => - B <= fst p <= B /\ 0 < snd p) l -> - B <= wmean l <= B.
Proof. apply wmean_bounds. Qed.

Lemma west_first_mean x w : fin x -> fin w -> 0 < RR w ->
  fin (w_mean (west_of [(x, w)])) /\ RR (w_mean (west_of [(x, w)])) = RR x.
Proof.
  intros Fm Fw Pw. cbn [west_of fold_left west_add west_step w_mean west_new w_sw fst snd numF n_add n_sub n_mul n_div n_ofZ].
  unfold west_add, west_step. cbn [w_mean w_sw west_new fst snd numF n_add n_sub n_mul n_div n_ofZ].
  change (of_Z 0) with f0.
  assert (Hb : forall x : f64, Rabs (rnd (RR x)) < fmax) by (intros v; rewrite rnd_fmt by apply fmt_RR; apply RR_lt_fmax).
  destruct (fadd_ok f0 w fin_f0 Fw) as [E1 F1]; [rewrite RR_f0, Rplus_0_l; apply Hb|].
  rewrite RR_f0, Rplus_0_l, (rnd_fmt _ (fmt_RR w)) in E1.
  destruct (fsub_ok x f0 Fm fin_f0) as [E2 F2]; [rewrite RR_f0, Rminus_0_r; apply Hb|].
  rewrite RR_f0, Rminus_0_r, (rnd_fmt _ (fmt_RR x)) in E2.
  assert (E3' : RR w / RR (fadd f0 w) = 1) by (rewrite E1; field; lra).
  destruct (fdiv_ok w (fadd f0 w) Fw) as [E3 F3]; [lra|rewrite E3'; rewrite <- RR_f1; apply Hb|].
  rewrite E3', (rnd_fmt 1) in E3 by (apply (fmt_IZR 1); cbn; lia).
  destruct (fmul_ok (fdiv w (fadd f0 w)) (fsub x f0) F3 F2) as [E4 F4]; [rewrite E3, E2, Rmult_1_l; apply Hb|].
  rewrite E3, E2, Rmult_1_l, (rnd_fmt _ (fmt_RR x)) in E4.
  destruct (fadd_ok f0 _ fin_f0 F4) as [E5 F5]; [rewrite RR_f0, Rplus_0_l, E4; apply Hb|].
  rewrite RR_f0, Rplus_0_l, E4, (rnd_fmt _ (fmt_RR x)) in E5. auto.
Qed.

(** Error allowed for the mean of N values. *)
Definition drift (N B D : R) : R := uro * ((6 * N + 10) * D + 5 * N * B).

Lemma drift_small N B D : 1 <= N -> N * uro <= / 16 -> 0 <= D <= 2 * B -> 0 < B -> 0 <= drift N B D <= 2 * B.
Proof.
  intros HN Hu HD HB. pose proof uro_pos as U. pose proof uro_small as U2. unfold drift. split.
  - apply Rmult_le_pos; [lra|]. nra.
  - replace (uro * ((6 * N + 10) * D + 5 * N * B)) with ((6 * (N * uro) + 10 * uro) * D + 5 * (N * uro) * B) by ring.
    assert (0 <= N * uro) by nra. assert ((6 * (N * uro) + 10 * uro) * D <= (6 / 16 + 10 * uro) * (2 * B)) by nra. nra.
Qed.

Lemma west_mean_bound lo hi B (N : nat) l : heavies lo hi B l -> l <> [] -> (length l <= N)%nat ->
  (Z.of_nat N <= 2 ^ 49)%Z -> bpow radix2 (-900) <= B <= bpow radix2 500 -> hi - lo <= 2 * B ->
  total_weight (reals2 l) <= bpow radix2 500 ->
  fin (w_mean (west_of l)) /\
  Rabs (RR (w_mean (west_of l)) - wmean (reals2 l)) <=
    uro * ((6 * INR N + 10) * (hi - lo) + 5 * INR (length l) * B).
Proof.
  pose proof uro_pos as U. pose proof uro_small as U2.
  intros Hl Hne HN HN49 HB HD. set (D := hi - lo) in *.
  assert (PB : 0 < B) by (pose proof (bpow_gt_0 radix2 (-900)); lra).
  assert (PD : 0 <= D).
  { destruct l as [|p l]; [congruence|]. apply Forall_inv in Hl. unfold D. lra. }
  assert (PN : 1 <= INR N).
  { change 1 with (INR 1). apply le_INR. destruct l; [congruence|cbn in HN; lia]. }
  assert (Hnu : INR N * uro <= / 16).
  { pose proof (uro_n N 49 ltac:(lia) ltac:(lia)) as K. change (49 - 53)%Z with (-4)%Z in K.
    change (bpow radix2 (-4)) with (/ 16) in K. lra. }
  set (n := INR N) in *. clear Hne. revert HN. induction l as [|p l IH] using rev_ind; intros HN HW.
  { split; [reflexivity|]. cbn [west_of fold_left west_new w_mean numF n_ofZ reals2 map length INR].
    change (RR (of_Z 0)) with 0. unfold wmean, wsum, total_weight, sumR. cbn. unfold Rdiv. rewrite Rmult_0_l, Rminus_0_r, Rabs_R0.
    apply Rmult_le_pos; [lra|]. nra. }
  assert (Hlp := Hl). apply Forall_app in Hl. destruct Hl as [Hl Hp]. apply Forall_inv in Hp.
  destruct Hp as (Fx & Fw & Hx & HBx & Pw).
  assert (HWl : total_weight (reals2 l) + RR (snd p) = total_weight (reals2 (l ++ [p]))).
  { rewrite reals2_snoc, tw_snoc. reflexivity. }
  assert (PWl : 0 <= total_weight (reals2 l)) by (eapply tw_pos, heavies_pos; exact Hl).
  rewrite app_length in HN. cbn [length] in HN.
  destruct (west_sw (l ++ [p])) as [Fs Es].
  { revert Hlp. apply Forall_impl. tauto. }
  { exact HW. }
  { rewrite app_length. cbn [length]. lia. }
  destruct l as [|p0 l0].
  { (* first value *)
    rewrite app_nil_l in *. destruct p as [x w]. cbn [fst snd] in *.
    destruct (west_first_mean x w Fx Fw Pw) as (F & E). rewrite E. split; [exact F|].
    unfold reals2, wmean, wsum, total_weight, sumR. cbn [map real2 fold_right fst snd length INR].
    replace (RR x - (RR w * RR x + 0) / (RR w + 0)) with 0 by (field; lra). rewrite Rabs_R0.
    apply Rmult_le_pos; [lra|]. nra. }
  set (l := p0 :: l0) in *. assert (Nl : reals2 l <> []) by discriminate.
  destruct IH as [Fm Em]; [exact Hl|lia|lra|].
  assert (PW : 0 < total_weight (reals2 l)).
  { apply total_weight_pos; [eapply heavies_pos; exact Hl|exact Nl]. }
  assert (HFr : forall l', heavies lo hi B l' -> Forall (fun p => lo <= fst p <= hi /\ 0 < snd p) (reals2 l')).
  { intros l' H'. apply Forall_map. revert H'. apply Forall_impl. cbn. tauto. }
  destruct (wmean_bounds (reals2 l) lo hi Nl (HFr _ Hl)) as [M1 M2].
  destruct (wmean_bounds (reals2 (l ++ [p])) lo hi) as [M1' M2']; [rewrite reals2_snoc; destruct l; discriminate|exact (HFr _ Hlp)|].
  assert (EM : wmean (reals2 (l ++ [p])) = wmean (reals2 l) +
     RR (snd p) / total_weight (reals2 (l ++ [p])) * (RR (fst p) - wmean (reals2 l))).
  { rewrite reals2_snoc. apply (wmean_snoc (reals2 l) (real2 p)); assumption. }
  rewrite west_of_snoc in Fs, Es |- *. unfold west_add, west_step in Fs, Es |- *.
  cbn [w_sw w_mean numF n_add n_mul n_div n_sub] in Fs, Es |- *.
  rewrite app_length in Es |- *. cbn [length] in Es |- *. rewrite plus_INR in Es |- *. cbn [INR] in Es |- *.
  set (a := west_of l) in *. set (sw := fadd (w_sw a) (snd p)) in *. set (x := RR (fst p)) in *. set (w := RR (snd p)) in *.
  set (W' := total_weight (reals2 (l ++ [p]))) in *. set (M := wmean (reals2 l)) in *. set (M' := wmean (reals2 (l ++ [p]))) in *.
  set (m := RR (w_mean a)) in *. set (k := INR (length l)) in *.
  assert (Hk : 0 <= k /\ k + 1 <= n).
  { split; [apply pos_INR|]. unfold k, n. rewrite <- S_INR. apply le_INR. lia. }
  set (e := Rabs (m - M)) in *.
  assert (He : e <= 2 * B).
  { apply Rle_trans with (1 := Em). assert (K := drift_small n B D PN Hnu ltac:(lra) PB).
    apply Rle_trans with (2 := proj2 K). unfold drift. apply Rmult_le_compat_l; [lra|]. nra. }
  assert (HM : Rabs (x - M) <= D) by (apply Rabs_le; unfold D; lra).
  assert (HG : Rabs (x - m) <= D + e).
  { replace (x - m) with ((x - M) + - (m - M)) by ring. eapply Rle_trans; [apply Rabs_triang|]. rewrite Rabs_Ropp. fold e. lra. }
  assert (Hs2 : Rabs (RR sw - W') <= 2 * n * uro * W').
  { apply Rle_trans with (1 := Es). apply Rmult_le_compat_r; [lra|]. nra. }
  destruct (step_west x m w (RR sw) W' n B (fmt_RR _) (fmt_RR _) ltac:(lra) Hs2 PN Hnu ltac:(lra) ltac:(lra)) as (B1 & B2 & E1).
  assert (Ps : 0 < RR sw) by (apply (step_ratio w (RR sw) W' n); [lra|exact Hs2|exact PN|exact Hnu]).
  assert (Pr : 0 < w / W' <= 1).
  { split; [apply Rdiv_lt_0_compat; lra|]. apply Rmult_le_reg_r with W'; [lra|]. unfold Rdiv. rewrite Rmult_assoc, Rinv_l; lra. }
  set (r := w / W') in *. set (eps := (3 * n + 5) * uro) in *.
  assert (Heps : 0 <= eps <= / 2) by (unfold eps; nra).
  (* finiteness *)
  assert (Bb : forall v c, Rabs v <= c * B -> 0 <= c <= 1024 -> Rabs (rnd v) < fmax).
  { intros v c Hv Hc. apply (no_overflow _ 510); [lia|]. apply Rle_trans with (1 := Hv).
    replace (bpow radix2 510) with (1024 * bpow radix2 500) by (change 1024 with (bpow radix2 10); rewrite <- bpow_plus; reflexivity).
    apply Rmult_le_compat; lra. }
  assert (Bm : Rabs m <= 3 * B).
  { replace m with ((m - M) + M) by ring. eapply Rle_trans; [apply Rabs_triang|]. fold e.
    assert (Rabs M <= B).
    { apply Rabs_le. apply (wmean_abs (reals2 l)); [exact Nl|]. apply Forall_map. revert Hl. apply Forall_impl. cbn.
      intros q (_ & _ & _ & Hq & Pq). split; [now apply Rabs_le_inv|exact Pq]. }
    lra. }
  destruct (fsub_ok (fst p) (w_mean a) Fx Fm) as [Ed Fd]; [apply (Bb _ 4); [fold x m; lra|lra]|].
  destruct (fdiv_ok (snd p) sw Fw) as [Er Fr]; [lra| |].
  { apply Rle_lt_trans with 2; [exact B2|]. apply (bpow_lt radix2 1 1024). lia. }
  destruct (fmul_ok _ _ Fr Fd) as [Eq Fq].
  { rewrite Er, Ed. fold x m w. apply (Bb _ 10); [|lra]. rewrite Rabs_mult.
    replace (10 * B) with (2 * (5 * B)) by ring. apply Rmult_le_compat; auto using Rabs_pos. }
  rewrite Er, Ed in Eq. fold x m w in Eq. set (q := rnd (rnd (w / RR sw) * rnd (x - m))) in *.
  (* the increment *)
  assert (HE : Rabs (m + q - M') <= (1 - r) * e + r * (D + e) * eps + uro * B / 8).
  { replace (m + q - M') with ((q - r * (x - m)) + (1 - r) * (m - M)) by (rewrite EM; ring).
    eapply Rle_trans; [apply Rabs_triang|]. rewrite Rabs_mult, (Rabs_pos_eq (1 - r)) by lra. fold e.
    assert (r * Rabs (x - m) * eps <= r * (D + e) * eps) by (apply Rmult_le_compat_r; [lra|]; apply Rmult_le_compat_l; lra).
    lra. }
  assert (Ealpha : uro * ((6 * n + 10) * D + 5 * k * B) = 2 * eps * D + 5 * k * uro * B) by (unfold eps; ring).
  rewrite Ealpha in Em.
  assert (HE2 : Rabs (m + q - M') <= 2 * eps * D + 5 * k * uro * B + uro * B / 8).
  { apply Rle_trans with (1 := HE). apply Rplus_le_compat_r.
    replace ((1 - r) * e + r * (D + e) * eps) with ((1 - r * (1 - eps)) * e + r * eps * D) by ring.
    apply Rle_trans with ((1 - r * (1 - eps)) * (2 * eps * D + 5 * k * uro * B) + r * eps * D).
    { apply Rplus_le_compat_r, Rmult_le_compat_l; [nra|exact Em]. }
    assert (0 <= 5 * k * uro * B) by (apply Rmult_le_pos; [|lra]; apply Rmult_le_pos; [|lra]; lra).
    assert (0 <= r * (1 - eps) <= 1) by nra.
    assert (0 <= eps * D) by (apply Rmult_le_pos; lra).
    assert (r * (eps * D) <= 2 * (r * (1 - eps)) * (eps * D)) by (apply Rmult_le_compat_r; [lra|]; nra).
    nra. }
  assert (BM' : Rabs M' <= B).
  { apply Rabs_le. apply (wmean_abs (reals2 (l ++ [p]))); [rewrite reals2_snoc; destruct l; discriminate|].
    apply Forall_map. revert Hlp. apply Forall_impl. cbn.
    intros q' (_ & _ & _ & Hq & Pq). split; [now apply Rabs_le_inv|exact Pq]. }
  assert (Hsm : 2 * eps * D + 5 * k * uro * B + uro * B / 8 <= 3 * B).
  { assert (5 * k * uro * B <= 5 * (/ 16) * B) by (apply Rmult_le_compat_r; [lra|]; nra).
    assert (2 * eps * D <= 2 * B) by nra.
    nra. }
  assert (Hmq : Rabs (m + q) <= 4 * B).
  { replace (m + q) with ((m + q - M') + M') by ring. eapply Rle_trans; [apply Rabs_triang|]. lra. }
  destruct (fadd_ok _ _ Fm Fq) as [Em' Fm']; [rewrite Eq; fold m; apply (Bb _ 4); lra|].
  split; [exact Fm'|]. rewrite Em', Eq. fold m.
  assert (Fmq : fmt q) by apply fmt_rnd.
  pose proof (plus_err m q (fmt_RR _) Fmq) as Epl.
  replace (rnd (m + q) - M') with ((rnd (m + q) - (m + q)) + (m + q - M')) by ring.
  eapply Rle_trans; [apply Rabs_triang|].
  replace (uro * ((6 * n + 10) * D + 5 * (k + 1) * B)) with (2 * eps * D + 5 * k * uro * B + 5 * (uro * B)) by (unfold eps; ring).
  assert (uro * Rabs (m + q) <= uro * (4 * B)) by (apply Rmult_le_compat_l; lra).
  assert (0 <= uro * B) by (apply Rmult_le_pos; lra). lra.
Qed.

(** ** The weighted sum of squared deviations *)

Lemma wsq_devs_snoc l p : 0 < total_weight l -> 0 < snd p ->
  wsq_devs (l ++ [p]) = wsq_devs l + snd p * (fst p - wmean l) * (fst p - wmean (l ++ [p])).
Proof.
  intros H Hp. assert (HW := tw_snoc l p). rewrite !wsq_devs_wsumsq by lra. unfold wmean. rewrite HW, ws_snoc.
  assert (EQ : wsumsq (l ++ [p]) = wsumsq l + snd p * fst p ^ 2) by apply (sumR_map_snoc (fun p => snd p * fst p ^ 2)).
  rewrite EQ. field. lra.
Qed.

Lemma wsq_devs_bounds l lo hi : l <> [] -> Forall (fun p => lo <= fst p <= hi /\ 0 < snd p) l ->
  0 <= wsq_devs l <= total_weight l * (hi - lo) ^ 2.
Proof.
  intros H HF. destruct (wmean_bounds l lo hi H HF) as [M1 M2]. unfold wsq_devs. generalize dependent (wmean l).
  intros m M1 M2. clear H. unfold total_weight, sumR. induction HF as [|p l [Hp Pp] _ IH]; cbn [map fold_right]; [lra|].
  assert (0 <= (fst p - m) ^ 2 <= (hi - lo) ^ 2) by (split; [apply pow2_ge_0|nra]).
  rewrite Rmult_plus_distr_r. split; [|apply Rplus_le_compat]; nra.
Qed.

Lemma step_west_product x m m' w q : fmt x -> fmt m -> fmt m' -> 0 < w -> Rabs (x - m) <= q -> Rabs (x - m') <= q ->
  Rabs (rnd (rnd (w * rnd (x - m)) * rnd (x - m')) - w * (x - m) * (x - m')) <= 5 * uro * (w * q ^ 2) + (4 * eta * q + eta) /\
  Rabs (w * rnd (x - m)) <= w * (2 * q) /\ Rabs (rnd (w * rnd (x - m)) * rnd (x - m')) <= 8 * (w * q ^ 2) + 4 * eta * q.
Proof.
  intros Fx Fm Fm' Pw H H'. pose proof uro_pos as U. pose proof uro_small as U2. assert (Pe : 0 < eta) by apply bpow_gt_0.
  assert (Pq : 0 <= q) by (eapply Rle_trans; [apply Rabs_pos|exact H]).
  pose proof (minus_err x m Fx Fm) as E. pose proof (minus_err x m' Fx Fm') as E'.
  set (d := rnd (x - m)) in *. set (d' := rnd (x - m')) in *. set (g := x - m) in *. set (g' := x - m') in *.
  assert (G : forall v u, Rabs (v - u) <= uro * Rabs u -> Rabs u <= q -> Rabs (v - u) <= uro * q /\ Rabs v <= (1 + uro) * q).
  { intros v u Hv Hu. assert (Rabs (v - u) <= uro * q) by nra. split; [assumption|].
    replace v with ((v - u) + u) by ring. eapply Rle_trans; [apply Rabs_triang|]. lra. }
  destruct (G _ _ E H) as [E1 B1]. destruct (G _ _ E' H') as [E2 B2].
  pose proof (rnd_err (w * d)) as R1. rewrite Rabs_mult, (Rabs_pos_eq w) in R1 by lra. set (t1 := rnd (w * d)) in *.
  assert (Pwq : 0 <= w * q) by (apply Rmult_le_pos; lra).
  assert (Hwd : w * Rabs d <= w * ((1 + uro) * q)) by (apply Rmult_le_compat_l; lra).
  assert (K1 : Rabs (t1 - w * g) <= (21 / 10) * uro * (w * q) + eta).
  { replace (t1 - w * g) with ((t1 - w * d) + w * (d - g)) by ring. eapply Rle_trans; [apply Rabs_triang|].
    rewrite (Rabs_mult w), (Rabs_pos_eq w) by lra. assert (w * Rabs (d - g) <= w * (uro * q)) by (apply Rmult_le_compat_l; lra).
    assert (uro * (w * Rabs d) <= uro * (w * ((1 + uro) * q))) by (apply Rmult_le_compat_l; lra).
    assert (S1 : uro * (w * q) <= w * q / 10) by (generalize dependent (w * q); intros; nra).
    assert (uro * (uro * (w * q)) <= uro * (w * q / 10)) by (apply Rmult_le_compat_l; lra). lra. }
  assert (K2 : Rabs t1 <= (11 / 10) * (w * q) + eta).
  { replace t1 with ((t1 - w * g) + w * g) by ring. eapply Rle_trans; [apply Rabs_triang|].
    rewrite (Rabs_mult w), (Rabs_pos_eq w) by lra. assert (w * Rabs g <= w * q) by (apply Rmult_le_compat_l; lra). nra. }
  assert (K3 : Rabs t1 * Rabs d' <= ((11 / 10) * (w * q) + eta) * ((1 + uro) * q)) by (apply Rmult_le_compat; auto using Rabs_pos).
  assert (Pwqq : 0 <= w * q ^ 2) by (replace (w * q ^ 2) with (w * q * q) by ring; apply Rmult_le_pos; lra).
  assert (Peq : 0 <= eta * q) by (apply Rmult_le_pos; lra).
  assert (K4 : Rabs t1 * Rabs d' <= (12 / 10) * (w * q ^ 2) + 2 * (eta * q)).
  { apply Rle_trans with (1 := K3). replace ((11 / 10 * (w * q) + eta) * ((1 + uro) * q)) with
      ((11 / 10 * (1 + uro)) * (w * q ^ 2) + (1 + uro) * (eta * q)) by ring. nra. }
  split; [|split].
  2:{ rewrite Rabs_mult, (Rabs_pos_eq w) by lra. apply Rle_trans with (1 := Hwd). apply Rmult_le_compat_l; nra. }
  2:{ rewrite Rabs_mult. lra. }
  pose proof (rnd_err (t1 * d')) as R2. rewrite Rabs_mult in R2. set (t2 := rnd (t1 * d')) in *.
  replace (t2 - w * g * g') with ((t2 - t1 * d') + ((t1 - w * g) * d' + w * g * (d' - g'))) by ring.
  eapply Rle_trans; [apply Rabs_triang|].
  assert (K5 : Rabs ((t1 - w * g) * d' + w * g * (d' - g')) <= ((21 / 10) * uro * (w * q) + eta) * ((1 + uro) * q) + (w * q) * (uro * q)).
  { eapply Rle_trans; [apply Rabs_triang|]. rewrite !Rabs_mult, (Rabs_pos_eq w) by lra. apply Rplus_le_compat.
    - apply Rmult_le_compat; auto using Rabs_pos.
    - apply Rmult_le_compat; auto using Rabs_pos; [apply Rmult_le_pos; [lra|apply Rabs_pos]|]. apply Rmult_le_compat_l; lra. }
  assert (K6 : (21 / 10 * uro * (w * q) + eta) * ((1 + uro) * q) + w * q * (uro * q) <= (32 / 10) * (uro * (w * q ^ 2)) + 2 * (eta * q)).
  { replace ((21 / 10 * uro * (w * q) + eta) * ((1 + uro) * q) + w * q * (uro * q)) with
      ((31 / 10 + 21 / 10 * uro) * (uro * (w * q ^ 2)) + (1 + uro) * (eta * q)) by field.
    assert (0 <= uro * (w * q ^ 2)) by (apply Rmult_le_pos; lra). nra. }
  assert (K7 : uro * (Rabs t1 * Rabs d') <= (12 / 10) * (uro * (w * q ^ 2)) + eta * q).
  { apply Rle_trans with (uro * (12 / 10 * (w * q ^ 2) + 2 * (eta * q))); [apply Rmult_le_compat_l; lra|]. nra. }
  assert (0 <= uro * (w * q ^ 2)) by (apply Rmult_le_pos; lra). lra.
Qed.

Lemma bpow_mult_le a b c e f g : 0 <= a <= bpow radix2 e -> 0 <= b <= bpow radix2 f -> (e + f <= g)%Z -> c = a * b -> 0 <= c <= bpow radix2 g.
Proof.
  intros Ha Hb H ->. split; [apply Rmult_le_pos; lra|]. apply Rle_trans with (bpow radix2 e * bpow radix2 f).
  - apply Rmult_le_compat; lra.
  - rewrite <- bpow_plus. apply bpow_le. exact H.
Qed.

(** The tiny absolute errors of products near underflow. *)
Lemma tiny_total N q Wt : 0 <= N <= bpow radix2 49 -> bpow radix2 (-100) <= q -> bpow radix2 (-100) <= Wt ->
  N * (4 * eta * q + eta) <= uro * (Wt * q ^ 2).
Proof.
  intros HN Hq HW. pose proof (bpow_gt_0 radix2 (-100)) as P. pose proof uro_pos as U. assert (Pe : 0 < eta) by apply bpow_gt_0.
  set (b := bpow radix2 (-100)) in *.
  assert (L : 8 * bpow radix2 49 * eta <= uro * (b * (b * b))).
  { unfold uro, eta, b. change 8 with (bpow radix2 3). rewrite <- !bpow_plus. apply bpow_le. lia. }
  assert (Hb1 : b <= 1) by (apply (bpow_le radix2 (-100) 0); lia).
  assert (L1 : 8 * N * eta <= uro * (b * (b * b))) by nra.
  assert (Q1 : b * q <= Wt * q) by (apply Rmult_le_compat_r; lra).
  assert (Q2 : b * (b * b) <= Wt * q ^ 2).
  { apply Rle_trans with (b * q ^ 2); [apply Rmult_le_compat_l; [lra|]; nra|apply Rmult_le_compat_r; [nra|lra]]. }
  assert (Q3 : b * (b * b) * q <= Wt * q ^ 2).
  { replace (Wt * q ^ 2) with (Wt * q * q) by ring. apply Rmult_le_compat_r; [lra|]. assert (b * (b * b) <= b * q) by (apply Rmult_le_compat_l; nra). lra. }
  assert (A1 : N * (4 * eta * q) <= uro * (Wt * q ^ 2) / 2).
  { apply Rle_trans with (uro * (b * (b * b)) / 2 * q); [replace (N * (4 * eta * q)) with ((8 * N * eta) / 2 * q) by field; apply Rmult_le_compat_r; lra|].
    assert (uro * (b * (b * b) * q) <= uro * (Wt * q ^ 2)) by (apply Rmult_le_compat_l; lra). lra. }
  assert (A2 : N * eta <= uro * (Wt * q ^ 2) / 2).
  { assert (uro * (b * (b * b)) <= uro * (Wt * q ^ 2)) by (apply Rmult_le_compat_l; lra).
    assert (0 <= uro * (b * (b * b))) by (apply Rmult_le_pos; [lra|]; apply Rmult_le_pos; [lra|]; apply Rmult_le_pos; lra). lra. }
  lra.
Qed.

Lemma west_first_m2 x w : fin x -> fin w -> 0 < RR w -> Rabs (rnd (RR w * RR x)) < fmax ->
  fin (w_m2 (west_of [(x, w)])) /\ RR (w_m2 (west_of [(x, w)])) = 0.
Proof.
  intros Fx Fw Pw H. destruct (fmul_ok w x Fw Fx H) as [_ F].
  destruct (west_first false x w Fx Fw Pw F) as (a & Ha & _ & _ & F2 & E2 & _).
  assert (E : a = west_of [(x, w)]).
  { revert Ha. unfold WestAdd. cbn [numF n_lt n_ofZ]. change (of_Z 0) with f0.
    rewrite (proj2 (flt_R f0 w fin_f0 Fw)) by (rewrite RR_f0; exact Pw). cbn [andb]. intros Ha. injection Ha as <-. reflexivity. }
  rewrite <- E. auto.
Qed.

Lemma first_product w Wt x B : 0 < w <= Wt -> Wt <= bpow radix2 200 -> Rabs x <= B -> B <= bpow radix2 200 ->
  Rabs (rnd (w * x)) < fmax.
Proof.
  intros Hw HW Hx HB. apply (no_overflow _ 400); [lia|]. rewrite Rabs_mult, (Rabs_pos_eq w) by lra.
  change 400%Z with (200 + 200)%Z. rewrite bpow_plus. apply Rmult_le_compat; try lra. apply Rabs_pos.
Qed.

Lemma west_m2_error lo hi B Wt (N : nat) l : heavies lo hi B l -> l <> [] -> (length l <= N)%nat ->
  (Z.of_nat N <= 2 ^ 49)%Z -> B <= bpow radix2 200 -> bpow radix2 (-100) <= hi - lo <= 2 * B ->
  total_weight (reals2 l) <= Wt -> bpow radix2 (-100) <= Wt <= bpow radix2 200 ->
  let D := hi - lo in
  let e := drift (INR N) B D in
  let Q := (D + e) ^ 2 in
  fin (w_m2 (west_of l)) /\
  Rabs (RR (w_m2 (west_of l)) - wsq_devs (reals2 l)) <=
    total_weight (reals2 l) * (Q - D ^ 2 + 5 * uro * Q) + INR (length l) * (2 * uro * (Wt * Q) + (4 * eta * (D + e) + eta)).
Proof.
  pose proof uro_pos as U. pose proof uro_small as U2. assert (Pe : 0 < eta) by apply bpow_gt_0.
  intros Hl Hne HN HN49 HB HD HWl HWt D e Q. fold D in HD.
  pose proof (bpow_gt_0 radix2 (-100)) as P100. assert (PD : 0 < D) by lra. assert (PB : 0 < B) by lra.
  assert (HBl : bpow radix2 (-900) <= B <= bpow radix2 500).
  { split; [apply Rle_trans with (bpow radix2 (-101))|apply Rle_trans with (1 := HB)]; try (apply bpow_le; lia).
    assert (bpow radix2 (-100) = 2 * bpow radix2 (-101)) by (change 2 with (bpow radix2 1); rewrite <- bpow_plus; reflexivity). lra. }
  assert (HWt5 : Wt <= bpow radix2 500) by (apply Rle_trans with (1 := proj2 HWt); apply bpow_le; lia).
  assert (PN : 1 <= INR N).
  { change 1 with (INR 1). apply le_INR. destruct l; [congruence|cbn in HN; lia]. }
  assert (Hnu : INR N * uro <= / 16).
  { pose proof (uro_n N 49 ltac:(lia) ltac:(lia)) as K. change (49 - 53)%Z with (-4)%Z in K.
    change (bpow radix2 (-4)) with (/ 16) in K. lra. }
  assert (HN2 : INR N <= bpow radix2 49) by (rewrite INR_IZR_INZ, <- IZR_Zpower by lia; apply IZR_le; exact HN49).
  destruct (drift_small (INR N) B D PN Hnu ltac:(lra) PB) as [Pe0 Pe2]. fold e in Pe0, Pe2.
  set (q := D + e) in *. assert (Pq : D <= q <= 4 * B) by (unfold q; lra).
  assert (PQ : 0 < Q) by (unfold Q; nra). assert (HQD : D ^ 2 <= Q) by (unfold Q; nra).
  pose proof (tiny_total (INR N) q Wt ltac:(lra) ltac:(lra) ltac:(lra)) as Htiny. fold Q in Htiny.
  set (tau := 4 * eta * q + eta) in *. assert (Ptau : 0 < tau) by (unfold tau; nra).
  set (h := Q - D ^ 2 + 5 * uro * Q) in *. assert (Ph : 0 <= h) by (unfold h; nra).
  assert (PWQ : 0 < Wt * Q) by (apply Rmult_lt_0_compat; lra).
  assert (Hme : forall l', heavies lo hi B l' -> l' <> [] -> (length l' <= N)%nat -> total_weight (reals2 l') <= Wt ->
    fin (w_mean (west_of l')) /\ Rabs (RR (w_mean (west_of l')) - wmean (reals2 l')) <= e).
  { intros l' H1 H2 H3 H4. destruct (west_mean_bound lo hi B N l' H1 H2 H3 HN49 HBl ltac:(fold D; lra) ltac:(lra)) as [F E].
    split; [exact F|]. apply Rle_trans with (1 := E). fold D. unfold e, drift. apply Rmult_le_compat_l; [lra|].
    apply Rplus_le_compat_l. apply Rmult_le_compat_r; [lra|]. apply Rmult_le_compat_l; [lra|]. apply le_INR. exact H3. }
  assert (HFr : forall l', heavies lo hi B l' -> Forall (fun p => lo <= fst p <= hi /\ 0 < snd p) (reals2 l')).
  { intros l' H'. apply Forall_map. revert H'. apply Forall_impl. cbn. tauto. }
  assert (HqB : q <= bpow radix2 202).
  { replace (bpow radix2 202) with (4 * bpow radix2 200) by (change 4 with (bpow radix2 2); rewrite <- bpow_plus; reflexivity). lra. }
  assert (HQb : Q <= bpow radix2 404).
  { unfold Q. replace (q ^ 2) with (q * q) by ring.
    apply (bpow_mult_le q q (q * q) 202 202 404); [lra|lra|lia|reflexivity]. }
  assert (HWQb : Wt * Q <= bpow radix2 604) by (apply (bpow_mult_le Wt Q (Wt * Q) 200 404 604); [lra|lra|lia|reflexivity]).
  assert (Bb : forall v, Rabs v <= 16 * (Wt * Q) + 16 -> Rabs (rnd v) < fmax).
  { intros v Hv. apply (no_overflow _ 610); [lia|]. apply Rle_trans with (1 := Hv).
    apply Rle_trans with (32 * bpow radix2 604).
    - assert (1 <= bpow radix2 604) by (apply (bpow_le radix2 0 604); lia). lra.
    - change 32 with (bpow radix2 5). rewrite <- bpow_plus. apply bpow_le. lia. }
  clear Hne. induction l as [|p l IH] using rev_ind.
  { split; [reflexivity|]. cbn [west_of fold_left west_new w_m2 numF n_ofZ reals2 map length INR].
    change (RR (of_Z 0)) with 0. unfold wsq_devs, total_weight, sumR. cbn. rewrite Rminus_0_r, Rabs_R0. lra. }
  assert (Hlp := Hl). apply Forall_app in Hl. destruct Hl as [Hl Hp]. apply Forall_inv in Hp.
  destruct Hp as (Fx & Fw & Hx & HBx & Pw).
  assert (Etw : total_weight (reals2 (l ++ [p])) = total_weight (reals2 l) + RR (snd p)).
  { rewrite reals2_snoc, tw_snoc. reflexivity. }
  assert (PWl : 0 <= total_weight (reals2 l)) by (eapply tw_pos, heavies_pos; exact Hl).
  destruct (Hme (l ++ [p]) Hlp ltac:(destruct l; discriminate) HN HWl) as [Fm' Ee'].
  rewrite app_length in HN |- *. cbn [length] in HN |- *. rewrite plus_INR. cbn [INR].
  destruct l as [|p0 l0].
  { rewrite app_nil_l in *. destruct p as [x w]. cbn [fst snd] in *.
    destruct (west_first_m2 x w Fx Fw Pw) as (F & E).
    { apply (first_product (RR w) Wt (RR x) B); auto; lra. }
    split; [exact F|]. rewrite E.
    unfold reals2, wsq_devs, wmean, wsum, total_weight, sumR. cbn [map real2 fold_right fst snd length INR].
    replace (0 - (RR w * (RR x - (RR w * RR x + 0) / (RR w + 0)) ^ 2 + 0)) with 0 by (field; lra). rewrite Rabs_R0.
    assert (0 <= (RR w + 0) * h) by (apply Rmult_le_pos; lra). nra. }
  set (l := p0 :: l0) in *. assert (Nl : reals2 l <> []) by discriminate.
  destruct IH as [Fi Ei]; [exact Hl|lia|lra|].
  destruct (Hme l Hl ltac:(discriminate) ltac:(lia) ltac:(lra)) as [Fm Ee].
  assert (PW : 0 < total_weight (reals2 l)) by (apply total_weight_pos; [eapply heavies_pos; exact Hl|exact Nl]).
  destruct (wmean_bounds (reals2 l) lo hi Nl (HFr _ Hl)) as [M1 M2].
  destruct (wmean_bounds (reals2 (l ++ [p])) lo hi) as [M1' M2']; [rewrite reals2_snoc; destruct l; discriminate|exact (HFr _ Hlp)|].
  destruct (wsq_devs_bounds (reals2 (l ++ [p])) lo hi) as [S1 S2]; [rewrite reals2_snoc; destruct l; discriminate|exact (HFr _ Hlp)|].
  assert (ES : wsq_devs (reals2 (l ++ [p])) = wsq_devs (reals2 l) +
     RR (snd p) * (RR (fst p) - wmean (reals2 l)) * (RR (fst p) - wmean (reals2 (l ++ [p])))).
  { rewrite reals2_snoc. apply (wsq_devs_snoc (reals2 l) (real2 p)); assumption. }
  assert (E3 : w_m2 (west_of (l ++ [p])) = fadd (w_m2 (west_of l))
     (fmul (fmul (snd p) (fsub (fst p) (w_mean (west_of l)))) (fsub (fst p) (w_mean (west_of (l ++ [p])))))).
  { rewrite west_of_snoc. reflexivity. }
  rewrite E3. fold D in S2. rewrite Etw in *.
  set (W := total_weight (reals2 l)) in *. set (w := RR (snd p)) in *. set (x := RR (fst p)) in *.
  set (S := wsq_devs (reals2 l)) in *. set (S' := wsq_devs (reals2 (l ++ [p]))) in *.
  set (M := wmean (reals2 l)) in *. set (M' := wmean (reals2 (l ++ [p]))) in *.
  set (m := RR (w_mean (west_of l))) in *. set (m' := RR (w_mean (west_of (l ++ [p])))) in *.
  set (s := RR (w_m2 (west_of l))) in *. set (k := INR (length l)) in *.
  assert (Hk : 0 <= k /\ k + 1 <= INR N).
  { split; [apply pos_INR|]. unfold k. rewrite <- S_INR. apply le_INR. lia. }
  assert (HM : Rabs (x - M) <= D) by (apply Rabs_le; unfold D; lra).
  assert (HM' : Rabs (x - M') <= D) by (apply Rabs_le; unfold D; lra).
  assert (HG : Rabs (x - m) <= q).
  { replace (x - m) with ((x - M) + - (m - M)) by ring. eapply Rle_trans; [apply Rabs_triang|]. rewrite Rabs_Ropp. unfold q. lra. }
  assert (HG' : Rabs (x - m') <= q).
  { replace (x - m') with ((x - M') + - (m' - M')) by ring. eapply Rle_trans; [apply Rabs_triang|]. rewrite Rabs_Ropp. unfold q. lra. }
  destruct (step_west_product x m m' w q (fmt_RR _) (fmt_RR _) (fmt_RR _) Pw HG HG') as (Pp & B1 & B2). fold Q in Pp, B2. fold tau in Pp.
  assert (HwQ : w * Q <= Wt * Q) by (apply Rmult_le_compat_r; lra).
  assert (Bq : Rabs (x - m) <= bpow radix2 203) by (apply Rle_trans with (1 := HG), Rle_trans with (1 := HqB); apply bpow_le; lia).
  assert (Bq' : Rabs (x - m') <= bpow radix2 203) by (apply Rle_trans with (1 := HG'), Rle_trans with (1 := HqB); apply bpow_le; lia).
  destruct (fsub_ok (fst p) (w_mean (west_of l)) Fx Fm) as [Ed Fd]; [apply (no_overflow _ 203); [lia|exact Bq]|].
  destruct (fsub_ok (fst p) (w_mean (west_of (l ++ [p]))) Fx Fm') as [Ed' Fd']; [apply (no_overflow _ 203); [lia|exact Bq']|].
  fold x m in Ed. fold x m' in Ed'.
  destruct (fmul_ok (snd p) _ Fw Fd) as [E1 F1].
  { rewrite Ed. fold w. apply (no_overflow _ 403); [lia|]. apply Rle_trans with (1 := B1).
    replace (bpow radix2 403) with (bpow radix2 200 * (2 * bpow radix2 202)) by
      (change 2 with (bpow radix2 1); rewrite <- !bpow_plus; reflexivity).
    apply Rmult_le_compat; lra. }
  rewrite Ed in E1. fold w in E1.
  assert (Btau : 4 * eta * q <= 1).
  { replace (4 * eta * q) with (4 * (eta * q)) by ring. apply Rle_trans with (4 * (eta * bpow radix2 202)).
    - apply Rmult_le_compat_l; [lra|]. apply Rmult_le_compat_l; lra.
    - unfold eta. change 4 with (bpow radix2 2). rewrite <- !bpow_plus. apply (bpow_le radix2 _ 0). lia. }
  destruct (fmul_ok _ _ F1 Fd') as [E2 F2].
  { rewrite E1, Ed'. apply Bb. lra. }
  rewrite E1, Ed' in E2. set (t := rnd (rnd (w * rnd (x - m)) * rnd (x - m'))) in *.
  assert (Ht : Rabs (t - w * (x - M) * (x - M')) <= w * h + tau).
  { replace (t - w * (x - M) * (x - M')) with ((t - w * (x - m) * (x - m')) + w * (- ((x - m) * (m' - M')) + - ((m - M) * (x - M')))) by ring.
    eapply Rle_trans; [apply Rabs_triang|]. rewrite (Rabs_mult w), (Rabs_pos_eq w) by lra.
    assert (K1 : Rabs (- ((x - m) * (m' - M'))) <= q * e) by (rewrite Rabs_Ropp, Rabs_mult; apply Rmult_le_compat; auto using Rabs_pos).
    assert (K2 : Rabs (- ((m - M) * (x - M'))) <= e * D) by (rewrite Rabs_Ropp, Rabs_mult; apply Rmult_le_compat; auto using Rabs_pos).
    pose proof (Rabs_triang (- ((x - m) * (m' - M'))) (- ((m - M) * (x - M')))) as K3.
    assert (K4 : w * Rabs (- ((x - m) * (m' - M')) + - ((m - M) * (x - M'))) <= w * (q * e + e * D)) by (apply Rmult_le_compat_l; lra).
    assert (K5 : q * e + e * D = Q - D ^ 2) by (unfold Q, q; ring). rewrite K5 in K4.
    assert (K6 : w * h = w * (Q - D ^ 2) + 5 * uro * (w * Q)) by (unfold h; ring). lra. }
  assert (Hst : Rabs (s + t - S') <= (W + w) * h + k * (2 * uro * (Wt * Q) + tau) + tau).
  { rewrite ES. replace (s + t - (S + w * (x - M) * (x - M'))) with ((s - S) + (t - w * (x - M) * (x - M'))) by ring.
    eapply Rle_trans; [apply Rabs_triang|]. lra. }
  assert (Hab : Rabs (s + t) <= 2 * (Wt * Q)).
  { replace (s + t) with ((s + t - S') + S') by ring. eapply Rle_trans; [apply Rabs_triang|]. rewrite (Rabs_pos_eq S') by lra.
    assert (L1 : (W + w) * h + (W + w) * D ^ 2 <= (1 + 5 * uro) * (Wt * Q)).
    { replace ((W + w) * h + (W + w) * D ^ 2) with ((W + w) * ((1 + 5 * uro) * Q)) by (unfold h; ring).
      replace ((1 + 5 * uro) * (Wt * Q)) with (Wt * ((1 + 5 * uro) * Q)) by ring. apply Rmult_le_compat_r; [|lra]. nra. }
    assert (L2 : k * (2 * uro * (Wt * Q) + tau) + tau <= 2 * (k * uro) * (Wt * Q) + uro * (Wt * Q)).
    { assert ((k + 1) * tau <= uro * (Wt * Q)) by (apply Rle_trans with (2 := Htiny); apply Rmult_le_compat_r; lra). lra. }
    assert (L3 : k * uro <= / 16) by nra.
    assert (L4 : 2 * (k * uro) * (Wt * Q) <= 2 * / 16 * (Wt * Q)) by (apply Rmult_le_compat_r; lra).
    nra. }
  destruct (fadd_ok _ _ Fi F2) as [Es Fs]; [rewrite E2; fold s; apply Bb; lra|].
  split; [exact Fs|]. rewrite Es, E2. fold s.
  assert (Ft : fmt t) by apply fmt_rnd. pose proof (plus_err s t (fmt_RR _) Ft) as Er.
  replace (rnd (s + t) - S') with ((rnd (s + t) - (s + t)) + (s + t - S')) by ring.
  eapply Rle_trans; [apply Rabs_triang|].
  assert (uro * Rabs (s + t) <= uro * (2 * (Wt * Q))) by (apply Rmult_le_compat_l; lra).
  lra.
Qed.

(** ** The reported numbers *)
Lemma west_count_of l : w_count (west_of l) = u64 (Z.of_nat (length l)).
Proof.
  induction l as [|p l IH] using rev_ind; [reflexivity|].
  rewrite west_of_snoc, app_length, Nat2Z.inj_add. cbn [west_add west_step w_count length]. rewrite IH.
  unfold u64. rewrite Zplus_mod_idemp_l. reflexivity.
Qed.

Lemma two_count l : (2 <= Z.of_nat (length l) <= 2 ^ 49)%Z -> (w_count (west_of l) <? 2)%Z = false.
Proof. intros H. rewrite west_count_of, u64_small by (unfold two64; lia). apply Z.ltb_ge. lia. Qed.

Record west_setting (lo hi B : R) (l : list (f64 * f64)) : Prop := {
  ws_heavy : heavies lo hi B l;
  ws_count : (2 <= Z.of_nat (length l) <= 2 ^ 49)%Z;
  ws_B : B <= bpow radix2 200;
  ws_D : bpow radix2 (-100) <= hi - lo <= 2 * B;
  ws_W : bpow radix2 (-100) <= total_weight (reals2 l) <= bpow radix2 200 }.

Lemma west_m2_final lo hi B l : west_setting lo hi B l ->
  let n := INR (length l) in
  let D := hi - lo in
  let e := drift n B D in
  let Q := (D + e) ^ 2 in
  let W := total_weight (reals2 l) in
  fin (w_m2 (west_of l)) /\
  Rabs (RR (w_m2 (west_of l)) - wsq_devs (reals2 l)) <= W * (Q - D ^ 2 + (2 * n + 6) * uro * Q) /\
  0 <= wsq_devs (reals2 l) <= W * D ^ 2 /\ bpow radix2 (-200) <= Q <= bpow radix2 404 /\ D ^ 2 <= Q /\ n * uro <= / 16.
Proof.
  intros [Hl Hn HB HD HW] n D e Q W. pose proof uro_pos as U.
  assert (Nl : l <> []) by (destruct l; [cbn in Hn; lia|discriminate]).
  pose proof (bpow_gt_0 radix2 (-100)) as P100. fold D in HD. assert (PB : 0 < B) by lra.
  assert (Hnu : n * uro <= / 16).
  { pose proof (uro_n (length l) 49 ltac:(lia) ltac:(lia)) as K. change (49 - 53)%Z with (-4)%Z in K.
    change (bpow radix2 (-4)) with (/ 16) in K. fold n in K. lra. }
  assert (Pn : 1 <= n) by (apply INR_pos; exact Nl).
  destruct (drift_small n B D Pn Hnu ltac:(lra) PB) as [Pe0 Pe2]. fold e in Pe0, Pe2.
  assert (Hq : D <= D + e <= 4 * B) by lra.
  destruct (west_m2_error lo hi B W (length l) l Hl Nl ltac:(lia) ltac:(lia) HB HD (Rle_refl _) HW) as [F E].
  fold D n e Q W in E. 
  assert (Ht : n * (4 * eta * (D + e) + eta) <= uro * (W * Q)).
  { apply tiny_total; [split; [lra|]|lra|apply HW]. unfold n. rewrite INR_IZR_INZ, <- IZR_Zpower by lia. apply IZR_le. exact (proj2 Hn). }
  split; [exact F|]. split; [lra|]. split.
  { apply wsq_devs_bounds; [destruct l; [congruence|discriminate]|]. apply Forall_map. revert Hl. apply Forall_impl. cbn. tauto. }
  assert (Qe : Q = (D + e) * (D + e)) by (unfold Q; ring).
  split; [split|].
  - rewrite Qe. change (-200)%Z with (-100 + -100)%Z. rewrite bpow_plus. apply Rmult_le_compat; lra.
  - rewrite Qe. apply (bpow_mult_le (D + e) (D + e) _ 202 202 404); [| |lia|reflexivity].
    all: replace (bpow radix2 202) with (4 * bpow radix2 200) by (change 4 with (bpow radix2 2); rewrite <- bpow_plus; reflexivity); lra.
  - split; [unfold Q; nra|exact Hnu].
Qed.

Lemma eta_Q Q : bpow radix2 (-200) <= Q -> eta <= uro * Q.
Proof.
  intros H. pose proof uro_pos. apply Rle_trans with (uro * bpow radix2 (-200)); [|apply Rmult_le_compat_l; lra].
  unfold eta, uro. rewrite <- bpow_plus. apply bpow_le. lia.
Qed.

Lemma west_population_error lo hi B l : west_setting lo hi B l ->
  let n := INR (length l) in
  let D := hi - lo in
  let e := drift n B D in
  let v := WestPopulationVariance numF (west_of l) in
  fin v /\
  Rabs (RR v - wsq_devs (reals2 l) / total_weight (reals2 l)) <= 2 * ((D + e) ^ 2 - D ^ 2) + (5 * n + 12) * uro * (D + e) ^ 2.
Proof.
  intros H n D e v. destruct (west_m2_final lo hi B l H) as (F & E & HS & HQ & HQD & Hnu). fold n D e in E, HS, HQ, HQD, Hnu.
  pose proof uro_pos as U. pose proof uro_small as U2.
  set (Q := (D + e) ^ 2) in *. set (W := total_weight (reals2 l)) in *. set (S := wsq_devs (reals2 l)) in *.
  destruct H as [Hl Hn HB HD HW]. fold W in HW. fold D in HD.
  pose proof (bpow_gt_0 radix2 (-100)) as P100. pose proof (bpow_gt_0 radix2 (-200)) as P200.
  assert (PW : 0 < W) by lra. assert (PQ : 0 < Q) by lra.
  assert (Pn : 0 <= n) by apply pos_INR.
  destruct (west_sw l) as [Fw Ew].
  { revert Hl. apply Forall_impl. tauto. }
  { fold W. apply Rle_trans with (1 := proj2 HW). apply bpow_le. lia. }
  { lia. }
  fold W n in Ew. set (sw := RR (w_sw (west_of l))) in *. set (s := RR (w_m2 (west_of l))) in *.
  assert (Psw : W * (7 / 8) <= sw).
  { assert (2 * n * uro * W <= / 8 * W) by (apply Rmult_le_compat_r; lra). apply Rabs_le_inv in Ew. lra. }
  assert (Psw' : 0 < sw) by lra.
  assert (HnQ : n * uro * Q <= / 16 * Q) by (apply Rmult_le_compat_r; lra).
  assert (HnQ0 : 0 <= n * uro * Q) by (apply Rmult_le_pos; [nra|lra]).
  assert (HuQ : 0 < uro * Q) by nra.
  set (E2 := Q - D ^ 2 + (2 * n + 6) * uro * Q) in *. assert (PE2 : 0 <= E2) by (unfold E2; lra).
  assert (Hi : W / sw <= 8 / 7).
  { apply (Rmult_le_reg_r sw); [lra|]. unfold Rdiv at 1. rewrite Rmult_assoc, Rinv_l, Rmult_1_r by lra. lra. }
  assert (Hq : Rabs (s / sw - S / W) <= 8 / 7 * E2 + 8 / 7 * (2 * n * uro * Q)).
  { replace (s / sw - S / W) with ((s - S) / sw + S * (W - sw) / W / sw) by (field; lra).
    eapply Rle_trans; [apply Rabs_triang|]. assert (Pi : 0 < / sw) by now apply Rinv_0_lt_compat.
    assert (PiW : 0 < / W) by now apply Rinv_0_lt_compat.
    apply Rplus_le_compat.
    - unfold Rdiv at 1. rewrite Rabs_mult, (Rabs_pos_eq (/ sw)) by lra.
      apply Rle_trans with (W * E2 * / sw); [apply Rmult_le_compat_r; lra|].
      replace (W * E2 * / sw) with (W / sw * E2) by (unfold Rdiv; ring). apply Rmult_le_compat_r; lra.
    - unfold Rdiv. rewrite !Rabs_mult, (Rabs_pos_eq (/ sw)), (Rabs_pos_eq (/ W)), (Rabs_pos_eq S) by lra.
      rewrite (Rabs_minus_sym W sw).
      apply Rle_trans with (W * D ^ 2 * (2 * n * uro * W) * / W * / sw).
      + apply Rmult_le_compat_r; [lra|]. apply Rmult_le_compat_r; [lra|]. apply Rmult_le_compat; try lra. apply Rabs_pos.
      + replace (W * D ^ 2 * (2 * n * uro * W) * / W * / sw) with (W / sw * (2 * n * uro * D ^ 2)) by (field; lra).
        assert (0 <= 2 * n * uro * D ^ 2) by (apply Rmult_le_pos; nra).
        assert (2 * n * uro * D ^ 2 <= 2 * n * uro * Q) by (apply Rmult_le_compat_l; nra).
        apply Rmult_le_compat; try lra. apply Rmult_le_pos; lra. }
  assert (HSW : 0 <= S / W <= Q).
  { split; [apply Rmult_le_pos; [lra|left; now apply Rinv_0_lt_compat]|].
    apply (Rmult_le_reg_r W); [lra|]. unfold Rdiv. rewrite Rmult_assoc, Rinv_l, Rmult_1_r by lra. nra. }
  assert (Hab : Rabs (s / sw) <= Q + 8 / 7 * E2 + 8 / 7 * (2 * n * uro * Q)).
  { replace (s / sw) with ((s / sw - S / W) + S / W) by ring. eapply Rle_trans; [apply Rabs_triang|].
    rewrite (Rabs_pos_eq (S / W)) by lra. lra. }
  assert (Hab4 : Rabs (s / sw) <= 4 * Q) by (apply Rle_trans with (1 := Hab); unfold E2; nra).
  assert (Ev : v = fdiv (w_m2 (west_of l)) (w_sw (west_of l))).
  { unfold v, WestPopulationVariance. rewrite two_count by exact Hn. reflexivity. }
  destruct (fdiv_ok (w_m2 (west_of l)) (w_sw (west_of l)) F) as [Ed Fd].
  { fold sw. lra. }
  { fold s sw. apply (no_overflow _ 406); [lia|]. apply Rle_trans with (1 := Hab4).
    replace (bpow radix2 406) with (4 * bpow radix2 404) by (change 4 with (bpow radix2 2); rewrite <- bpow_plus; reflexivity). lra. }
  rewrite <- Ev in Ed, Fd. split; [exact Fd|]. rewrite Ed. fold s sw.
  pose proof (rnd_err (s / sw)) as Er. pose proof (eta_Q Q ltac:(lra)) as He.
  replace (rnd (s / sw) - S / W) with ((rnd (s / sw) - s / sw) + (s / sw - S / W)) by ring.
  eapply Rle_trans; [apply Rabs_triang|].
  assert (uro * Rabs (s / sw) <= uro * (4 * Q)) by (apply Rmult_le_compat_l; lra).
  unfold E2 in Hq. nra.
Qed.

(** Weights that are whole numbers: their sum is exact. *)
Lemma west_sw_whole l (ks : list Z) : Forall (fun p => fin (snd p)) l -> map (fun p => RR (snd p)) l = map IZR ks ->
  Forall (fun k => 0 <= k)%Z ks -> (sumZ ks <= 2 ^ 53)%Z ->
  fin (w_sw (west_of l)) /\ RR (w_sw (west_of l)) = IZR (sumZ ks) /\ total_weight (reals2 l) = IZR (sumZ ks).
Proof.
  assert (EW : forall l ks, map (fun p : f64 * f64 => RR (snd p)) l = map IZR ks -> total_weight (reals2 l) = IZR (sumZ ks)).
  { clear. intros l. unfold total_weight, reals2. rewrite map_map. cbn [real2 snd]. intros ks ->. unfold sumR, sumZ.
    induction ks as [|k ks IH]; [reflexivity|]. cbn [map fold_right]. rewrite plus_IZR. lra. }
  revert ks; induction l as [|p l IH] using rev_ind; intros ks Fl He Hk Hs.
  { destruct ks; [|discriminate]. split; [reflexivity|]. split; [reflexivity|apply (EW [] []); reflexivity]. }
  destruct ks as [|k ks _] using rev_ind; [rewrite map_app in He; destruct (map _ l); discriminate|].
  assert (HeW := He). rewrite !map_app in He. cbn [map] in He. apply app_inj_tail in He. destruct He as [He Ek].
  apply Forall_app in Fl. destruct Fl as [Fl Fp]. apply Forall_inv in Fp. apply Forall_app in Hk. destruct Hk as [Hk Hk0]. apply Forall_inv in Hk0.
  assert (Esum : sumZ (ks ++ [k]) = (sumZ ks + k)%Z).
  { unfold sumZ. rewrite fold_right_app. cbn. clear. induction ks as [|a ks IH]; cbn; lia. }
  assert (0 <= sumZ ks)%Z.
  { clear -Hk. induction Hk; unfold sumZ in *; cbn; lia. }
  destruct (IH ks Fl He Hk ltac:(lia)) as (F & E & _).
  rewrite west_of_snoc. cbn [west_add west_step w_sw numF n_add].
  assert (X : RR (w_sw (west_of l)) + RR (snd p) = IZR (sumZ (ks ++ [k]))) by (rewrite E, Ek, Esum, plus_IZR; reflexivity).
  destruct (fadd_ok (w_sw (west_of l)) (snd p) F Fp) as [Ea Fa].
  { rewrite X. apply (no_overflow _ 53); [lia|]. rewrite <- abs_IZR, <- IZR_Zpower by lia. apply IZR_le. change (Zpower radix2 53) with (2 ^ 53)%Z. lia. }
  split; [exact Fa|]. split; [|apply EW; exact HeW]. rewrite Ea, X. apply rnd_fmt, fmt_IZR. lia.
Qed.

Lemma west_frequency_error lo hi B l (ks : list Z) : west_setting lo hi B l ->
  map (fun p => RR (snd p)) l = map IZR ks -> (2 <= sumZ ks <= 2 ^ 53)%Z ->
  let n := INR (length l) in
  let D := hi - lo in
  let e := drift n B D in
  let W := total_weight (reals2 l) in
  let v := WestSampleFrequencyVariance numF (west_of l) in
  fin v /\
  Rabs (RR v - wsq_devs (reals2 l) / (W - 1)) <= W / (W - 1) * (2 * ((D + e) ^ 2 - D ^ 2) + (4 * n + 12) * uro * (D + e) ^ 2).
Proof.
  intros H Hks Hsk n D e W v. destruct (west_m2_final lo hi B l H) as (F & E & HS & HQ & HQD & Hnu). fold n D e W in E, HS, HQ, HQD, Hnu.
  pose proof uro_pos as U. pose proof uro_small as U2.
  set (Q := (D + e) ^ 2) in *. set (S := wsq_devs (reals2 l)) in *.
  destruct H as [Hl Hn HB HD HW]. fold W in HW. fold D in HD.
  pose proof (bpow_gt_0 radix2 (-200)) as P200. assert (PQ : 0 < Q) by lra. assert (Pn : 0 <= n) by apply pos_INR.
  destruct (west_sw_whole l ks) as (Fw & Ew & EW).
  { revert Hl. apply Forall_impl. tauto. }
  { exact Hks. }
  { assert (K : Forall (fun p => 0 < RR (snd p)) l) by (revert Hl; apply Forall_impl; tauto).
    clear -Hks K. revert ks Hks. induction K as [|p l Hp _ IH]; intros [|k ks] E; cbn in E; try discriminate; constructor.
    - injection E as E1 _. rewrite E1 in Hp. apply lt_IZR in Hp. lia.
    - injection E as _ E. auto. }
  { lia. }
  fold W in EW. assert (W2 : 2 <= W) by (rewrite EW; apply IZR_le; lia).
  assert (W53 : W <= bpow radix2 53) by (rewrite EW, <- IZR_Zpower by lia; apply IZR_le; exact (proj2 Hsk)).
  set (s := RR (w_m2 (west_of l))) in *.
  assert (E1 : RR (w_sw (west_of l)) - RR f1 = IZR (sumZ ks - 1)) by (rewrite Ew, RR_f1, minus_IZR; reflexivity).
  destruct (fsub_ok (w_sw (west_of l)) f1 Fw fin_f1) as [Ed Fd].
  { rewrite E1. apply (no_overflow _ 53); [lia|]. rewrite <- abs_IZR, <- IZR_Zpower by lia. apply IZR_le. change (Zpower radix2 53) with (2 ^ 53)%Z. lia. }
  rewrite E1, rnd_fmt in Ed by (apply fmt_IZR; lia). assert (Ed' : RR (fsub (w_sw (west_of l)) f1) = W - 1) by (rewrite Ed, minus_IZR, EW; reflexivity).
  set (E2 := Q - D ^ 2 + (2 * n + 6) * uro * Q) in *. 
  assert (HnQ : n * uro * Q <= / 16 * Q) by (apply Rmult_le_compat_r; lra).
  assert (HnQ0 : 0 <= n * uro * Q) by (apply Rmult_le_pos; [nra|lra]).
  assert (HuQ : 0 < uro * Q) by nra.
  assert (PE2 : 0 <= E2 <= 2 * Q) by (unfold E2; split; nra).
  set (r := W / (W - 1)) in *. assert (Pi : 0 < / (W - 1)) by (apply Rinv_0_lt_compat; lra).
  assert (Pr : 1 <= r <= 2).
  { assert (Er : r = 1 + / (W - 1)) by (unfold r; field; lra).
    assert (/ (W - 1) <= 1) by (rewrite <- Rinv_1; apply Rinv_le; lra). lra. }
  assert (Hq : Rabs (s / (W - 1) - S / (W - 1)) <= r * E2).
  { replace (s / (W - 1) - S / (W - 1)) with ((s - S) * / (W - 1)) by (unfold Rdiv; ring).
    rewrite Rabs_mult, (Rabs_pos_eq (/ (W - 1))) by lra. replace (r * E2) with (W * E2 * / (W - 1)) by (unfold r, Rdiv; ring).
    apply Rmult_le_compat_r; lra. }
  assert (HSW : 0 <= S / (W - 1) <= r * Q).
  { split; [apply Rmult_le_pos; lra|]. unfold r, Rdiv. replace (W * / (W - 1) * Q) with (W * Q * / (W - 1)) by ring.
    apply Rmult_le_compat_r; [lra|]. apply Rle_trans with (1 := proj2 HS). apply Rmult_le_compat_l; lra. }
  assert (Hab : Rabs (s / (W - 1)) <= 3 * (r * Q)).
  { replace (s / (W - 1)) with ((s / (W - 1) - S / (W - 1)) + S / (W - 1)) by ring. eapply Rle_trans; [apply Rabs_triang|].
    rewrite (Rabs_pos_eq (S / (W - 1))) by lra. assert (r * E2 <= r * (2 * Q)) by (apply Rmult_le_compat_l; lra). lra. }
  assert (Ev : v = fdiv (w_m2 (west_of l)) (fsub (w_sw (west_of l)) f1)).
  { unfold v, WestSampleFrequencyVariance. rewrite two_count by exact Hn. reflexivity. }
  destruct (fdiv_ok (w_m2 (west_of l)) (fsub (w_sw (west_of l)) f1) F) as [Eq Fq].
  { rewrite Ed'. lra. }
  { rewrite Ed'. fold s. apply (no_overflow _ 407); [lia|]. apply Rle_trans with (1 := Hab).
    replace (bpow radix2 407) with (8 * bpow radix2 404) by (change 8 with (bpow radix2 3); rewrite <- bpow_plus; reflexivity).
    assert (r * Q <= 2 * Q) by (apply Rmult_le_compat_r; lra). lra. }
  rewrite <- Ev in Eq, Fq. split; [exact Fq|]. rewrite Eq, Ed'. fold s.
  pose proof (rnd_err (s / (W - 1))) as Er. pose proof (eta_Q Q ltac:(lra)) as He.
  replace (rnd (s / (W - 1)) - S / (W - 1)) with ((rnd (s / (W - 1)) - s / (W - 1)) + (s / (W - 1) - S / (W - 1))) by ring.
  eapply Rle_trans; [apply Rabs_triang|].
  assert (uro * Rabs (s / (W - 1)) <= uro * (3 * (r * Q))) by (apply Rmult_le_compat_l; lra).
  assert (eta <= r * (uro * Q)) by nra.
  apply Rle_trans with (r * (3 * (uro * Q) + uro * Q + E2)); [lra|].
  apply Rmult_le_compat_l; [lra|]. unfold E2. nra.
Qed.

Lemma west_mean_final lo hi B l : heavies lo hi B l -> (1 <= Z.of_nat (length l) <= 2 ^ 49)%Z ->
  bpow radix2 (-900) <= B <= bpow radix2 500 -> hi - lo <= 2 * B -> total_weight (reals2 l) <= bpow radix2 500 ->
  fin (w_mean (west_of l)) /\
  Rabs (RR (w_mean (west_of l)) - wmean (reals2 l)) <= drift (INR (length l)) B (hi - lo).
Proof.
  intros Hl Hn HB HD HW. assert (Nl : l <> []) by (destruct l; [cbn in Hn; lia|discriminate]).
  destruct (west_mean_bound lo hi B (length l) l Hl Nl ltac:(lia) ltac:(lia) HB HD HW) as [F E]. split; [exact F|exact E].
Qed.

Lemma west_sum_error lo hi B l : heavies lo hi B l -> (1 <= Z.of_nat (length l) <= 2 ^ 49)%Z ->
  bpow radix2 (-900) <= B <= bpow radix2 500 -> hi - lo <= 2 * B ->
  bpow radix2 (-100) <= total_weight (reals2 l) <= bpow radix2 500 ->
  let n := INR (length l) in
  let W := total_weight (reals2 l) in
  let v := WestSum numF (west_of l) in
  fin v /\ Rabs (RR v - wsum (reals2 l)) <= W * (2 * drift n B (hi - lo) + (2 * n + 5) * uro * B).
Proof.
  intros Hl Hn HB HD HW n W v. pose proof uro_pos as U. pose proof uro_small as U2.
  assert (Nl : l <> []) by (destruct l; [cbn in Hn; lia|discriminate]).
  destruct (west_mean_final lo hi B l Hl Hn HB HD (proj2 HW)) as [Fm Em].
  destruct (west_sw l) as [Fw Ew].
  { revert Hl. apply Forall_impl. tauto. }
  { exact (proj2 HW). }
  { lia. }
  fold W n in Ew, Em. fold W in HW. pose proof (bpow_gt_0 radix2 (-100)) as P100. pose proof (bpow_gt_0 radix2 (-900)) as P900.
  assert (Hnu : n * uro <= / 16).
  { pose proof (uro_n (length l) 49 ltac:(lia) ltac:(lia)) as K. change (49 - 53)%Z with (-4)%Z in K.
    change (bpow radix2 (-4)) with (/ 16) in K. fold n in K. lra. }
  assert (Pn : 1 <= n) by (apply INR_pos; exact Nl).
  assert (HD0 : 0 <= hi - lo).
  { destruct l as [|p l']; [congruence|]. apply Forall_inv in Hl. lra. }
  destruct (drift_small n B (hi - lo) Pn Hnu ltac:(lra) ltac:(lra)) as [Pe0 Pe2]. set (e := drift n B (hi - lo)) in *.
  set (m := RR (w_mean (west_of l))) in *. set (sw := RR (w_sw (west_of l))) in *. set (M := wmean (reals2 l)) in *.
  assert (EM : wsum (reals2 l) = M * W) by (unfold M, wmean; fold W; field; lra).
  assert (HM : Rabs M <= B).
  { apply Rabs_le. unfold M. apply wmean_abs; [destruct l; [congruence|discriminate]|].
    apply Forall_map. revert Hl. apply Forall_impl. intros p (_ & _ & _ & Hp & Pw). split; [apply Rabs_le_inv; exact Hp|exact Pw]. }
  assert (Hsw : Rabs sw <= 9 / 8 * W).
  { replace sw with ((sw - W) + W) by ring. eapply Rle_trans; [apply Rabs_triang|]. rewrite (Rabs_pos_eq W) by lra.
    assert (2 * n * uro * W <= / 8 * W) by (apply Rmult_le_compat_r; lra). lra. }
  assert (Hd : Rabs (m * sw - M * W) <= e * (9 / 8 * W) + B * (2 * n * uro * W)).
  { replace (m * sw - M * W) with ((m - M) * sw + M * (sw - W)) by ring. eapply Rle_trans; [apply Rabs_triang|].
    rewrite !Rabs_mult. apply Rplus_le_compat; apply Rmult_le_compat; auto using Rabs_pos. }
  assert (PWB : 0 < W * B) by (apply Rmult_lt_0_compat; lra).
  assert (Hm : Rabs m <= 3 * B).
  { replace m with ((m - M) + M) by ring. eapply Rle_trans; [apply Rabs_triang|]. lra. }
  assert (Hab : Rabs (m * sw) <= 4 * (W * B)).
  { rewrite Rabs_mult. apply Rle_trans with (3 * B * (9 / 8 * W)); [apply Rmult_le_compat; auto using Rabs_pos|lra]. }
  destruct (fmul_ok (w_mean (west_of l)) (w_sw (west_of l)) Fm Fw) as [Ev Fv].
  { fold m sw. apply (no_overflow _ 1002); [lia|]. apply Rle_trans with (1 := Hab).
    replace (bpow radix2 1002) with (4 * (bpow radix2 500 * bpow radix2 500)) by (change 4 with (bpow radix2 2); rewrite <- !bpow_plus; reflexivity).
    apply Rmult_le_compat_l; [lra|]. apply Rmult_le_compat; lra. }
  split; [exact Fv|]. unfold v, WestSum. cbn [numF n_mul]. rewrite Ev, EM. fold m sw.
  pose proof (rnd_err (m * sw)) as Er.
  assert (He : eta <= uro * (W * B)).
  { apply Rle_trans with (uro * (bpow radix2 (-100) * bpow radix2 (-900))).
    - unfold eta, uro. rewrite <- !bpow_plus. apply bpow_le. lia.
    - apply Rmult_le_compat_l; [lra|]. apply Rmult_le_compat; lra. }
  replace (rnd (m * sw) - M * W) with ((rnd (m * sw) - m * sw) + (m * sw - M * W)) by ring.
  eapply Rle_trans; [apply Rabs_triang|].
  assert (uro * Rabs (m * sw) <= uro * (4 * (W * B))) by (apply Rmult_le_compat_l; lra).
  assert (0 <= e * W) by (apply Rmult_le_pos; lra). lra.
Qed.

Lemma heavies_of_heavy lo hi B l : Forall (fun p => fin (snd p)) l ->
  (forall x w, In (x, w) l -> 0 < RR w -> fin x /\ lo <= RR x <= hi) -> - B <= lo -> hi <= B -> heavies lo hi B (heavy l).
Proof.
  intros Fl H Hlo Hhi. apply Forall_forall. intros [x w] Hin. apply filter_In in Hin. destruct Hin as [Hin Hw]. cbn [fst snd] in *.
  rewrite Forall_forall in Fl. pose proof (Fl _ Hin) as Fw. cbn in Fw.
  apply (proj1 (flt_R f0 w fin_f0 Fw)) in Hw. rewrite RR_f0 in Hw. destruct (H x w Hin Hw) as [Fx Hx].
  repeat (split; [assumption||lra|]). split; [apply Rabs_le; lra|exact Hw].
Qed.
