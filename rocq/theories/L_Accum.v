(** Lemmas about the accumulators: histories, mean and variance, archives. *)
From Coq Require Import ZArith Reals List Lia Lra Psatz Bool.
From Flocq Require Import Core.Core IEEE754.BinarySingleNaN Plus_error.
From Verif Require Import Base F64 Num M_Archive M_Accum S_Accum L_Sum.
Import ListNotations.
Open Scope R_scope.

(** ** Histories of calls *)

Lemma apply_app {S X} (add : S -> X -> S * out unit) l1 l2 a a1 :
  apply_accumulator add l1 a = (a1, Ok tt) ->
  apply_accumulator add (l1 ++ l2) a = apply_accumulator add l2 a1.
Proof.
  revert a; induction l1 as [|x l1 IH]; intros a H; cbn [apply_accumulator app] in *.
  - injection H as <-. reflexivity.
  - destruct (add a x) as [a' [u| | |]]; try discriminate. now apply IH.
Qed.

Lemma history_since {S X} (add : S -> X -> S * out unit) (reset : S -> S) (fresh : S) :
  (forall a, reset a = fresh) ->
  forall h l a0 a, apply_accumulator add l fresh = (a0, Ok tt) -> history add reset h a0 = (a, Ok tt) ->
  apply_accumulator add (since_reset h l) fresh = (a, Ok tt).
Proof.
  intros Hr h; induction h as [|[x|] h IH]; intros l a0 a H0; cbn [history since_reset]; intros H.
  - injection H as <-. exact H0.
  - destruct (add a0 x) as [a1 [[]| | |]] eqn:E; try discriminate.
    apply (IH _ a1); [|exact H]. rewrite (apply_app _ _ _ _ _ H0). cbn [apply_accumulator].
    rewrite E. reflexivity.
  - rewrite Hr in H. exact (IH [] fresh a eq_refl H).
Qed.

Lemma count_mod {S X} (step : S -> X -> S) (cnt : S -> Z) (fresh : S) :
  (forall a x, cnt (step a x) = u64 (cnt a + 1)) -> cnt fresh = 0%Z ->
  forall l, cnt (fold_left step l fresh) = u64 (Z.of_nat (length l)).
Proof.
  intros Hs H0 l. induction l as [|x l IH] using rev_ind; [exact H0|].
  rewrite fold_left_app. cbn [fold_left]. rewrite Hs, IH, app_length. cbn [length].
  unfold u64. rewrite Zplus_mod_idemp_l. f_equal. lia.
Qed.

(** Adding through the checked or unchecked Add, while below the limit. *)

Lemma apply_step {S X} (add : S -> X -> S * out unit) (step : S -> X -> S) :
  (forall a x, add a x = (step a x, Ok tt)) ->
  forall l a, apply_accumulator add l a = (fold_left step l a, Ok tt).
Proof.
  intros H l; induction l as [|x l IH]; intros a; cbn [apply_accumulator fold_left]; [reflexivity|].
  rewrite H. apply IH.
Qed.

Lemma apply_step_checked {S X} (add : S -> X -> S * out unit) (step : S -> X -> S) (cnt : S -> Z) :
  (forall a x, cnt a <> ulong_max -> add a x = (step a x, Ok tt)) ->
  (forall a x, cnt (step a x) = u64 (cnt a + 1)) ->
  forall l a, (0 <= cnt a)%Z -> (cnt a + Z.of_nat (length l) <= ulong_max)%Z ->
  apply_accumulator add l a = (fold_left step l a, Ok tt).
Proof.
  intros H Hc l; induction l as [|x l IH]; intros a H0 Hl; cbn [apply_accumulator fold_left];
    [reflexivity|].
  cbn [length] in Hl. rewrite Nat2Z.inj_succ in Hl. unfold ulong_max in *.
  rewrite H by (unfold ulong_max; lia). apply IH; rewrite Hc, u64_small by lia; lia.
Qed.

(** ** Knuth-Welford over the reals *)

Definition sumsq (l : list R) : R := sumR (map (fun x => x ^ 2) l).

Lemma sumsq_snoc l x : sumsq (l ++ [x]) = sumsq l + x ^ 2.
Proof. unfold sumsq. rewrite map_app. apply sumR_snoc. Qed.

Lemma sq_devs_gen l m : sumR (map (fun x => (x - m) ^ 2) l) =
  sumsq l - 2 * m * sumR l + INR (length l) * m ^ 2.
Proof.
  induction l as [|x l IH] using rev_ind.
  - unfold sumsq, sumR. simpl. ring.
  - rewrite map_app, sumsq_snoc, !sumR_app. rewrite app_length, plus_INR. cbn [map length INR].
    unfold sumR at 2 4. cbn [fold_right]. rewrite IH. ring.
Qed.

Lemma sq_devs_sumsq l : l <> [] -> sq_devs l = sumsq l - (sumR l) ^ 2 / INR (length l).
Proof.
  intros H. unfold sq_devs. rewrite sq_devs_gen. unfold meanR. field.
  apply not_0_INR. destruct l; [congruence|discriminate].
Qed.

Definition kwR_of (l : list R) : kw R := fold_left (kw_step numR) l (kw_new numR).

Lemma kwR_count l : kw_count (kwR_of l) = u64 (Z.of_nat (length l)).
Proof. apply (count_mod (kw_step numR) kw_count (kw_new numR)); reflexivity. Qed.

Lemma kwR_spec l : l <> [] -> (Z.of_nat (length l) < two64)%Z ->
  kw_mean (kwR_of l) = meanR l /\ kw_m2 (kwR_of l) = sq_devs l.
Proof.
  induction l as [|x l IH] using rev_ind; [congruence|]. intros _ Hn.
  rewrite app_length in Hn. cbn [length] in Hn.
  pose proof (kwR_count l) as Hc. unfold kwR_of in *. rewrite fold_left_app. cbn [fold_left].
  set (a := fold_left (kw_step numR) l (kw_new numR)) in *.
  unfold kw_step. cbn [kw_mean kw_m2 numR n_add n_sub n_mul n_div n_ofZ].
  rewrite Hc. rewrite !u64_small by (rewrite ?u64_small; lia).
  assert (En : IZR (Z.of_nat (length l) + 1) = INR (length l) + 1)
    by (rewrite plus_IZR, <- INR_IZR_INZ; reflexivity).
  assert (Hl : 0 <= INR (length l)) by apply pos_INR.
  destruct l as [|y l0].
  { subst a. cbn [fold_left kw_new kw_mean kw_m2 numR n_ofZ app length INR] in *.
    rewrite En. unfold meanR, sq_devs, meanR, sumR. cbn [app map fold_right length INR].
    split; field. }
  destruct IH as [Em E2]; [congruence|lia|]. set (l := y :: l0) in *.
  assert (Hp : 0 < INR (length l)) by (apply lt_0_INR; unfold l; cbn; lia).
  rewrite sq_devs_sumsq by (destruct l; discriminate).
  rewrite Em, E2, sq_devs_sumsq by (unfold l; discriminate).
  rewrite sumsq_snoc, sumR_snoc. unfold meanR. rewrite sumR_snoc, app_length. cbn [length].
  rewrite plus_INR. cbn [INR]. rewrite En. split; field; lra.
Qed.

(** ** Knuth-Welford in doubles *)

Definition kw_of (l : list f64) : kw f64 := fold_left (kw_step numF) l (kw_new numF).

Lemma kw_count_of l : kw_count (kw_of l) = u64 (Z.of_nat (length l)).
Proof. apply (count_mod (kw_step numF) kw_count (kw_new numF)); reflexivity. Qed.

(** Half (or less) of a rounded difference never exceeds the difference. *)
Lemma rnd_part d n : (exists x m, fmt x /\ fmt m /\ d = x - m) -> 0 <= d -> 2 <= n ->
  0 <= rnd (rnd d / n) <= d.
Proof.
  intros (x & m & Fx & Fm & Ed) Hd Hn.
  assert (H0 : 0 <= rnd d) by (now apply rnd_pos).
  assert (Hi : 0 < / n <= / 2) by (split; [apply Rinv_0_lt_compat; lra|apply Rinv_le; lra]).
  assert (Hq : 0 <= rnd d / n <= rnd d * / 2).
  { unfold Rdiv. split; [apply Rmult_le_pos; lra|apply Rmult_le_compat_l; lra]. }
  split; [now apply rnd_pos|].
  destruct (Rle_lt_dec d (bpow radix2 (-1021))) as [Hs|Hs].
  - assert (Fd : fmt d).
    { rewrite Ed in *. unfold Rminus in *. apply FLT_format_plus_small; auto with typeclass_instances.
      - now apply fmt_opp.
      - rewrite Rabs_pos_eq by lra. exact Hs. }
    apply rnd_le_fmt; [exact Fd|]. rewrite (rnd_fmt d Fd) in *. lra.
  - pose proof (rnd_err d) as E1. pose proof (rnd_err (rnd d / n)) as E2.
    rewrite (Rabs_pos_eq d) in E1 by lra. rewrite (Rabs_pos_eq (rnd d / n)) in E2 by lra.
    apply Rabs_le_inv in E1. apply Rabs_le_inv in E2.
    pose proof uro_small. pose proof uro_pos.
    assert (He : eta <= / 1000000 * d).
    { apply Rle_trans with (/ 1000000 * bpow radix2 (-1021)).
      - unfold eta. replace (-1075)%Z with (-54 + -1021)%Z by lia. rewrite bpow_plus.
        apply Rmult_le_compat_r; [apply bpow_ge_0|].
        apply Rle_trans with uro; [unfold uro; apply bpow_le; lia|apply uro_small].
      - apply Rmult_le_compat_l; lra. }
    assert (0 < eta) by apply bpow_gt_0.
    assert (rnd d <= d + / 1000000 * d + / 1000000 * d) by nra.
    assert (uro * (rnd d / n) <= / 1000000 * (rnd d / n)) by (apply Rmult_le_compat_r; lra).
    lra.
Qed.

Lemma rnd_part_neg d n : (exists x m, fmt x /\ fmt m /\ d = x - m) -> d <= 0 -> 2 <= n ->
  d <= rnd (rnd d / n) <= 0.
Proof.
  intros (x & m & Fx & Fm & Ed) Hd Hn.
  pose proof (rnd_part (- d) n) as H.
  assert (E : rnd (rnd (- d) / n) = - rnd (rnd d / n)).
  { rewrite rnd_opp. replace (- rnd d / n) with (- (rnd d / n)) by (unfold Rdiv; ring). apply rnd_opp. }
  rewrite E in H. destruct H; [exists m, x; repeat split; auto; lra|lra|lra|lra].
Qed.

(** Bounds carried along. *)
Definition lim : R := bpow radix2 1022.

Lemma lim_fmt : fmt lim. Proof. apply fmt_bpow. lia. Qed.
Lemma two_lim : 2 * lim = bpow radix2 1023.
Proof. unfold lim. change 2 with (bpow radix2 1). rewrite <- bpow_plus. reflexivity. Qed.

(** One step: the mean stays finite and moves towards x without passing it. *)
Lemma kw_mean_step a x :
  fin x -> Rabs (RR x) <= lim -> (0 <= kw_count a < two64 - 1)%Z ->
  fin (kw_mean a) -> Rabs (RR (kw_mean a)) <= lim ->
  (kw_count a = 0%Z -> RR (kw_mean a) = 0) ->
  fin (kw_mean (kw_step numF a x)) /\
  (Rmin (RR (kw_mean a)) (RR x) <= RR (kw_mean (kw_step numF a x)) <= Rmax (RR (kw_mean a)) (RR x)) /\
  (kw_count a = 0%Z -> RR (kw_mean (kw_step numF a x)) = RR x) /\
  fin (fsub x (kw_mean a)) /\ RR (fsub x (kw_mean a)) = rnd (RR x - RR (kw_mean a)).
Proof.
  intros Fx Hx Hc Fm Hm H0. destruct a as [m m2 n]. unfold kw_step.
  cbn [kw_mean kw_m2 kw_count numF n_add n_sub n_mul n_div n_ofZ] in *.
  rewrite u64_small by (rewrite two64_eq in *; lia).
  set (x0 := RR x) in *. set (m0 := RR m) in *.
  assert (Hd : Rabs (x0 - m0) <= bpow radix2 1023).
  { rewrite <- two_lim. pose proof (Rabs_triang x0 (- m0)). rewrite Rabs_Ropp in *. unfold Rminus. lra. }
  assert (Hrd : Rabs (rnd (x0 - m0)) <= bpow radix2 1023) by (apply rnd_abs_le; [apply fmt_bpow; lia|exact Hd]).
  destruct (fsub_ok x m Fx Fm) as [Ed Fd].
  { fold x0 m0. apply Rle_lt_trans with (1 := Hrd). apply bpow_lt. lia. }
  fold x0 m0 in Ed.
  destruct (of_Z_ok (n + 1)) as [En Fn].
  { rewrite Z.abs_eq by lia. apply Z.le_trans with (2 ^ 64)%Z; [unfold two64 in Hc; lia|].
    apply Z.pow_le_mono_r; lia. }
  assert (Hn1 : 1 <= RR (of_Z (n + 1))).
  { rewrite En. apply rnd_ge_fmt; [apply (fmt_IZR 1); cbn; lia|]. apply IZR_le. lia. }
  assert (Hq : Rabs (rnd (rnd (x0 - m0) / RR (of_Z (n + 1)))) <= bpow radix2 1023).
  { apply rnd_abs_le; [apply fmt_bpow; lia|]. unfold Rdiv. rewrite Rabs_mult.
    rewrite (Rabs_pos_eq (/ _)) by (left; apply Rinv_0_lt_compat; lra).
    apply Rle_trans with (2 := Hrd). rewrite <- (Rmult_1_r (Rabs (rnd (x0 - m0)))) at 2.
    apply Rmult_le_compat_l; [apply Rabs_pos|]. rewrite <- Rinv_1. apply Rinv_le; lra. }
  destruct (fdiv_ok (fsub x m) (of_Z (n + 1))) as [Eq Fq]; auto.
  { lra. }
  { rewrite Ed. apply Rle_lt_trans with (1 := Hq). apply bpow_lt. lia. }
  rewrite Ed in Eq. set (q := rnd (rnd (x0 - m0) / RR (of_Z (n + 1)))) in *.
  assert (Hb : Rmin m0 x0 <= m0 + q <= Rmax m0 x0 /\ (n = 0%Z -> m0 + q = x0)).
  { destruct (Z.eq_dec n 0) as [->|Nn].
    - assert (E1 : RR (of_Z (0 + 1)) = 1) by exact RR_f1.
      specialize (H0 eq_refl). fold m0 in H0. unfold q. rewrite E1, H0.
      rewrite Rminus_0_r. unfold Rdiv. rewrite Rinv_1, Rmult_1_r.
      rewrite !(rnd_fmt x0) by apply fmt_RR.
      rewrite Rplus_0_l. split; [|auto]. pose proof (Rmin_r 0 x0). pose proof (Rmax_r 0 x0). lra.
    - split; [|intros; lia]. assert (Hn2 : 2 <= RR (of_Z (n + 1))).
      { rewrite En. apply rnd_ge_fmt; [apply (fmt_IZR 2); cbn; lia|]. apply IZR_le. lia. }
      assert (Hex : exists x m, fmt x /\ fmt m /\ x0 - m0 = x - m)
        by (exists x0, m0; repeat split; apply fmt_RR).
      destruct (Rle_lt_dec m0 x0) as [Hle|Hlt].
      + destruct (rnd_part (x0 - m0) (RR (of_Z (n + 1))) Hex) as [B1 B2]; [lra|exact Hn2|]. fold q in B1, B2.
        rewrite Rmin_left, Rmax_right by lra. lra.
      + destruct (rnd_part_neg (x0 - m0) (RR (of_Z (n + 1))) Hex) as [B1 B2]; [lra|exact Hn2|]. fold q in B1, B2.
        rewrite Rmin_right, Rmax_left by lra. lra. }
  destruct Hb as [Hb Hb0].
  assert (Hr : Rmin m0 x0 <= rnd (m0 + q) <= Rmax m0 x0).
  { split.
    - apply rnd_ge_fmt; [|lra]. unfold Rmin. destruct (Rle_dec _ _); apply fmt_RR.
    - apply rnd_le_fmt; [|lra]. unfold Rmax. destruct (Rle_dec _ _); apply fmt_RR. }
  assert (Hl : Rabs (rnd (m0 + q)) <= lim).
  { apply Rabs_le. apply Rabs_le_inv in Hx. apply Rabs_le_inv in Hm.
    unfold Rmin, Rmax in Hr. destruct (Rle_dec m0 x0); lra. }
  destruct (fadd_ok m (fdiv (fsub x m) (of_Z (n + 1))) Fm Fq) as [Em' Fm'].
  { rewrite Eq. fold m0. apply Rle_lt_trans with (1 := Hl). apply bpow_lt. lia. }
  rewrite Eq in Em'. fold m0 in Em'.
  split; [assumption|]. rewrite Em'. split; [exact Hr|]. split; [|auto].
  intros E0. rewrite Hb0 by assumption. apply rnd_fmt, fmt_RR.
Qed.

(** Not NaN and not negative. *)
Definition nonneg (x : f64) : Prop := fle f0 x = true.

Lemma nonneg_cases x : nonneg x <-> (fin x /\ 0 <= RR x) \/ x = finf.
Proof.
  unfold nonneg. split.
  - intros H. destruct x as [s|s| |s m e B].
    + left. split; [reflexivity|]. unfold RR; cbn; lra.
    + right. destruct s; [discriminate|reflexivity].
    + discriminate.
    + left. split; [reflexivity|]. apply (fle_R f0 _) in H; [exact H|reflexivity|reflexivity].
  - intros [[F H]| ->]; [|reflexivity]. apply (proj2 (fle_R f0 x fin_f0 F)). exact H.
Qed.


Lemma sign_pos (x : f64) : 0 < RR x -> Bsign x = false.
Proof.
  intros H. destruct x as [s|s| |s m e B]; unfold RR in H; cbn in H; try lra.
  destruct s; [|reflexivity]. exfalso.
  apply (Rlt_not_le _ _ H). left. now apply F2R_lt_0.
Qed.
Lemma sign_neg (x : f64) : RR x < 0 -> Bsign x = true.
Proof.
  intros H. destruct x as [s|s| |s m e B]; unfold RR in H; cbn in H; try lra.
  destruct s; [reflexivity|]. exfalso.
  apply (Rlt_not_le _ _ H). left. now apply F2R_gt_0.
Qed.

Lemma overflow_finf (z : f64) : B2SF z = binary_overflow 53 1024 mode_NE false -> z = finf.
Proof. intros H. apply B2SF_inj. exact H. Qed.

Lemma fmul_nonneg x y : fin x -> fin y -> 0 <= RR x * RR y -> nonneg (fmul x y).
Proof.
  intros Fx Fy Hp. apply nonneg_cases. unfold fmul.
  generalize (Bmult_correct 53 1024 _ _ mode_NE x y). cbv zeta.
  change (round radix2 (SpecFloat.fexp 53 1024) (round_mode mode_NE) (B2R x * B2R y)) with (rnd (RR x * RR y)).
  destruct (Rlt_bool_spec (Rabs (rnd (RR x * RR y))) (bpow radix2 1024)) as [Hb|Hb].
  - intros (E1 & E2 & _). left. split.
    + unfold fin. rewrite E2. rewrite Fx, Fy. reflexivity.
    + unfold RR at 1. rewrite E1. now apply rnd_pos.
  - intros E. right. apply overflow_finf. rewrite E. f_equal.
    destruct (Req_dec (RR x * RR y) 0) as [E0|N0].
    { exfalso. rewrite E0, rnd_0, Rabs_R0 in Hb. pose proof (bpow_gt_0 radix2 1024). lra. }
    destruct (Rtotal_order (RR x) 0) as [Hx|[Hx|Hx]].
    + rewrite (sign_neg x Hx), (sign_neg y); [reflexivity|]. nra.
    + rewrite Hx in N0. lra.
    + rewrite (sign_pos x Hx), (sign_pos y); [reflexivity|]. nra.
Qed.

Lemma fadd_nonneg x y : nonneg x -> nonneg y -> nonneg (fadd x y).
Proof.
  intros Hx Hy. apply nonneg_cases in Hx. apply nonneg_cases in Hy. apply nonneg_cases.
  destruct Hx as [[Fx Px]| ->].
  2:{ right. destruct Hy as [[Fy Py]| ->]; [|reflexivity]. destruct y; try discriminate; reflexivity. }
  destruct Hy as [[Fy Py]| ->].
  2:{ right. destruct x; try discriminate; reflexivity. }
  unfold fadd. generalize (Bplus_correct 53 1024 _ _ mode_NE x y Fx Fy).
  change (round radix2 (SpecFloat.fexp 53 1024) (round_mode mode_NE) (B2R x + B2R y)) with (rnd (RR x + RR y)).
  destruct (Rlt_bool_spec (Rabs (rnd (RR x + RR y))) (bpow radix2 1024)) as [Hb|Hb].
  - intros (E1 & E2 & _). left. split; [exact E2|]. unfold RR at 1. rewrite E1. apply rnd_pos. lra.
  - intros [E Es]. right. apply overflow_finf. rewrite E. f_equal.
    destruct (Rle_lt_or_eq_dec _ _ Px) as [Lx|Ex]; [now apply sign_pos|].
    rewrite Es. apply sign_pos. destruct (Rle_lt_or_eq_dec _ _ Py) as [Ly|Ey]; [exact Ly|].
    exfalso. rewrite <- Ex, <- Ey, Rplus_0_l, rnd_0, Rabs_R0 in Hb. pose proof (bpow_gt_0 radix2 1024). lra.
Qed.

Lemma fdiv_nonneg x y : nonneg x -> fin y -> 1 <= RR y -> nonneg (fdiv x y).
Proof.
  intros Hx Fy Hy. apply nonneg_cases in Hx. apply nonneg_cases.
  destruct Hx as [[Fx Px]| ->].
  - destruct (fdiv_ok x y Fx) as [E F]; [lra| |].
    + apply Rle_lt_trans with (2 := RR_lt_fmax x). rewrite (Rabs_pos_eq (RR x)) by lra.
      assert (H0 : 0 <= RR x / RR y).
      { unfold Rdiv. apply Rmult_le_pos; [lra|]. left. apply Rinv_0_lt_compat. lra. }
      rewrite Rabs_pos_eq by now apply rnd_pos. apply rnd_le_fmt; [apply fmt_RR|].
      rewrite <- (Rmult_1_r (RR x)) at 2. apply Rmult_le_compat_l; [lra|].
      rewrite <- Rinv_1. apply Rinv_le; lra.
    + left. split; [exact F|]. rewrite E. apply rnd_pos. unfold Rdiv.
      apply Rmult_le_pos; [lra|]. left. apply Rinv_0_lt_compat. lra.
  - right. assert (S := sign_pos y ltac:(lra)). destruct y as [s|s| |s m e B]; try discriminate.
    + unfold RR in Hy; cbn in Hy; lra.
    + cbn in S. subst s. reflexivity.
Qed.

Lemma fsqrt_nonneg x : nonneg x -> nonneg (fsqrt x).
Proof.
  intros Hx. apply nonneg_cases in Hx. apply nonneg_cases. destruct Hx as [[Fx Px]| ->].
  - left. destruct (fsqrt_ok x Fx Px) as [E F]. split; [exact F|]. rewrite E. apply rnd_pos, sqrt_pos.
  - right. reflexivity.
Qed.

(** Invariant over whole sequences. *)
Lemma kw_inv l :
  Forall (fun x => fin x /\ Rabs (RR x) <= lim) l -> (Z.of_nat (length l) < two64)%Z ->
  fin (kw_mean (kw_of l)) /\ nonneg (kw_m2 (kw_of l)) /\
  (l = [] -> RR (kw_mean (kw_of l)) = 0) /\
  (l <> [] -> forall lo hi, Forall (fun x => lo <= RR x <= hi) l ->
     lo <= RR (kw_mean (kw_of l)) <= hi).
Proof.
  induction l as [|x l IH] using rev_ind; intros Hl Hn.
  { repeat split; try reflexivity; try congruence. }
  apply Forall_app in Hl. destruct Hl as [Hl Hx]. apply Forall_inv in Hx. destruct Hx as [Fx Hx].
  rewrite app_length in Hn. cbn [length] in Hn.
  destruct IH as (Fm & H2 & H0 & Hr); [exact Hl|lia|].
  pose proof (kw_count_of l) as Hc. rewrite u64_small in Hc by lia.
  unfold kw_of in *. rewrite fold_left_app. cbn [fold_left].
  set (a := fold_left (kw_step numF) l (kw_new numF)) in *.
  assert (H00 : kw_count a = 0%Z -> RR (kw_mean a) = 0).
  { rewrite Hc. intros E. apply H0. destruct l; [reflexivity|cbn in E; lia]. }
  assert (Hm : Rabs (RR (kw_mean a)) <= lim).
  { destruct l as [|y l0]; [rewrite H0 by reflexivity; rewrite Rabs_R0; apply bpow_ge_0|].
    apply Rabs_le. apply Hr; [discriminate|]. revert Hl. apply Forall_impl.
    intros z [_ Hz]. now apply Rabs_le_inv. }
  destruct (kw_mean_step a x Fx Hx) as (Fm' & Hb & Hfirst & Fd & Ed); auto.
  { rewrite Hc. lia. }
  assert (Ed2 : kw_m2 (kw_step numF a x) =
     fadd (kw_m2 a) (fmul (fsub x (kw_mean a)) (fsub x (kw_mean (kw_step numF a x))))) by reflexivity.
  set (m' := kw_mean (kw_step numF a x)) in *.
  assert (Hbet : RR (kw_mean a) <= RR m' <= RR x \/ RR x <= RR m' <= RR (kw_mean a)).
  { destruct (Rle_lt_dec (RR (kw_mean a)) (RR x)).
    - rewrite Rmin_left, Rmax_right in Hb by lra. now left.
    - rewrite Rmin_right, Rmax_left in Hb by lra. now right. }
  assert (Hd2 : Rabs (RR x - RR m') <= bpow radix2 1023).
  { rewrite <- two_lim. apply Rabs_le_inv in Hx. apply Rabs_le_inv in Hm. apply Rabs_le. lra. }
  destruct (fsub_ok x m' Fx Fm') as [Ed' Fd'].
  { apply (no_overflow _ 1023); [lia|exact Hd2]. }
  split; [exact Fm'|]. split.
  { rewrite Ed2. apply fadd_nonneg; [exact H2|]. apply fmul_nonneg; auto. rewrite Ed, Ed'.
    destruct Hbet as [Hbet|Hbet].
    - apply Rmult_le_pos; apply rnd_pos; lra.
    - assert (rnd (RR x - RR (kw_mean a)) <= 0) by (apply rnd_neg; lra).
      assert (rnd (RR x - RR m') <= 0) by (apply rnd_neg; lra). nra. }
  split; [intros E; apply app_eq_nil in E; destruct E; discriminate|].
  intros _ lo hi HF. apply Forall_app in HF. destruct HF as [HF HFx]. apply Forall_inv in HFx.
  destruct l as [|y l0].
  - rewrite Hfirst by (rewrite Hc; reflexivity). exact HFx.
  - assert (Hr' := Hr ltac:(discriminate) lo hi HF). lra.
Qed.

Lemma kw_var_nonneg l corrected :
  Forall (fun x => fin x /\ Rabs (RR x) <= lim) l -> (2 <= Z.of_nat (length l) < two64)%Z ->
  nonneg (KwScaledVariance numF (kw_of l)) /\ nonneg (KwVariance numF corrected (kw_of l)) /\
  nonneg (KwStandardDeviation numF corrected (kw_of l)).
Proof.
  intros Hl Hn. destruct (kw_inv l Hl) as (_ & H2 & _); [lia|].
  pose proof (kw_count_of l) as Hc. rewrite u64_small in Hc by lia.
  assert (HV : nonneg (KwVariance numF corrected (kw_of l))).
  { unfold KwVariance. rewrite Hc.
    assert (E : (Z.of_nat (length l) <? 2 = false)%Z) by (apply Z.ltb_ge; lia). rewrite E.
    cbn [numF n_div n_ofZ].
    assert (G : forall z, (1 <= z < two64)%Z -> nonneg (fdiv (kw_m2 (kw_of l)) (of_Z z))).
    { intros z Hz. destruct (of_Z_ok z) as [En Fn].
      { rewrite Z.abs_eq by lia. apply Z.le_trans with (2 ^ 64)%Z; [unfold two64 in Hz; lia|].
        apply Z.pow_le_mono_r; lia. }
      apply fdiv_nonneg; [exact H2|exact Fn|].
      rewrite En. apply rnd_ge_fmt; [apply (fmt_IZR 1); cbn; lia|]. apply IZR_le. lia. }
    destruct corrected; apply G; rewrite ?u64_small; lia. }
  split; [|split; [exact HV|]].
  - unfold KwScaledVariance. rewrite Hc. destruct (_ <? 2)%Z eqn:E; [|exact H2].
    apply Z.ltb_lt in E. lia.
  - unfold KwStandardDeviation. cbn [numF n_sqrt]. apply fsqrt_nonneg, HV.
Qed.

(** ** West over the reals *)

Definition westR_add (a : west R) (p : R * R) : west R := west_step numR a (fst p) (snd p).
Definition wsumsq (l : list (R * R)) : R := sumR (map (fun p => snd p * fst p ^ 2) l).

Lemma sumR_map_snoc {A} (f : A -> R) l x : sumR (map f (l ++ [x])) = sumR (map f l) + f x.
Proof. rewrite map_app. apply sumR_snoc. Qed.

Lemma wsq_devs_gen l m : sumR (map (fun p => snd p * (fst p - m) ^ 2) l) =
  wsumsq l - 2 * m * wsum l + total_weight l * m ^ 2.
Proof.
  unfold wsumsq, wsum, total_weight. induction l as [|x l IH] using rev_ind.
  - unfold sumR. simpl. ring.
  - rewrite !sumR_map_snoc, IH. ring.
Qed.

Lemma wsq_devs_wsumsq l : total_weight l <> 0 ->
  wsq_devs l = wsumsq l - (wsum l) ^ 2 / total_weight l.
Proof. intros H. unfold wsq_devs. rewrite wsq_devs_gen. unfold wmean. field. exact H. Qed.

Lemma total_weight_pos l : Forall (fun p => 0 < snd p) l -> l <> [] -> 0 < total_weight l.
Proof.
  unfold total_weight. induction l as [|p l IH]; [congruence|]. intros H _.
  apply Forall_cons_iff in H. destruct H as [Hp Hl]. unfold sumR in *. cbn [map fold_right].
  destruct l as [|q l]; [cbn [map fold_right]; lra|]. assert (H := IH Hl ltac:(discriminate)). lra.
Qed.

Lemma west_posR l : Forall (fun p => 0 < snd p) l ->
  let a := fold_left westR_add l (west_new numR) in
  w_sw a = total_weight l /\ w_sw2 a = total_weight2 l /\
  (l <> [] -> w_mean a = wmean l /\ w_m2 a = wsq_devs l).
Proof.
  cbv zeta. induction l as [|p l IH] using rev_ind; intros Hl.
  { cbn. split; [reflexivity|]. split; [reflexivity|congruence]. }
  apply Forall_app in Hl. destruct Hl as [Hl Hp]. apply Forall_inv in Hp.
  destruct (IH Hl) as (E1 & E2 & E3). rewrite fold_left_app. cbn [fold_left].
  set (a := fold_left westR_add l (west_new numR)) in *.
  unfold westR_add, west_step. cbn [w_sw w_sw2 w_mean w_m2 numR n_add n_sub n_mul n_div].
  rewrite E1, E2. unfold total_weight, total_weight2. rewrite !sumR_map_snoc.
  fold (total_weight l) (total_weight2 l).
  split; [reflexivity|]. split; [ring|]. intros _.
  assert (HW : 0 <= total_weight l).
  { destruct l; [cbn; lra|]. left. apply total_weight_pos; [exact Hl|discriminate]. }
  assert (HW' : total_weight (l ++ [p]) = total_weight l + snd p)
    by apply (sumR_map_snoc snd).
  rewrite wsq_devs_wsumsq by lra. unfold wmean. rewrite HW'.
  assert (ES : wsum (l ++ [p]) = wsum l + snd p * fst p)
    by apply (sumR_map_snoc (fun p => snd p * fst p)).
  assert (EQ : wsumsq (l ++ [p]) = wsumsq l + snd p * fst p ^ 2)
    by apply (sumR_map_snoc (fun p => snd p * fst p ^ 2)).
  rewrite ES, EQ.
  destruct l as [|q l0].
  { subst a. cbn [fold_left west_new w_mean w_m2 w_sw numR n_ofZ] in *.
    unfold total_weight, wsum, wsumsq, sumR. cbn [map fold_right]. split; field; lra. }
  assert (HW1 : 0 < total_weight (q :: l0)) by (apply total_weight_pos; [exact Hl|discriminate]).
  destruct E3 as [E3 E4]; [discriminate|]. rewrite E3, E4, wsq_devs_wsumsq by lra.
  unfold wmean. split; field; lra.
Qed.

Lemma filter_len {A} (f : A -> bool) l : (length (filter f l) <= length l)%nat.
Proof. induction l; cbn; [lia|]. destruct (f a); cbn; lia. Qed.

Lemma west_filterR chk l : (chk = true -> (Z.of_nat (length l) < two64)%Z) ->
  apply_accumulator (fun a p => WestAdd numR chk a (fst p) (snd p)) l (west_new numR) =
  (fold_left westR_add (positive_weights l) (west_new numR), Ok tt) /\
  w_count (fold_left westR_add (positive_weights l) (west_new numR)) =
  u64 (Z.of_nat (length (positive_weights l))).
Proof.
  assert (HC : forall l, w_count (fold_left westR_add l (west_new numR)) = u64 (Z.of_nat (length l))).
  { intros l'. apply (count_mod westR_add w_count (west_new numR)); reflexivity. }
  intros Hl. split; [|apply HC].
  induction l as [|p l IH] using rev_ind; [reflexivity|].
  assert (Hl' : chk = true -> (Z.of_nat (length l) < two64)%Z).
  { intros E. specialize (Hl E). rewrite app_length in Hl. lia. }
  rewrite (apply_app _ _ _ _ _ (IH Hl')). cbn [apply_accumulator].
  set (a := fold_left westR_add (positive_weights l) (west_new numR)) in *.
  unfold WestAdd. cbn [numR n_lt n_ofZ].
  assert (EF : positive_weights (l ++ [p]) =
     positive_weights l ++ (if Rlt_dec 0 (snd p) then [p] else [])).
  { unfold positive_weights. rewrite filter_app. cbn [filter].
    destruct (Rlt_dec 0 (snd p)); reflexivity. }
  rewrite EF. destruct (Rlt_dec 0 (snd p)) as [Hp|Hp].
  - rewrite Rlt_bool_true by exact Hp.
    assert (E : chk && (w_count a =? ulong_max)%Z = false).
    { destruct chk; [|reflexivity]. cbn [andb]. apply Z.eqb_neq. unfold a. rewrite HC.
      specialize (Hl eq_refl). rewrite app_length in Hl. cbn [length] in Hl.
      assert (length (positive_weights l) <= length l)%nat by apply filter_len.
      rewrite u64_small by lia. unfold ulong_max. lia. }
    rewrite E, fold_left_app. reflexivity.
  - rewrite Rlt_bool_false by lra. rewrite app_nil_r. reflexivity.
Qed.

Lemma positive_weights_pos l : Forall (fun p => 0 < snd p) (positive_weights l).
Proof.
  apply Forall_forall. intros p Hp. apply filter_In in Hp. destruct Hp as [_ Hp].
  destruct (Rlt_dec 0 (snd p)); [assumption|discriminate].
Qed.

(** ** West in doubles *)

Lemma fadd_ge_l x y : nonneg x -> nonneg y -> fle x (fadd x y) = true.
Proof.
  intros Hx Hy. pose proof (fadd_nonneg x y Hx Hy) as Hs. apply nonneg_cases in Hs.
  destruct Hs as [[Fs Ps]|E].
  - destruct (fadd_inv x y Fs) as (Fx & Fy & E). apply (proj2 (fle_R x _ Fx Fs)). rewrite E.
    apply rnd_ge_fmt; [apply fmt_RR|]. apply (fle_R f0 y fin_f0 Fy) in Hy. rewrite RR_f0 in Hy. lra.
  - rewrite E. apply nonneg_cases in Hx. destruct Hx as [[Fx Px]| ->]; [|reflexivity].
    destruct x; try discriminate; destruct s; reflexivity.
Qed.

Lemma flt_nonneg w : flt f0 w = true -> nonneg w.
Proof. unfold nonneg, flt, fle, Bltb, Bleb, SpecFloat.SFltb, SpecFloat.SFleb.
  destruct (SpecFloat.SFcompare _ _) as [[]|]; congruence. Qed.

Lemma west_ignored chk (a : west f64) m w : flt f0 w = false -> WestAdd numF chk a m w = (a, Ok tt).
Proof. intros H. unfold WestAdd. cbn [numF n_lt n_ofZ]. change (of_Z 0) with f0. rewrite H. reflexivity. Qed.

Lemma west_sw_inv chk l a o :
  apply_accumulator (fun a p => WestAdd numF chk a (fst p) (snd p)) l (west_new numF) = (a, o) ->
  nonneg (w_sw a).
Proof.
  assert (G : forall l b, nonneg (w_sw b) ->
    nonneg (w_sw (fst (apply_accumulator (fun a p => WestAdd numF chk a (fst p) (snd p)) l b)))).
  { clear. intros l; induction l as [|p l IH]; intros b Hb; [exact Hb|].
    cbn [apply_accumulator].
    assert (H : nonneg (w_sw (fst (WestAdd numF chk b (fst p) (snd p))))).
    { unfold WestAdd. cbn [numF n_lt n_ofZ]. change (of_Z 0) with f0.
      destruct (flt f0 (snd p)) eqn:E; [|exact Hb].
      destruct (chk && _)%bool; [exact Hb|]. cbn [fst west_step w_sw].
      apply fadd_nonneg; [exact Hb|now apply flt_nonneg]. }
    destruct (WestAdd numF chk b (fst p) (snd p)) as [b' [u| | |]]; cbn [fst] in *; auto. }
  intros H. specialize (G l (west_new numF) eq_refl). rewrite H in G. exact G.
Qed.

Lemma west_sw_grows chk a m w a' o : nonneg (w_sw a) -> WestAdd numF chk a m w = (a', o) ->
  fle (w_sw a) (w_sw a') = true.
Proof.
  intros Ha. assert (Hrefl : fle (w_sw a) (w_sw a) = true).
  { apply nonneg_cases in Ha. destruct Ha as [[F P]| ->]; [|reflexivity]. apply fle_R; auto. lra. }
  unfold WestAdd. cbn [numF n_lt n_ofZ]. change (of_Z 0) with f0.
  destruct (flt f0 w) eqn:E; [|intros H; injection H as <- _; exact Hrefl].
  destruct (chk && _)%bool; [intros H; injection H as <- _; exact Hrefl|].
  intros H; injection H as <- _. cbn [west_step w_sw]. apply fadd_ge_l; [exact Ha|now apply flt_nonneg].
Qed.

Lemma west_first chk m w : fin m -> fin w -> 0 < RR w ->
  fin (fmul w m) ->
  exists a, WestAdd numF chk (west_new numF) m w = (a, Ok tt) /\
  fin (w_mean a) /\ RR (w_mean a) = RR m /\ fin (w_m2 a) /\ RR (w_m2 a) = 0 /\ RR (w_sw a) = RR w /\
  w_count a = 1%Z.
Proof.
  intros Fm Fw Pw Fwm. unfold WestAdd. cbn [numF n_lt n_ofZ]. change (of_Z 0) with f0.
  rewrite (proj2 (flt_R f0 w fin_f0 Fw)) by (rewrite RR_f0; exact Pw).
  replace (chk && (w_count (west_new numF) =? ulong_max)%Z)%bool with false by (destruct chk; reflexivity).
  eexists. split; [reflexivity|]. unfold west_step, west_new.
  cbn [numF n_add n_sub n_mul n_div n_ofZ w_sw w_mean w_m2 w_sw2 w_count]. change (of_Z 0) with f0.
  assert (Hb : forall x : f64, Rabs (rnd (RR x)) < fmax) by (intros x; rewrite rnd_fmt by apply fmt_RR; apply RR_lt_fmax).
  destruct (fadd_ok f0 w fin_f0 Fw) as [E1 F1]; [rewrite RR_f0, Rplus_0_l; apply Hb|].
  rewrite RR_f0, Rplus_0_l, (rnd_fmt _ (fmt_RR w)) in E1.
  destruct (fsub_ok m f0 Fm fin_f0) as [E2 F2]; [rewrite RR_f0, Rminus_0_r; apply Hb|].
  rewrite RR_f0, Rminus_0_r, (rnd_fmt _ (fmt_RR m)) in E2.
  assert (E3' : RR w / RR (fadd f0 w) = 1) by (rewrite E1; field; lra).
  destruct (fdiv_ok w (fadd f0 w) Fw) as [E3 F3]; [lra|rewrite E3'; rewrite <- RR_f1; apply Hb|].
  rewrite E3', (rnd_fmt 1) in E3 by (apply (fmt_IZR 1); cbn; lia).
  destruct (fmul_ok (fdiv w (fadd f0 w)) (fsub m f0) F3 F2) as [E4 F4].
  { rewrite E3, E2, Rmult_1_l. apply Hb. }
  rewrite E3, E2, Rmult_1_l, (rnd_fmt _ (fmt_RR m)) in E4.
  destruct (fadd_ok f0 _ fin_f0 F4) as [E5 F5]; [rewrite RR_f0, Rplus_0_l, E4; apply Hb|].
  rewrite RR_f0, Rplus_0_l, E4, (rnd_fmt _ (fmt_RR m)) in E5.
  set (mean := fadd f0 (fmul (fdiv w (fadd f0 w)) (fsub m f0))) in *.
  destruct (fmul_inv w m Fwm) as (_ & _ & Ewm).
  destruct (fmul_ok w (fsub m f0) Fw F2) as [E6 F6].
  { rewrite E2, <- Ewm. apply RR_lt_fmax. }
  destruct (fsub_ok m mean Fm F5) as [E7 F7].
  { rewrite E5, Rminus_diag_eq, rnd_0, Rabs_R0 by reflexivity. apply bpow_gt_0. }
  rewrite E5, Rminus_diag_eq, rnd_0 in E7 by reflexivity.
  destruct (fmul_ok _ _ F6 F7) as [E8 F8].
  { rewrite E7, Rmult_0_r, rnd_0, Rabs_R0. apply bpow_gt_0. }
  rewrite E7, Rmult_0_r, rnd_0 in E8.
  destruct (fadd_ok f0 _ fin_f0 F8) as [E9 F9].
  { rewrite E8, RR_f0, Rplus_0_l, rnd_0, Rabs_R0. apply bpow_gt_0. }
  rewrite E8, RR_f0, Rplus_0_l, rnd_0 in E9.
  repeat split; auto.
Qed.

(** ** NaiveIntegerAccumulator *)

Lemma sumZ_snoc l x : sumZ (l ++ [x]) = (sumZ l + x)%Z.
Proof. unfold sumZ. induction l; cbn [app fold_right]; lia. Qed.
Lemma sumZ2_snoc l x : sumZ2 (l ++ [x]) = (sumZ2 l + x * x)%Z.
Proof. unfold sumZ2. rewrite map_app. apply sumZ_snoc. Qed.
Lemma sumZ2_pos l : (0 <= sumZ2 l)%Z.
Proof. induction l as [|x l IH] using rev_ind; [cbn; lia|]. rewrite sumZ2_snoc. nia. Qed.
Lemma sumZ_le_sq l : (Z.abs (sumZ l) <= sumZ2 l)%Z.
Proof. induction l as [|x l IH] using rev_ind; [cbn; lia|]. rewrite sumZ_snoc, sumZ2_snoc. nia. Qed.
Lemma sumZ2_app l1 l2 : sumZ2 (l1 ++ l2) = (sumZ2 l1 + sumZ2 l2)%Z.
Proof.
  induction l2 as [|x l IH] using rev_ind; [rewrite app_nil_r; cbn; lia|].
  rewrite app_assoc, !sumZ2_snoc, IH. lia.
Qed.

Lemma naive_fits l : (sumZ2 l < two63)%Z ->
  apply_accumulator (NaiveAdd false) l naive_new =
  (mkNaive (sumZ l) (sumZ2 l) (u64 (Z.of_nat (length l))), Ok tt).
Proof.
  induction l as [|x l IH] using rev_ind; intros H; [reflexivity|].
  rewrite sumZ2_snoc in H. pose proof (sumZ2_pos l).
  rewrite (apply_app _ _ _ _ _ (IH ltac:(nia))). cbn [apply_accumulator].
  unfold NaiveAdd, naive_step. cbn [ni_sum ni_sum2 ni_count].
  pose proof (sumZ_le_sq (l ++ [x])). rewrite sumZ_snoc, sumZ2_snoc in *.
  rewrite s64_ok by lia. cbn [bind]. rewrite s64_ok by nia. cbn [bind]. rewrite s64_ok by nia.
  cbn [bind]. f_equal. f_equal. rewrite app_length. cbn [length]. unfold u64.
  rewrite Zplus_mod_idemp_l. f_equal. lia.
Qed.

Lemma naive_overflows l : (two63 <= sumZ2 l)%Z ->
  snd (apply_accumulator (NaiveAdd false) l naive_new) = UB.
Proof.
  induction l as [|x l IH] using rev_ind; intros H; [cbn in H; discriminate H || lia|].
  destruct (Z_lt_le_dec (sumZ2 l) two63) as [Hl|Hl].
  - rewrite (apply_app _ _ _ _ _ (naive_fits l Hl)). cbn [apply_accumulator].
    rewrite sumZ2_snoc in H. unfold NaiveAdd, naive_step. cbn [ni_sum ni_sum2 ni_count].
    unfold s64.
    destruct (sint_cases 64 (sumZ l + x)) as [[-> _]|[-> _]]; cbn [bind]; [|reflexivity].
    destruct (sint_cases 64 (x * x)) as [[-> Hx]|[-> _]]; cbn [bind]; [|reflexivity].
    destruct (sint_cases 64 (sumZ2 l + x * x)) as [[-> Hs]|[-> _]]; cbn [bind]; [|reflexivity].
    change (2 ^ (64 - 1))%Z with two63 in Hs. lia.
  - specialize (IH Hl). clear H Hl. revert IH. generalize naive_new.
    induction l as [|y l IHl]; intros a; cbn [apply_accumulator app]; [discriminate|].
    destruct (NaiveAdd false a y) as [a' [u| | |]]; cbn [snd]; auto.
Qed.

Lemma naive_checked a x : snd (NaiveAdd true a x) = Throw ExAccumulatorOverflow \/ snd (NaiveAdd true a x) = UB.
Proof.
  unfold NaiveAdd, naive_checks.
  destruct (ni_count a =? ulong_max)%Z; [left; reflexivity|].
  destruct (_ <=? u64 x)%Z; [left; reflexivity|].
  unfold s64. destruct (sint_cases 64 (x * x)) as [[-> _]|[-> _]]; cbn [bind]; [|right; reflexivity].
  assert (E : (ulong_max <? u64 (ni_sum2 a))%Z = false).
  { apply Z.ltb_ge. unfold ulong_max, u64. pose proof (Z.mod_pos_bound (ni_sum2 a) two64 ltac:(reflexivity)).
    lia. }
  rewrite E. cbn [Z.b2z]. assert (E2 : (0 <=? x * x)%Z = true) by (apply Z.leb_le; nia).
  rewrite E2. left; reflexivity.
Qed.

Lemma naive_checked_state a x : fst (NaiveAdd true a x) = a.
Proof.
  destruct (naive_checked a x) as [H|H]; revert H; unfold NaiveAdd;
  destruct (naive_checks a x); cbn; try reflexivity; destruct (naive_step a x); cbn; congruence.
Qed.

Lemma naive_mean l : (sumZ2 l <= 2 ^ 53)%Z -> (0 < Z.of_nat (length l) <= 2 ^ 53)%Z ->
  forall a, apply_accumulator (NaiveAdd false) l naive_new = (a, Ok tt) ->
  RR (NaiveMean a) = rnd (IZR (sumZ l) / INR (length l)).
Proof.
  intros H2 Hn a Ha. rewrite naive_fits in Ha by (apply Z.le_lt_trans with (1 := H2); reflexivity).
  injection Ha as <-. unfold NaiveMean. cbn [ni_sum ni_count].
  pose proof (sumZ_le_sq l). rewrite u64_small by (rewrite two64_eq; lia).
  rewrite INR_IZR_INZ. destruct (of_Z_exact (sumZ l)) as [E F]; [lia|].
  apply (fdiv_Z _ _ _ F E); lia.
Qed.

(** ** Histories, concretely *)

Lemma apply_fold {S X} (add : S -> X -> S * out unit) (step : S -> X -> S) :
  (forall a x a', add a x = (a', Ok tt) -> a' = step a x) ->
  forall l a a', apply_accumulator add l a = (a', Ok tt) -> a' = fold_left step l a.
Proof.
  intros H l; induction l as [|x l IH]; intros a a'; cbn [apply_accumulator fold_left].
  - intros E. now injection E.
  - destruct (add a x) as [b [[]| | |]] eqn:E; try discriminate. intros E'.
    rewrite <- (H _ _ _ E). now apply IH.
Qed.

Lemma history_count {S X} (add : S -> X -> S * out unit) (reset : S -> S) (fresh : S)
    (step : S -> X -> S) (cnt : S -> Z) :
  (forall a, reset a = fresh) -> (forall a x a', add a x = (a', Ok tt) -> a' = step a x) ->
  (forall a x, cnt (step a x) = u64 (cnt a + 1)) -> cnt fresh = 0%Z ->
  forall h a, history add reset h fresh = (a, Ok tt) ->
  apply_accumulator add (since_reset h []) fresh = (a, Ok tt) /\
  cnt a = u64 (Z.of_nat (length (since_reset h []))).
Proof.
  intros Hr Hs Hc H0 h a H.
  assert (HA := history_since add reset fresh Hr h [] fresh a eq_refl H).
  split; [exact HA|]. rewrite (apply_fold add step Hs _ _ _ HA). now apply count_mod.
Qed.

Lemma history_never_fails {S X} (add : S -> X -> S * out unit) (reset : S -> S) :
  (forall a x, snd (add a x) = Ok tt) -> forall h a, snd (history add reset h a) = Ok tt.
Proof.
  intros H h; induction h as [|[x|] h IH]; intros a; cbn [history]; [reflexivity| |apply IH].
  specialize (H a x). destruct (add a x) as [b o]. cbn in H. subst o. apply IH.
Qed.

Ltac add_cases := clear; intros a x a'; unfold KahanAdd, NeumaierAdd, KwAdd;
  match goal with |- (if ?b then _ else _) = _ -> _ => destruct b end;
  intros H; [discriminate|injection H as <-; reflexivity].

Lemma kahan_history chk h a :
  history (KahanAdd numF chk) (KahanReset numF) h (kahan_new numF) = (a, Ok tt) ->
  apply_accumulator (KahanAdd numF chk) (since_reset h []) (kahan_new numF) = (a, Ok tt) /\
  KahanCount a = u64 (Z.of_nat (length (since_reset h []))).
Proof. apply history_count with (step := kahan_step numF); try reflexivity. add_cases. Qed.

Lemma neumaier_history chk h a :
  history (NeumaierAdd numF chk) (NeumaierReset numF) h (neumaier_new numF) = (a, Ok tt) ->
  apply_accumulator (NeumaierAdd numF chk) (since_reset h []) (neumaier_new numF) = (a, Ok tt) /\
  NeumaierCount a = u64 (Z.of_nat (length (since_reset h []))).
Proof. apply history_count with (step := neumaier_step numF); try reflexivity. add_cases. Qed.

Lemma kw_history chk h a :
  history (KwAdd numF chk) (KwReset numF) h (kw_new numF) = (a, Ok tt) ->
  apply_accumulator (KwAdd numF chk) (since_reset h []) (kw_new numF) = (a, Ok tt) /\
  KwCount a = u64 (Z.of_nat (length (since_reset h []))).
Proof. apply history_count with (step := kw_step numF); try reflexivity. add_cases. Qed.

Definition west_call (chk : bool) (a : west f64) (p : f64 * f64) := WestAdd numF chk a (fst p) (snd p).

Lemma apply_app_gen {S X} (add : S -> X -> S * out unit) l1 l2 a :
  apply_accumulator add (l1 ++ l2) a =
  match apply_accumulator add l1 a with (a1, Ok _) => apply_accumulator add l2 a1 | e => e end.
Proof.
  revert a; induction l1 as [|x l1 IH]; intros a; cbn [apply_accumulator app]; [reflexivity|].
  destruct (add a x) as [a' [u| | |]]; try reflexivity. apply IH.
Qed.

Lemma west_count chk l a : apply_accumulator (west_call chk) l (west_new numF) = (a, Ok tt) ->
  w_count a = u64 (Z.of_nat (length (filter (fun p => flt f0 (snd p)) l))).
Proof.
  revert a; induction l as [|p l IH] using rev_ind; intros a H.
  { injection H as <-. reflexivity. }
  rewrite apply_app_gen in H.
  destruct (apply_accumulator (west_call chk) l (west_new numF)) as [b [[]| | |]]; try discriminate.
  rewrite filter_app, app_length. cbn [filter]. revert H. cbn [apply_accumulator].
  unfold west_call at 1, WestAdd. cbn [numF n_lt n_ofZ]. change (of_Z 0) with f0.
  destruct (flt f0 (snd p)).
  - destruct (chk && _)%bool; [discriminate|]. intros H. injection H as <-.
    cbn [west_step w_count]. rewrite (IH _ eq_refl). cbn [length]. unfold u64.
    rewrite Zplus_mod_idemp_l. f_equal. lia.
  - intros H. injection H as <-. rewrite (IH _ eq_refl). cbn [length]. f_equal. lia.
Qed.

Lemma west_history chk h a :
  history (west_call chk) (WestReset numF) h (west_new numF) = (a, Ok tt) ->
  apply_accumulator (west_call chk) (since_reset h []) (west_new numF) = (a, Ok tt) /\
  WestCount a = u64 (Z.of_nat (length (filter (fun p => flt f0 (snd p)) (since_reset h [])))).
Proof.
  intros H. assert (HA := history_since (west_call chk) (WestReset numF) (west_new numF)
    (fun _ => eq_refl) h [] _ a eq_refl H).
  split; [exact HA|]. exact (west_count chk _ _ HA).
Qed.

Lemma naive_history chk h a :
  history (NaiveAdd chk) NaiveReset h naive_new = (a, Ok tt) ->
  apply_accumulator (NaiveAdd chk) (since_reset h []) naive_new = (a, Ok tt) /\
  NaiveCount a = u64 (Z.of_nat (length (since_reset h []))).
Proof.
  assert (G : forall l a, apply_accumulator (NaiveAdd chk) l naive_new = (a, Ok tt) ->
    ni_count a = u64 (Z.of_nat (length l))).
  { clear. intros l; induction l as [|x l IH] using rev_ind; intros a H.
    { injection H as <-. reflexivity. }
    rewrite apply_app_gen in H.
    destruct (apply_accumulator (NaiveAdd chk) l naive_new) as [b [[]| | |]]; try discriminate.
    rewrite app_length. revert H. cbn [apply_accumulator]. unfold NaiveAdd at 1.
    destruct (if chk then naive_checks b x else Ok tt); try discriminate.
    destruct (naive_step b x) as [c| | |] eqn:E; try discriminate. intros H. injection H as <-.
    unfold naive_step, s64 in E.
    destruct (sint_cases 64 (ni_sum b + x)) as [[E1 _]|[E1 _]]; rewrite E1 in E; cbn [bind] in E; [|discriminate].
    destruct (sint_cases 64 (x * x)) as [[E2 _]|[E2 _]]; rewrite E2 in E; cbn [bind] in E; [|discriminate].
    destruct (sint_cases 64 (ni_sum2 b + x * x)) as [[E3 _]|[E3 _]]; rewrite E3 in E; cbn [bind] in E; [|discriminate].
    injection E as <-. cbn [ni_count length]. rewrite (IH _ eq_refl). unfold u64.
    rewrite Zplus_mod_idemp_l. f_equal. lia. }
  intros H. assert (HA := history_since (NaiveAdd chk) NaiveReset naive_new
    (fun _ => eq_refl) h [] _ a eq_refl H).
  split; [exact HA|]. exact (G _ _ HA).
Qed.

(** ** Limits *)

Lemma adds_ok x p (k : kahan f64) (n : neumaier f64) (v : kw f64) (w : west f64) :
  snd (KahanAdd numF false k x) = Ok tt /\ snd (NeumaierAdd numF false n x) = Ok tt /\
  snd (KwAdd numF false v x) = Ok tt /\ snd (west_call false w p) = Ok tt.
Proof.
  repeat split. unfold west_call, WestAdd. cbn [andb]. destruct (n_lt _ _ _); reflexivity.
Qed.

Lemma naive_variance l : (2 <= Z.of_nat (length l) <= 2 ^ 26)%Z ->
  (sumZ2 l + sumZ l * sumZ l <= 2 ^ 53)%Z ->
  forall a, apply_accumulator (NaiveAdd false) l naive_new = (a, Ok tt) ->
  forall corrected, exists v, NaiveVariance corrected a = Ok v /\ fin v /\
  RR v = rnd (IZR (sumZ2 l - sumZ l * sumZ l) /
              (INR (length l) * (if corrected then INR (length l) - 1 else INR (length l)))).
Proof.
  intros Hn H2 a Ha corrected. pose proof (sumZ2_pos l) as Hp.
  assert (Hq : (0 <= sumZ l * sumZ l)%Z) by nia.
  rewrite naive_fits in Ha by (apply Z.le_lt_trans with (2 ^ 53)%Z; [lia|reflexivity]).
  injection Ha as <-. unfold NaiveVariance. cbn [ni_sum ni_sum2 ni_count].
  rewrite (u64_small (Z.of_nat (length l))) by (rewrite two64_eq; lia).
  assert (E : (Z.of_nat (length l) <? 2)%Z = false) by (apply Z.ltb_ge; lia). rewrite E.
  rewrite (s64_ok (sumZ l * sumZ l)) by (change two63 with 9223372036854775808%Z; lia). cbn [bind].
  rewrite (s64_ok (sumZ2 l - sumZ l * sumZ l)) by (change two63 with 9223372036854775808%Z; lia). cbn [bind].
  eexists. split; [reflexivity|].
  set (n := Z.of_nat (length l)) in *.
  destruct (of_Z_exact (sumZ2 l - sumZ l * sumZ l)) as [Ev Fv]; [lia|].
  rewrite INR_IZR_INZ. fold n.
  set (c := if corrected then u64 (n - 1) else n).
  assert (Ec : c = (if corrected then n - 1 else n)%Z).
  { unfold c. destruct corrected; [|reflexivity]. apply u64_small. rewrite two64_eq. lia. }
  assert (Hc : (1 <= c <= 2 ^ 26)%Z) by (rewrite Ec; destruct corrected; lia).
  rewrite u64_small by (rewrite two64_eq; nia).
  replace (IZR n * (if corrected then IZR n - 1 else IZR n)) with (IZR (n * c)).
  2:{ rewrite mult_IZR, Ec. destruct corrected; [rewrite minus_IZR|]; reflexivity. }
  apply (fdiv_Z _ _ _ Fv Ev); nia.
Qed.

(** ** No overflow when the absolute values sum to at most 2^1019 *)

Definition b1019 : R := bpow radix2 1019.

Lemma b1019_mult k : (k = 2 \/ k = 4 \/ k = 8 \/ k = 16) ->
  exists e, (1020 <= e <= 1023)%Z /\ k * b1019 = bpow radix2 e.
Proof.
  assert (G : forall j, bpow radix2 j * b1019 = bpow radix2 (j + 1019))
    by (intros j; unfold b1019; now rewrite bpow_plus).
  intros [E|[E|[E|E]]].
  - exists 1020%Z. split; [lia|]. refine (eq_trans _ (G 1%Z)). rewrite E. f_equal.
  - exists 1021%Z. split; [lia|]. refine (eq_trans _ (G 2%Z)). rewrite E. f_equal.
  - exists 1022%Z. split; [lia|]. refine (eq_trans _ (G 3%Z)). rewrite E. f_equal.
  - exists 1023%Z. split; [lia|]. refine (eq_trans _ (G 4%Z)). rewrite E. f_equal.
Qed.

Lemma rnd_b1019 x k : (k = 2 \/ k = 4 \/ k = 8 \/ k = 16) -> Rabs x <= k * b1019 ->
  Rabs (rnd x) <= k * b1019 /\ Rabs (rnd x) < fmax.
Proof.
  intros Hk H. destruct (b1019_mult k Hk) as (e & He & E). rewrite E in *.
  split; [apply rnd_abs_le; [apply fmt_bpow; lia|exact H]|]. apply (no_overflow x e); [lia|exact H].
Qed.

Lemma kahan_finite l : Forall fin l -> (Z.of_nat (length l) <= 2 ^ 49)%Z ->
  sum_abs (map RR l) <= b1019 -> fin (k_sum (kahan_of l)) /\ fin (k_c (kahan_of l)).
Proof.
  induction l as [|x l IH] using rev_ind; intros Hl Hn HA; [split; reflexivity|].
  apply Forall_app in Hl. destruct Hl as [Hl Hx]. apply Forall_inv in Hx.
  rewrite app_length in Hn. cbn [length] in Hn.
  rewrite map_app in HA. cbn [map] in HA. rewrite sum_abs_snoc in HA.
  pose proof (Rabs_pos (RR x)) as Px. pose proof (sum_abs_pos (map RR l)) as PA.
  destruct IH as [Fs Fc]; [assumption|lia|lra|].
  destruct (kahan_inv l) as (_ & Hz & Hc); auto; [lia|].
  pose proof (len_uro l ltac:(lia)) as Hk. pose proof uro_pos. pose proof uro_small.
  pose proof (sumR_abs (map RR l)) as HX.
  rewrite kahan_of_snoc. destruct (kahan_of l) as [s c n]. unfold kahan_step. cbn [k_sum k_c numF n_sub n_add] in *.
  set (A := sum_abs (map RR l)) in *. set (X := sumR (map RR l)) in *.
  assert (Hc' : Rabs (RR c) <= / 100 * A) by nra.
  assert (Hs : Rabs (RR s) <= 2 * A).
  { replace (RR s) with ((RR s - RR c - X) + X + RR c) by ring.
    pose proof (Rabs_le_3 (RR s - RR c - X) X (RR c)).
    assert (16 * (INR (length l) * (uro * uro)) <= uro).
    { replace (INR (length l) * (uro * uro)) with (INR (length l) * uro * uro) by ring. nra. }
    assert ((2 * uro + 16 * (INR (length l) * (uro * uro))) * A <= / 100 * A).
    { apply Rmult_le_compat_r; lra. }
    lra. }
  destruct (rnd_b1019 (RR x - RR c) 2) as [By Oy]; [tauto| |].
  { pose proof (Rabs_triang (RR x) (- RR c)). rewrite Rabs_Ropp in *. unfold Rminus. lra. }
  destruct (fsub_ok x c Hx Fc Oy) as [Ey Fy]. rewrite <- Ey in By. set (y := fsub x c) in *.
  destruct (rnd_b1019 (RR s + RR y) 4) as [Bt Ot]; [tauto| |].
  { pose proof (Rabs_triang (RR s) (RR y)). lra. }
  destruct (fadd_ok s y Fs Fy Ot) as [Et Ft]. rewrite <- Et in Bt. set (t := fadd s y) in *.
  destruct (rnd_b1019 (RR t - RR s) 8) as [Bd Od]; [tauto| |].
  { pose proof (Rabs_triang (RR t) (- RR s)). rewrite Rabs_Ropp in *. unfold Rminus. lra. }
  destruct (fsub_ok t s Ft Fs Od) as [Ed Fd]. rewrite <- Ed in Bd.
  destruct (rnd_b1019 (RR (fsub t s) - RR y) 16) as [Be Oe]; [tauto| |].
  { pose proof (Rabs_triang (RR (fsub t s)) (- RR y)). rewrite Rabs_Ropp in *. unfold Rminus. lra. }
  destruct (fsub_ok (fsub t s) y Fd Fy Oe) as [Ee Fe]. split; assumption.
Qed.

Lemma neumaier_finite l : Forall fin l -> (Z.of_nat (length l) <= 2 ^ 52)%Z ->
  sum_abs (map RR l) <= b1019 ->
  fin (n_sum (neumaier_of l)) /\ fin (n_c (neumaier_of l)) /\ fin (NeumaierSum numF (neumaier_of l)).
Proof.
  assert (Sum : forall l, (Z.of_nat (length l) <= 2 ^ 52)%Z -> sum_abs (map RR l) <= b1019 ->
    fin (n_sum (neumaier_of l)) -> fin (n_c (neumaier_of l)) ->
    Rabs (RR (n_sum (neumaier_of l))) <= 2 * b1019 /\ Rabs (RR (n_c (neumaier_of l))) <= 2 * b1019 /\
    fin (NeumaierSum numF (neumaier_of l))).
  { clear. intros l Hn HA Fs Fc. destruct (neumaier_inv l Fs Fc) as (_ & E & F & HE & HEF & HF & Hs & Hc).
    cbv zeta in *. pose proof (pow_ge_1 (length l)) as Hg.
    assert (Hnu : 2 * (INR (length l) * uro) <= 1).
    { apply Rle_trans with (2 * (IZR (2 ^ 52) * uro)).
      - apply Rmult_le_compat_l; [lra|]. apply Rmult_le_compat_r; [left; apply uro_pos|].
        rewrite INR_IZR_INZ. now apply IZR_le.
      - assert (N : IZR (2 ^ 52) <> 0) by (apply not_eq_sym, Rlt_not_eq, IZR_lt; reflexivity).
        rewrite uro_val. change (2 ^ 53)%Z with (2 * 2 ^ 52)%Z. rewrite mult_IZR.
        right. field. exact N. }
    pose proof (pow_small _ Hnu). set (g := (1 + uro) ^ length l) in *.
    pose proof (sum_abs_pos (map RR l)) as PA. set (A := sum_abs (map RR l)) in *.
    pose proof (Rabs_pos E) as PE.
    assert (S1 : Rabs (RR (n_sum (neumaier_of l))) <= 2 * b1019) by nra.
    assert (S2 : Rabs (RR (n_c (neumaier_of l))) <= 2 * b1019).
    { replace (RR (n_c (neumaier_of l))) with ((RR (n_c (neumaier_of l)) - E) + E) by ring.
      pose proof (Rabs_triang (RR (n_c (neumaier_of l)) - E) E).
      assert (F <= A) by nra. assert ((g - 1) * F <= A) by nra. lra. }
    split; [exact S1|]. split; [exact S2|].
    destruct (rnd_b1019 (RR (n_sum (neumaier_of l)) + RR (n_c (neumaier_of l))) 4) as [_ O]; [tauto| |].
    { pose proof (Rabs_triang (RR (n_sum (neumaier_of l))) (RR (n_c (neumaier_of l)))). lra. }
    destruct (fadd_ok _ _ Fs Fc O) as [_ FF]. exact FF. }
  intros Hl Hn HA.
  assert (G : fin (n_sum (neumaier_of l)) /\ fin (n_c (neumaier_of l))).
  2:{ destruct G as [G1 G2]. destruct (Sum l Hn HA G1 G2) as (_ & _ & G3). auto. }
  revert Hl Hn HA. induction l as [|x l IH] using rev_ind; intros Hl Hn HA; [split; reflexivity|].
  apply Forall_app in Hl. destruct Hl as [Hl Hx]. apply Forall_inv in Hx.
  rewrite app_length in Hn. cbn [length] in Hn.
  rewrite map_app in HA. cbn [map] in HA. rewrite sum_abs_snoc in HA.
  pose proof (Rabs_pos (RR x)) as Px. pose proof (sum_abs_pos (map RR l)) as PA.
  destruct IH as [Fs Fc]; [assumption|lia|lra|].
  destruct (Sum l ltac:(lia) ltac:(lra) Fs Fc) as (Hs & Hc & _).
  rewrite neumaier_of_snoc. destruct (neumaier_of l) as [s c n]. unfold neumaier_step.
  cbn [n_sum n_c numF n_sub n_add n_le n_abs] in *.
  assert (Bx : Rabs (RR x) <= 2 * b1019) by lra.
  destruct (rnd_b1019 (RR s + RR x) 4) as [Bt Ot]; [tauto| |].
  { pose proof (Rabs_triang (RR s) (RR x)). lra. }
  destruct (fadd_ok s x Fs Hx Ot) as [Et Ft]. rewrite <- Et in Bt. set (t := fadd s x) in *.
  split; [exact Ft|].
  assert (K : forall p q : f64, fin p -> fin q -> Rabs (RR p) <= 2 * b1019 -> Rabs (RR q) <= 2 * b1019 ->
     rnd (RR q + rnd (RR p - rnd (RR p + RR q))) = RR p + RR q - rnd (RR p + RR q) ->
     rnd (RR p + RR q) = RR t -> fin (fadd c (fadd (fsub p t) q))).
  { intros p q Fp Fq Bp Bq H2 Ept.
    destruct (rnd_b1019 (RR p - RR t) 8) as [Bd Od]; [tauto| |].
    { pose proof (Rabs_triang (RR p) (- RR t)). rewrite Rabs_Ropp in *. unfold Rminus. lra. }
    destruct (fsub_ok p t Fp Ft Od) as [Ed Fd].
    rewrite Ept in H2. rewrite <- Ed in H2. rewrite Rplus_comm in H2.
    pose proof (plus_err _ _ (fmt_RR p) (fmt_RR q)) as He. rewrite Ept in He.
    assert (Be : Rabs (RR p + RR q - RR t) <= 2 * b1019).
    { rewrite Rabs_minus_sym. apply Rle_trans with (1 := He).
      pose proof (Rabs_triang (RR p) (RR q)). pose proof uro_small. pose proof uro_pos.
      assert (0 <= b1019) by apply bpow_ge_0. pose proof (Rabs_pos (RR p + RR q)). nra. }
    destruct (rnd_b1019 (RR p + RR q - RR t) 2) as [_ Oe]; [tauto|exact Be|].
    destruct (fadd_ok (fsub p t) q Fd Fq) as [Ee Fe].
    { rewrite H2. apply Rle_lt_trans with (1 := Be).
      destruct (b1019_mult 2) as (e & Hee & ->); [tauto|]. apply bpow_lt. lia. }
    rewrite H2 in Ee.
    destruct (rnd_b1019 (RR c + RR (fadd (fsub p t) q)) 4) as [_ Of]; [tauto| |].
    { rewrite Ee. pose proof (Rabs_triang (RR c) (RR p + RR q - RR t)). lra. }
    destruct (fadd_ok c _ Fc Fe Of) as [_ Ff]. exact Ff. }
  destruct (fle (fabs x) (fabs s)) eqn:Hle.
  - apply fle_R in Hle; [|now apply fin_fabs|now apply fin_fabs]. rewrite !RR_fabs in Hle.
    apply K; auto. apply fast2sum; auto using fmt_RR.
  - apply fle_R_false in Hle; [|now apply fin_fabs|now apply fin_fabs]. rewrite !RR_fabs in Hle.
    apply K; auto; [apply fast2sum; auto using fmt_RR; lra|]. now rewrite Rplus_comm.
Qed.
