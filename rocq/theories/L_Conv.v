(** Proofs about the conversions of rationals. *)
From Coq Require Import ZArith QArith Qreals Reals Lia Lra Bool Psatz.
From Flocq Require Import Core.Core IEEE754.BinarySingleNaN Relative.
From Verif Require Import Base F64 S_Rational M_MathInt M_Rational S_RationalObj S_Conv M_Conv L_MathF L_Rational.
Open Scope Z_scope.

(** * Integers *)

Lemma quot_sint w n d : 2 <= w -> in_w w n -> in_w w d -> d <> 0 ->
  (is_sint w (Z.quot n d) = true <-> ~ (n = - 2 ^ (w - 1) /\ d = -1)).
Proof.
  intros Hw Hn Hd Nd. unfold in_w, is_sint in *. apply andb_prop in Hn as [N1 N2]. apply andb_prop in Hd as [D1 D2].
  apply Z.leb_le in N1, D1. apply Z.ltb_lt in N2, D2.
  assert (P : 2 <= 2 ^ (w - 1)) by (change 2 with (2 ^ 1) at 1; apply Z.pow_le_mono_r; lia).
  pose proof (Z.quot_rem' n d) as E. pose proof (Z.rem_bound_abs n d Nd) as B.
  split.
  - intros H [-> ->]. apply andb_prop in H as [_ H]. apply Z.ltb_lt in H.
    change (-1) with (- (1)) in H. rewrite Z.quot_opp_r, Z.quot_1_r in H; lia.
  - intros H.
    assert (Z.abs (Z.quot n d) <= Z.abs n).
    { rewrite <- Z.quot_abs by assumption. rewrite Z.quot_div_nonneg by lia.
      apply Z.div_le_upper_bound; nia. }
    assert (Z.quot n d <> 2 ^ (w - 1)).
    { intros Q. assert (n = - 2 ^ (w - 1)).
      { destruct (Z.eq_dec n (- 2 ^ (w - 1))); auto. rewrite Q in H0. lia. }
      apply H. split; auto.
      rewrite Q in E. set (P' := 2 ^ (w - 1)) in *. clearbody P'. set (m := Z.rem n d) in *. clearbody m.
      destruct (Z_lt_le_dec d 0); [|nia]. destruct (Z.eq_dec d (-1)); auto. nia. }
    apply andb_true_intro. split; [apply Z.leb_le|apply Z.ltb_lt]; lia.
Qed.

Lemma sdiv_defined w n d : 2 <= w -> in_w w n -> in_w w d ->
  sdiv w n d = if (d =? 0) || ((n =? - 2 ^ (w - 1)) && (d =? -1)) then UB else Ok (Z.quot n d).
Proof.
  intros Hw Hn Hd. unfold sdiv. destruct (Z.eqb_spec d 0) as [->|Nd]; [reflexivity|]. cbn [orb].
  pose proof (quot_sint w n d Hw Hn Hd Nd) as Q. unfold sint.
  destruct (is_sint w (Z.quot n d)) eqn:E.
  - destruct (Z.eqb_spec n (- 2 ^ (w - 1))), (Z.eqb_spec d (-1)); cbn; auto. exfalso. apply (proj1 Q eq_refl). auto.
  - destruct (Z.eqb_spec n (- 2 ^ (w - 1))), (Z.eqb_spec d (-1)); cbn; auto; exfalso;
      assert (false = true) by (apply Q; intros [? ?]; contradiction); discriminate.
Qed.

Lemma conv_ub_bool w r : ((den r =? 0) || ((num r =? - 2 ^ (w - 1)) && (den r =? -1))) = true <-> conv_ub w r.
Proof. unfold conv_ub. rewrite orb_true_iff, andb_true_iff, !Z.eqb_eq. reflexivity. Qed.

Lemma to_int_spec w r : 2 <= w -> in_w w (num r) -> in_w w (den r) ->
  (rat_to_int w r = UB <-> conv_ub w r) /\
  (~ conv_ub w r -> rat_to_int w r = Ok (Z.quot (num r) (den r))).
Proof.
  intros Hw Hn Hd. unfold rat_to_int. rewrite sdiv_defined by assumption. rewrite <- conv_ub_bool.
  destruct (_ || _); split; try split; try intros H; auto; try discriminate. exfalso. now apply H.
Qed.

Lemma is_int_spec w r : 2 <= w -> in_w w (num r) -> in_w w (den r) ->
  (IsInt w r = UB <-> conv_ub w r) /\
  (~ conv_ub w r -> IsInt w r = Ok (Z.rem (num r) (den r) =? 0)).
Proof.
  intros Hw Hn Hd. pose proof (sdiv_defined w (num r) (den r) Hw Hn Hd) as E. unfold IsInt, smod, sdiv in *.
  rewrite <- conv_ub_bool. destruct (den r =? 0); cbn [orb] in *.
  - split; [split; auto|intros H; now contradict H].
  - rewrite E. destruct (_ && _); cbn; split; try split; auto; try discriminate. intros H; now contradict H.
Qed.

Lemma frac_int n d k : d <> 0 -> ((frac n d == inject_Z k)%Q <-> n = k * d).
Proof.
  intros Nd. unfold frac. split.
  - intros H. assert (inject_Z n == inject_Z (k * d))%Q.
    { rewrite inject_Z_mult. rewrite <- H. field. intros Z. apply Nd. now apply inject_Z_injective. }
    now apply inject_Z_injective.
  - intros ->. rewrite inject_Z_mult. field. intros Z. apply Nd. now apply inject_Z_injective.
Qed.

(** IsInt tells whether the number is an integer. *)
Lemma is_int_correct w r b : 2 <= w -> wf w r -> IsInt w r = Ok b ->
  (b = true <-> exists k, (rv r == inject_Z k)%Q).
Proof.
  intros Hw (Hn & Hd & Nd) H. destruct (is_int_spec w r Hw Hn Hd) as [A B].
  destruct (conv_ub_bool w r) as [C1 C2].
  assert (NC : ~ conv_ub w r) by (intros C; apply A in C; congruence).
  rewrite (B NC) in H. injection H as <-. rewrite Z.eqb_eq.
  unfold rv. split.
  - intros E. exists (Z.quot (num r) (den r)). apply frac_int; auto.
    pose proof (Z.quot_rem' (num r) (den r)). lia.
  - intros [k K]. apply (proj1 (frac_int _ _ k Nd)) in K. rewrite K. apply Z.rem_mul. assumption.
Qed.

Lemma truncation n d : d <> 0 ->
  (Rabs (IZR (Z.quot n d)) <= Rabs (IZR n / IZR d) < Rabs (IZR (Z.quot n d)) + 1)%R /\
  (0 <= IZR (Z.quot n d) * (IZR n / IZR d))%R.
Proof.
  intros Nd. assert (Nd' : (IZR d <> 0)%R) by (now apply IZR_neq).
  pose proof (Z.quot_rem' n d) as E. pose proof (Z.rem_bound_abs n d Nd) as B.
  set (q := Z.quot n d) in *. set (m := Z.rem n d) in *.
  assert (S : 0 <= q * m * d).
  { pose proof (Z.rem_sign_mul n d Nd) as M. fold m in M. clearbody q m. clear Nd'.
    destruct (Z_le_gt_dec 0 (q * m * d)) as [|G]; auto. exfalso.
    assert (m <> 0) by (intros ->; lia). assert (q <> 0) by (intros ->; lia).
    assert (Z.abs (q * m * d) >= Z.abs m * Z.abs d) by (rewrite !Z.abs_mul; nia).
    assert (Z.abs m * Z.abs m < Z.abs m * Z.abs d) by nia.
    assert (m * n = q * m * d + Z.abs m * Z.abs m) by (rewrite E; nia). lia. }
  clearbody q m.
  assert (V : (IZR n / IZR d = IZR q + IZR m / IZR d)%R).
  { rewrite E, plus_IZR, mult_IZR. field. assumption. }
  rewrite V.
  assert (M : (Rabs (IZR m / IZR d) < 1)%R).
  { unfold Rdiv. rewrite Rabs_mult, Rabs_inv. apply Rmult_lt_reg_r with (Rabs (IZR d)); [now apply Rabs_pos_lt|].
    rewrite Rmult_assoc, Rinv_l by (now apply Rabs_no_R0). rewrite Rmult_1_l, Rmult_1_r, <- !abs_IZR. now apply IZR_lt. }
  assert (P : (0 <= IZR q * (IZR m / IZR d))%R).
  { replace (IZR q * (IZR m / IZR d))%R with (IZR (q * m * d) * / (IZR d * IZR d))%R
      by (rewrite !mult_IZR; field; assumption).
    apply Rmult_le_pos; [now apply IZR_le|]. left. apply Rinv_0_lt_compat.
    destruct (Rdichotomy _ _ Nd'); nra. }
  set (f := (IZR m / IZR d)%R) in *. clearbody f. set (x := IZR q) in *. clearbody x.
  split.
  - destruct (Rle_dec 0 x), (Rle_dec 0 f);
      unfold Rabs in *; repeat destruct Rcase_abs; try lra; try nra.
  - nra.
Qed.

(** * Doubles *)

Lemma in64_abs w z : 2 <= w <= 64 -> in_w w z -> Z.abs z <= 2 ^ 63.
Proof.
  intros Hw H. unfold in_w, is_sint in H. apply andb_prop in H as [A B]. apply Z.leb_le in A. apply Z.ltb_lt in B.
  assert (2 ^ (w - 1) <= 2 ^ 63) by (apply Z.pow_le_mono_r; lia). lia.
Qed.

Lemma ratio_no_overflow x d : (Rabs x <= bpow radix2 64)%R -> (1 <= Rabs d)%R -> (Rabs (rnd (x / d)) < fmax)%R.
Proof.
  intros Hx Hd. apply no_overflow with 64; [lia|]. unfold Rdiv. rewrite Rabs_mult, Rabs_inv.
  apply Rle_trans with (Rabs x * 1)%R; [|lra]. apply Rmult_le_compat_l; [apply Rabs_pos|].
  rewrite <- Rinv_1. apply Rinv_le; lra.
Qed.

Lemma abs_IZR_ge1 d : d <> 0 -> (1 <= Rabs (IZR d))%R.
Proof. intros. rewrite <- abs_IZR. apply IZR_le. lia. Qed.

Lemma to_double_rounded r : Z.abs (num r) <= 2 ^ 53 -> Z.abs (den r) <= 2 ^ 53 -> den r <> 0 ->
  fin (rat_to_double r) /\ RR (rat_to_double r) = rnd (vR r).
Proof.
  intros Hn Hd Nd. destruct (of_Z_exact _ Hn) as [An Fn]. destruct (of_Z_exact _ Hd) as [Ad Fd].
  destruct (fdiv_ok (of_Z (num r)) (of_Z (den r)) Fn) as [A B].
  - rewrite Ad. now apply IZR_neq.
  - rewrite An, Ad. apply ratio_no_overflow; [|now apply abs_IZR_ge1].
    apply IZR_bpow; [lia|]. apply Z.le_trans with (1 := Hn). now apply Z.pow_le_mono_r.
  - split; [exact B|]. unfold rat_to_double. rewrite A, An, Ad. reflexivity.
Qed.

Lemma rv_vR r : den r <> 0 -> Q2R (rv r) = vR r.
Proof.
  intros Nd. unfold rv, frac, vR.
  assert (NQ : ~ (inject_Z (den r) == 0)%Q) by (intros E; apply Nd; now apply inject_Z_injective).
  unfold Qdiv. rewrite Q2R_mult, Q2R_inv by exact NQ.
  unfold Q2R, inject_Z. cbn. rewrite !Rinv_1, !Rmult_1_r. reflexivity.
Qed.

Lemma to_double_mono a b : Z.abs (num a) <= 2 ^ 53 -> Z.abs (den a) <= 2 ^ 53 -> den a <> 0 ->
  Z.abs (num b) <= 2 ^ 53 -> Z.abs (den b) <= 2 ^ 53 -> den b <> 0 ->
  (rv a <= rv b)%Q -> fle (rat_to_double a) (rat_to_double b) = true.
Proof.
  intros A1 A2 A3 B1 B2 B3 H. destruct (to_double_rounded a A1 A2 A3) as [Fa Ra].
  destruct (to_double_rounded b B1 B2 B3) as [Fb Rb].
  apply fle_R; auto. rewrite Ra, Rb. apply rnd_le. rewrite <- !rv_vR by assumption. now apply Qle_Rle.
Qed.

Lemma to_double_equal a b : Z.abs (num a) <= 2 ^ 53 -> Z.abs (den a) <= 2 ^ 53 -> den a <> 0 ->
  Z.abs (num b) <= 2 ^ 53 -> Z.abs (den b) <= 2 ^ 53 -> den b <> 0 ->
  (rv a == rv b)%Q -> feq (rat_to_double a) (rat_to_double b) = true.
Proof.
  intros A1 A2 A3 B1 B2 B3 H. destruct (to_double_rounded a A1 A2 A3) as [Fa Ra].
  destruct (to_double_rounded b B1 B2 B3) as [Fb Rb].
  apply feq_R; auto. rewrite Ra, Rb, <- !rv_vR by assumption. f_equal. now apply Qeq_eqR.
Qed.

(** One rounding without underflow. *)
Lemma rel_err x : (bpow radix2 (-1000) <= Rabs x)%R -> (Rabs (rnd x - x) <= uro * Rabs x)%R.
Proof.
  intros H. rewrite <- uro_u_ro. unfold Relative.u_ro.
  apply (relative_error_N_FLT radix2 (-1074) 53 eq_refl (fun x => negb (Z.even x)) x).
  apply Rle_trans with (2 := H). apply bpow_le. lia.
Qed.

Lemma big_IZR z : z <> 0 -> (bpow radix2 (-1000) <= Rabs (IZR z))%R.
Proof.
  intros H. apply Rle_trans with 1%R; [|now apply abs_IZR_ge1].
  apply (bpow_le radix2 (-1000) 0). lia.
Qed.

Lemma rnd_ge_1 z : z <> 0 -> (1 <= Rabs (rnd (IZR z)))%R.
Proof. intros H. apply rnd_abs_ge; [apply (fmt_IZR 1); cbn; lia|]. now apply abs_IZR_ge1. Qed.

Lemma quotient_err u n d n' d' : (0 < u <= / 1000)%R -> (d <> 0)%R ->
  (Rabs (n' - n) <= u * Rabs n)%R -> (Rabs (d' - d) <= u * Rabs d)%R ->
  (Rabs (n' / d' - n / d) <= (2 * u + 4 * u * u) * Rabs (n / d))%R.
Proof.
  intros Hu Nd Hn Hd.
  assert (Pd : (0 < Rabs d)%R) by (now apply Rabs_pos_lt).
  assert (D' : ((1 - u) * Rabs d <= Rabs d')%R).
  { pose proof (Rabs_triang_inv d (d - d')). replace (d - (d - d'))%R with d' in H by ring.
    rewrite <- (Rabs_Ropp (d' - d)) in Hd. replace (- (d' - d))%R with (d - d')%R in Hd by ring. lra. }
  assert (Nd' : (d' <> 0)%R) by (intros ->; rewrite Rabs_R0 in D'; nra).
  replace (n' / d' - n / d)%R with (((n' - n) * d - n * (d' - d)) / (d * d'))%R by (field; auto).
  unfold Rdiv. rewrite !Rabs_mult, !Rabs_inv, Rabs_mult.
  assert (T : (Rabs ((n' - n) * d - n * (d' - d)) <= 2 * u * (Rabs n * Rabs d))%R).
  { unfold Rminus at 1. apply Rle_trans with (1 := Rabs_triang _ _). rewrite Rabs_Ropp, !Rabs_mult.
    pose proof (Rabs_pos n). nra. }
  assert (Pd' : (0 < Rabs d')%R) by (now apply Rabs_pos_lt).
  apply Rmult_le_reg_r with (Rabs d * Rabs d')%R; [nra|].
  rewrite Rmult_assoc, Rinv_l by (apply Rgt_not_eq; nra). rewrite Rmult_1_r.
  apply Rle_trans with (1 := T).
  replace ((2 * u + 4 * u * u) * (Rabs n * / Rabs d) * (Rabs d * Rabs d'))%R
    with ((2 * u + 4 * u * u) * Rabs n * Rabs d' * (/ Rabs d * Rabs d))%R by ring.
  rewrite Rinv_l by lra. rewrite Rmult_1_r.
  pose proof (Rabs_pos n) as Pn.
  apply Rle_trans with ((2 * u + 4 * u * u) * Rabs n * ((1 - u) * Rabs d))%R.
  - assert (2 * u <= (2 * u + 4 * u * u) * (1 - u))%R by nra.
    assert (0 <= Rabs n * Rabs d)%R by nra. nra.
  - apply Rmult_le_compat_l; [|exact D']. apply Rmult_le_pos; nra.
Qed.

Lemma to_double_error w r : 2 <= w <= 64 -> wf w r ->
  fin (rat_to_double r) /\ (Rabs (RR (rat_to_double r) - vR r) <= (3 * uro + 9 * uro * uro) * Rabs (vR r))%R.
Proof.
  intros Hw (Hn & Hd & Nd). apply (in64_abs w) in Hn, Hd; auto.
  assert (B63 : 2 ^ 63 <= 2 ^ 1023) by (now apply Z.pow_le_mono_r).
  destruct (of_Z_ok (num r)) as [An Fn]; [lia|]. destruct (of_Z_ok (den r)) as [Ad Fd]; [lia|].
  assert (NR : (Rabs (rnd (IZR (num r))) <= bpow radix2 64)%R).
  { apply rnd_abs_le; [apply fmt_bpow; lia|]. apply IZR_bpow; [lia|]. apply Z.le_trans with (1 := Hn). now apply Z.pow_le_mono_r. }
  pose proof (rnd_ge_1 _ Nd) as DR.
  destruct (fdiv_ok (of_Z (num r)) (of_Z (den r)) Fn) as [A B].
  - rewrite Ad. intros E. rewrite E, Rabs_R0 in DR. lra.
  - rewrite An, Ad. apply ratio_no_overflow; assumption.
  - split; [exact B|]. unfold rat_to_double. rewrite A, An, Ad. unfold vR.
    pose proof uro_pos. pose proof uro_small.
    destruct (Z.eq_dec (num r) 0) as [E0|N0].
    { rewrite E0. rewrite rnd_0. unfold Rdiv. rewrite !Rmult_0_l, rnd_0, Rminus_0_r, Rabs_R0. lra. }
    set (q := (IZR (num r) / IZR (den r))%R). set (q' := (rnd (IZR (num r)) / rnd (IZR (den r)))%R).
    assert (Q : (Rabs (q' - q) <= (2 * uro + 4 * uro * uro) * Rabs q)%R).
    { apply quotient_err; [lra|now apply IZR_neq|apply rel_err; now apply big_IZR|apply rel_err; now apply big_IZR]. }
    assert (L : (bpow radix2 (-1000) <= Rabs q')%R).
    { unfold q', Rdiv. rewrite Rabs_mult, Rabs_inv.
      assert (DU : (Rabs (rnd (IZR (den r))) <= bpow radix2 64)%R).
      { apply rnd_abs_le; [apply fmt_bpow; lia|]. apply IZR_bpow; [lia|]. apply Z.le_trans with (1 := Hd). now apply Z.pow_le_mono_r. }
      apply Rle_trans with (1 * / bpow radix2 64)%R.
      - rewrite Rmult_1_l, <- bpow_opp. apply bpow_le. lia.
      - apply Rmult_le_compat; [lra|left; apply Rinv_0_lt_compat, bpow_gt_0|now apply rnd_ge_1|].
        apply Rinv_le; [lra|exact DU]. }
    pose proof (rel_err q' L) as E3.
    replace (rnd q' - q)%R with ((rnd q' - q') + (q' - q))%R by ring.
    apply Rle_trans with (1 := Rabs_triang _ _).
    assert (Rabs q' <= (1 + 2 * uro + 4 * uro * uro) * Rabs q)%R.
    { replace q' with (q + (q' - q))%R by ring. apply Rle_trans with (1 := Rabs_triang _ _). lra. }
    pose proof (Rabs_pos q).
    assert (uro * Rabs q' <= uro * ((1 + 2 * uro + 4 * uro * uro) * Rabs q))%R by (apply Rmult_le_compat_l; lra).
    assert (uro * uro * uro <= uro * uro * / 1000000)%R by (apply Rmult_le_compat_l; nra).
    assert (0 <= uro * uro)%R by nra.
    assert ((uro + 2 * (uro * uro) + 4 * (uro * uro * uro)) + (2 * uro + 4 * (uro * uro)) <= 3 * uro + 9 * (uro * uro))%R by lra.
    assert (((uro + 2 * (uro * uro) + 4 * (uro * uro * uro)) + (2 * uro + 4 * (uro * uro))) * Rabs q <= (3 * uro + 9 * (uro * uro)) * Rabs q)%R
      by (apply Rmult_le_compat_r; assumption).
    nra.
Qed.

(** Beyond 2^53 equal rationals may convert to different doubles. *)
Definition wide1 : rat := mkRat (2 ^ 53 + 1) 1.
Definition wide3 : rat := mkRat (3 * (2 ^ 53 + 1)) 3.
Lemma to_double_wide : (rv wide1 == rv wide3)%Q /\ flt (rat_to_double wide1) (rat_to_double wide3) = true.
Proof. split; [reflexivity|vm_compute; reflexivity]. Qed.

(** The order is not kept beyond 2^53, even for fractions in lowest terms. *)
Lemma to_double_order_wide : exists a b, RationalNum 64 (num a) (den a) = Ok a /\ RationalNum 64 (num b) (den b) = Ok b /\
  (rv a < rv b)%Q /\ flt (rat_to_double b) (rat_to_double a) = true.
Proof.
  exists (mkRat 9007199254740995 9007199254741014), (mkRat 9007199254740996 9007199254741015).
  split; [vm_compute; reflexivity|]. split; [vm_compute; reflexivity|]. split; vm_compute; reflexivity.
Qed.

(** A zero denominator: an infinity, or NaN for 0//0. *)
Lemma to_double_zero_den r : den r = 0 -> Z.abs (num r) <= 2 ^ 63 ->
  rat_to_double r = if num r =? 0 then fnan else if 0 <? num r then finf else fopp finf.
Proof.
  intros E H. unfold rat_to_double. rewrite E.
  change (of_Z 0) with f0.
  assert (B63 : 2 ^ 63 <= 2 ^ 1023) by (now apply Z.pow_le_mono_r).
  destruct (of_Z_ok (num r)) as [A F]; [lia|].
  destruct (Z.eqb_spec (num r) 0) as [->|N]; [reflexivity|].
  pose proof (rnd_ge_1 _ N) as G. rewrite <- A in G.
  destruct (of_Z (num r)) as [s| | |s m e Hb] eqn:O; try discriminate F.
  - exfalso. unfold RR in G. cbn in G. rewrite Rabs_R0 in G. lra.
  - assert (S : s = negb (0 <? num r)).
    { pose proof (rnd_le 0 (IZR (num r))) as L1. pose proof (rnd_le (IZR (num r)) 0) as L2. rewrite rnd_0, <- A in L1, L2.
      destruct (Z.ltb_spec 0 (num r)) as [P|P]; cbn [negb].
      - specialize (L1 (IZR_le _ _ (Z.lt_le_incl _ _ P))). destruct s; auto. exfalso.
        unfold RR in L1. cbn in L1. apply (Rle_not_lt _ _ L1). now apply F2R_lt_0.
      - specialize (L2 (IZR_le _ _ P)). destruct s; auto. exfalso.
        unfold RR in L2. cbn in L2. apply (Rle_not_lt _ _ L2). now apply F2R_gt_0. }
    subst s. destruct (0 <? num r); reflexivity.
Qed.
