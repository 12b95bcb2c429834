(** Lemmas about lerp and lerpi in doubles. *)
From Coq Require Import ZArith Reals List Bool Lia Lra Psatz.
From Flocq Require Import Core.Core IEEE754.BinarySingleNaN.
From Verif Require Import Base F64 Num M_MathF L_Space.
Open Scope R_scope.

Definition b1022 : R := bpow radix2 1022.
Lemma b1022_pos : 0 < b1022. Proof. apply bpow_gt_0. Qed.
Lemma b1022_fmt : fmt b1022. Proof. apply fmt_bpow. lia. Qed.

Lemma eta_pos : 0 < eta. Proof. apply bpow_gt_0. Qed.

(** What lerp computes, for a parameter in [0,1]. *)
Lemma lerp_value a b t : fin a -> fin b -> fin t -> 0 <= RR t <= 1 -> Rabs (RR a) <= b1022 -> Rabs (RR b) <= b1022 ->
  fin (lerp numF a b t) /\
  RR (lerp numF a b t) = rnd (rnd (rnd (1 - RR t) * RR a) + rnd (RR t * RR b)) /\
  0 <= rnd (1 - RR t) <= 1 /\ Rabs (rnd (rnd (1 - RR t) * RR a)) <= Rabs (RR a) /\ Rabs (rnd (RR t * RR b)) <= Rabs (RR b).
Proof.
  intros Fa Fb Ft Ht Ha Hb.
  assert (F1 : fmt 1) by (apply (fmt_IZR 1); cbn; lia).
  assert (P : 0 <= rnd (1 - RR t) <= 1).
  { split; [apply rnd_pos; lra|apply rnd_le_fmt; [exact F1|lra]]. }
  assert (Lim : forall x y, fmt y -> Rabs x <= Rabs y -> Rabs (rnd x) <= Rabs y) by (intros x y Fy Hx; apply rnd_abs_le; [now apply fmt_abs|exact Hx]).
  assert (Q : Rabs (rnd (rnd (1 - RR t) * RR a)) <= Rabs (RR a)).
  { apply Lim; [apply fmt_RR|]. rewrite Rabs_mult, (Rabs_pos_eq (rnd _)) by apply P. pose proof (Rabs_pos (RR a)). nra. }
  assert (S : Rabs (rnd (RR t * RR b)) <= Rabs (RR b)).
  { apply Lim; [apply fmt_RR|]. rewrite Rabs_mult, (Rabs_pos_eq (RR t)) by apply Ht. pose proof (Rabs_pos (RR b)). nra. }
  assert (B : b1022 < fmax) by (apply bpow_lt; lia).
  unfold lerp. cbn [n_add n_mul n_sub n_ofZ numF]. fold f1.
  destruct (fsub_ok f1 t fin_f1 Ft) as [E1 G1].
  { rewrite RR_f1, Rabs_pos_eq by apply P. apply Rle_lt_trans with 1; [apply P|]. apply (bpow_lt radix2 0 1024). lia. }
  rewrite RR_f1 in E1.
  destruct (fmul_ok (fsub f1 t) a G1 Fa) as [E2 G2]; [rewrite E1; lra|]. rewrite E1 in E2.
  destruct (fmul_ok t b Ft Fb) as [E3 G3]; [lra|].
  destruct (fadd_ok (fmul (fsub f1 t) a) (fmul t b) G2 G3) as [E4 G4].
  { rewrite E2, E3. apply (no_overflow _ 1023); [lia|]. change 1023%Z with (1022 + 1)%Z. rewrite bpow_plus, bpow_1. fold b1022. cbn [radix2 radix_val IZR IPR IPR_2].
    eapply Rle_trans; [apply Rabs_triang|]. change (IZR radix2) with 2. lra. }
  rewrite E2, E3 in E4. auto.
Qed.

(** Greater endpoints never give a smaller result. *)
Lemma lerp_mono_ends a b a' b' t : fin a -> fin b -> fin a' -> fin b' -> fin t -> 0 <= RR t <= 1 ->
  Rabs (RR a) <= b1022 -> Rabs (RR b) <= b1022 -> Rabs (RR a') <= b1022 -> Rabs (RR b') <= b1022 ->
  RR a <= RR a' -> RR b <= RR b' -> fle (lerp numF a b t) (lerp numF a' b' t) = true.
Proof.
  intros Fa Fb Fa' Fb' Ft Ht Ha Hb Ha' Hb' La Lb.
  destruct (lerp_value a b t Fa Fb Ft Ht Ha Hb) as (F & E & P & _).
  destruct (lerp_value a' b' t Fa' Fb' Ft Ht Ha' Hb') as (F' & E' & _).
  apply fle_R; auto. rewrite E, E'. apply rnd_le.
  assert (rnd (rnd (1 - RR t) * RR a) <= rnd (rnd (1 - RR t) * RR a')) by (apply rnd_le; nra).
  assert (rnd (RR t * RR b) <= rnd (RR t * RR b')) by (apply rnd_le; nra). lra.
Qed.

(** Between endpoints of opposite signs the result never leaves the interval. *)
Lemma lerp_within a b t : fin a -> fin b -> fin t -> 0 <= RR t <= 1 -> Rabs (RR a) <= b1022 -> Rabs (RR b) <= b1022 ->
  RR a <= 0 <= RR b ->
  (fle a (lerp numF a b t) = true /\ fle (lerp numF a b t) b = true) /\
  (fle a (lerp numF b a t) = true /\ fle (lerp numF b a t) b = true).
Proof.
  intros Fa Fb Ft Ht Ha Hb [Na Pb].
  destruct (lerp_value a b t Fa Fb Ft Ht Ha Hb) as (F & E & P & Q & S).
  destruct (lerp_value b a t Fb Fa Ft Ht Hb Ha) as (F' & E' & _ & Q' & S').
  rewrite (Rabs_left1 (RR a)) in * by lra. rewrite (Rabs_pos_eq (RR b)) in * by lra.
  apply Rabs_le_inv in Q, S, Q', S'.
  assert (rnd (rnd (1 - RR t) * RR a) <= 0) by (apply rnd_neg; nra).
  assert (0 <= rnd (RR t * RR b)) by (apply rnd_pos; nra).
  assert (0 <= rnd (rnd (1 - RR t) * RR b)) by (apply rnd_pos; nra).
  assert (rnd (RR t * RR a) <= 0) by (apply rnd_neg; nra).
  repeat split; apply fle_R; auto; rewrite ?E, ?E'.
  - apply rnd_ge_fmt; [apply fmt_RR|lra].
  - apply rnd_le_fmt; [apply fmt_RR|lra].
  - apply rnd_ge_fmt; [apply fmt_RR|lra].
  - apply rnd_le_fmt; [apply fmt_RR|lra].
Qed.

(** Rounding error. *)
Lemma lerp_error a b t : fin a -> fin b -> fin t -> 0 <= RR t <= 1 -> Rabs (RR a) <= b1022 -> Rabs (RR b) <= b1022 ->
  Rabs (RR (lerp numF a b t) - ((1 - RR t) * RR a + RR t * RR b)) <=
  4 * uro * ((1 - RR t) * Rabs (RR a) + RR t * Rabs (RR b)) + 3 * eta.
Proof.
  intros Fa Fb Ft Ht Ha Hb. destruct (lerp_value a b t Fa Fb Ft Ht Ha Hb) as (_ & -> & _).
  set (x := RR a) in *. set (y := RR b) in *. set (s := RR t) in *.
  pose proof uro_pos as U0. pose proof uro_small as U1. pose proof eta_pos as N0.
  assert (F1 : fmt 1) by (apply (fmt_IZR 1); cbn; lia).
  pose proof (minus_err 1 s F1 (fmt_RR t)) as H1. rewrite (Rabs_pos_eq (1 - s)) in H1 by lra. set (p := rnd (1 - s)) in *.
  pose proof (rnd_err (p * x)) as H2. set (q := rnd (p * x)) in *.
  pose proof (rnd_err (s * y)) as H3. set (r := rnd (s * y)) in *.
  pose proof (plus_err q r (fmt_rnd _) (fmt_rnd _)) as H4. set (v := rnd (q + r)) in *.
  set (e1 := (1 - s) * Rabs x). set (e2 := s * Rabs y).
  pose proof (Rabs_pos x) as X0. pose proof (Rabs_pos y) as Y0.
  assert (E1 : 0 <= e1) by (unfold e1; nra). assert (E2 : 0 <= e2) by (unfold e2; nra).
  assert (Hp : Rabs (p * x - (1 - s) * x) <= uro * e1).
  { replace (p * x - (1 - s) * x) with ((p - (1 - s)) * x) by ring. rewrite Rabs_mult. unfold e1. nra. }
  assert (Hpx : Rabs (p * x) <= (1 + uro) * e1).
  { replace (p * x) with ((p * x - (1 - s) * x) + (1 - s) * x) by ring. eapply Rle_trans; [apply Rabs_triang|].
    rewrite (Rabs_mult (1 - s)), (Rabs_pos_eq (1 - s)) by lra. fold e1. lra. }
  assert (Hsy : Rabs (s * y) = e2) by (rewrite Rabs_mult, (Rabs_pos_eq s) by lra; reflexivity).
  assert (Hq : Rabs (q - (1 - s) * x) <= (2 * uro + uro * uro) * e1 + eta).
  { replace (q - (1 - s) * x) with ((q - p * x) + (p * x - (1 - s) * x)) by ring. eapply Rle_trans; [apply Rabs_triang|]. nra. }
  rewrite Hsy in H3.
  assert (Hz : Rabs (q + r - ((1 - s) * x + s * y)) <= (2 * uro + uro * uro) * (e1 + e2) + 2 * eta).
  { replace (q + r - ((1 - s) * x + s * y)) with ((q - (1 - s) * x) + (r - s * y)) by ring.
    eapply Rle_trans; [apply Rabs_triang|]. nra. }
  assert (Hx : Rabs ((1 - s) * x + s * y) <= e1 + e2).
  { eapply Rle_trans; [apply Rabs_triang|]. rewrite Hsy, Rabs_mult, (Rabs_pos_eq (1 - s)) by lra. fold e1. lra. }
  assert (Hqr : Rabs (q + r) <= (1 + 2 * uro + uro * uro) * (e1 + e2) + 2 * eta).
  { replace (q + r) with ((q + r - ((1 - s) * x + s * y)) + ((1 - s) * x + s * y)) by ring. eapply Rle_trans; [apply Rabs_triang|]. lra. }
  replace (v - ((1 - s) * x + s * y)) with ((v - (q + r)) + (q + r - ((1 - s) * x + s * y))) by ring.
  eapply Rle_trans; [apply Rabs_triang|].
  assert (K : uro * Rabs (q + r) <= uro * ((1 + 2 * uro + uro * uro) * (e1 + e2) + 2 * eta)) by (apply Rmult_le_compat_l; lra).
  assert (U2 : uro * uro <= / 1000000 * uro) by nra.
  assert (U3 : uro * (uro * uro) <= / 1000000 * uro) by nra.
  assert (U4 : uro * eta <= / 1000000 * eta) by nra.
  set (e := e1 + e2) in *. assert (0 <= e) by (unfold e; lra).
  assert (K2 : uro * ((1 + 2 * uro + uro * uro) * e + 2 * eta) <= (uro + 3 * / 1000000 * uro) * e + 2 * / 1000000 * eta) by nra.
  assert (K3 : (2 * uro + uro * uro) * e <= (2 * uro + / 1000000 * uro) * e) by nra.
  assert (0 <= uro * e) by nra. lra.
Qed.

(** The parameter i/j of lerpi. *)
Lemma ratio_value i j : (0 <= i <= j)%Z -> (1 <= j <= 2 ^ 53)%Z -> let t := fdiv (of_Z i) (of_Z j) in
  fin t /\ 0 <= RR t <= 1 /\ Rabs (RR t - IZR i / IZR j) <= uro * (IZR i / IZR j).
Proof.
  intros Hi Hj t. destruct (of_Z_exact i) as [Ei Fi]; [lia|]. destruct (of_Z_exact j) as [Ej Fj]; [lia|].
  assert (J : 1 <= IZR j) by (apply (IZR_le 1); lia). assert (I : 0 <= IZR i <= IZR j) by (split; apply IZR_le; lia).
  assert (Q : 0 <= IZR i / IZR j <= 1).
  { split; [apply Rmult_le_pos; [lra|left; apply Rinv_0_lt_compat; lra]|]. apply Rmult_le_reg_r with (IZR j); [lra|]. field_simplify; lra. }
  assert (F1 : fmt 1) by (apply (fmt_IZR 1); cbn; lia).
  assert (P : 0 <= rnd (IZR i / IZR j) <= 1) by (split; [apply rnd_pos; lra|apply rnd_le_fmt; [exact F1|lra]]).
  destruct (fdiv_ok (of_Z i) (of_Z j) Fi) as [E F].
  { rewrite Ej. lra. }
  { rewrite Ei, Ej, Rabs_pos_eq by apply P. apply Rle_lt_trans with 1; [apply P|]. apply (bpow_lt radix2 0 1024). lia. }
  fold t in E, F. rewrite Ei, Ej in E. rewrite E. split; [exact F|]. split; [exact P|].
  destruct (Z.eq_dec i 0) as [->|Ni].
  - unfold Rdiv. rewrite Rmult_0_l, rnd_0, Rminus_0_r, Rabs_R0. lra.
  - assert (L : bpow radix2 (-53) <= IZR i / IZR j).
    { assert (IZR j <= bpow radix2 53) by (change (bpow radix2 53) with (IZR (2 ^ 53)); apply IZR_le; lia).
      assert (1 <= IZR i) by (apply (IZR_le 1); lia). change (-53)%Z with (- (53))%Z. rewrite bpow_opp.
      apply Rle_trans with (/ IZR j); [apply Rinv_le; lra|]. unfold Rdiv. assert (0 < / IZR j) by (apply Rinv_0_lt_compat; lra). nra. }
    pose proof (rnd_rel (IZR i / IZR j)) as H. rewrite (Rabs_pos_eq (IZR i / IZR j)) in H by lra. apply H.
    apply Rle_trans with (bpow radix2 (-53)); [apply bpow_le; lia|exact L].
Qed.

Lemma lerpi_error i j a b M : (0 <= i <= j)%Z -> (1 <= j <= 2 ^ 53)%Z -> fin a -> fin b ->
  Rabs (RR a) <= M -> Rabs (RR b) <= M -> M <= b1022 ->
  fin (lerpi numF i j a b) /\
  Rabs (RR (lerpi numF i j a b) - (RR a + (RR b - RR a) * IZR i / IZR j)) <= 6 * uro * M + 3 * eta.
Proof.
  intros Hi Hj Fa Fb Ha Hb HM. destruct (ratio_value i j Hi Hj) as (Ft & Ht & Et).
  unfold lerpi. cbn [n_div n_ofZ numF]. set (t := fdiv (of_Z i) (of_Z j)) in *.
  destruct (lerp_value a b t Fa Fb Ft Ht ltac:(lra) ltac:(lra)) as (F & _).
  split; [exact F|]. pose proof (lerp_error a b t Fa Fb Ft Ht ltac:(lra) ltac:(lra)) as H.
  assert (J : 1 <= IZR j) by (apply (IZR_le 1); lia). assert (I : 0 <= IZR i <= IZR j) by (split; apply IZR_le; lia).
  assert (Q : 0 <= IZR i / IZR j <= 1).
  { split; [apply Rmult_le_pos; [lra|left; apply Rinv_0_lt_compat; lra]|]. apply Rmult_le_reg_r with (IZR j); [lra|]. field_simplify; lra. }
  replace (RR a + (RR b - RR a) * IZR i / IZR j) with (RR a + (RR b - RR a) * (IZR i / IZR j)) by (field; lra).
  set (q := IZR i / IZR j) in *. pose proof uro_pos as U0.
  replace (RR (lerp numF a b t) - (RR a + (RR b - RR a) * q))
    with ((RR (lerp numF a b t) - ((1 - RR t) * RR a + RR t * RR b)) + (RR t - q) * (RR b - RR a)) by ring.
  eapply Rle_trans; [apply Rabs_triang|]. rewrite Rabs_mult.
  assert (D : Rabs (RR b - RR a) <= 2 * M).
  { replace (RR b - RR a) with (RR b + - RR a) by ring. eapply Rle_trans; [apply Rabs_triang|]. rewrite Rabs_Ropp. lra. }
  assert (T : Rabs (RR t - q) <= uro) by nra.
  assert (E : (1 - RR t) * Rabs (RR a) + RR t * Rabs (RR b) <= M) by nra.
  pose proof (Rabs_pos (RR b - RR a)). pose proof (Rabs_pos (RR t - q)).
  assert (K : Rabs (RR t - q) * Rabs (RR b - RR a) <= uro * (2 * M)) by (apply Rmult_le_compat; lra).
  assert (K2 : 4 * uro * ((1 - RR t) * Rabs (RR a) + RR t * Rabs (RR b)) <= 4 * uro * M) by (apply Rmult_le_compat_l; lra).
  lra.
Qed.
