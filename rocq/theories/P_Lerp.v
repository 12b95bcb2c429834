(** Properties of lerp and lerpi in doubles (C95). *)
From Coq Require Import ZArith Reals List Bool Lia Lra.
From Flocq Require Import Core.Core IEEE754.BinarySingleNaN.
From Verif Require Import Base F64 Num M_MathF L_Lerp.
Open Scope R_scope.

(** C95: lerp(a, b, t) with t in [0,1] and endpoints up to 2^1022 is finite and within four
    unit roundoffs of the weighted magnitudes of the exact interpolation. *)
Theorem C95_error : forall a b t, fin a -> fin b -> fin t -> 0 <= RR t <= 1 ->
  Rabs (RR a) <= bpow radix2 1022 -> Rabs (RR b) <= bpow radix2 1022 ->
  fin (lerp numF a b t) /\
  Rabs (RR (lerp numF a b t) - ((1 - RR t) * RR a + RR t * RR b)) <=
  4 * bpow radix2 (-53) * ((1 - RR t) * Rabs (RR a) + RR t * Rabs (RR b)) + 3 * bpow radix2 (-1075).
Proof.
  intros a b t Fa Fb Ft Ht Ha Hb. split; [exact (proj1 (lerp_value a b t Fa Fb Ft Ht Ha Hb))|].
  exact (lerp_error a b t Fa Fb Ft Ht Ha Hb).
Qed.
Print Assumptions C95_error.

(** C95: lerpi(i, j, a, b) is the point number i of j equal steps from a to b, up to six unit
    roundoffs of the larger endpoint. *)
Theorem C95_lerpi_error : forall i j a b M, (0 <= i <= j)%Z -> (1 <= j <= 2 ^ 53)%Z -> fin a -> fin b ->
  Rabs (RR a) <= M -> Rabs (RR b) <= M -> M <= bpow radix2 1022 ->
  fin (lerpi numF i j a b) /\
  Rabs (RR (lerpi numF i j a b) - (RR a + (RR b - RR a) * IZR i / IZR j)) <= 6 * bpow radix2 (-53) * M + 3 * bpow radix2 (-1075).
Proof. exact lerpi_error. Qed.
Print Assumptions C95_lerpi_error.

(** C95: with larger endpoints the result is never smaller. *)
Theorem C95_monotone_endpoints : forall a b a' b' t, fin a -> fin b -> fin a' -> fin b' -> fin t -> 0 <= RR t <= 1 ->
  Rabs (RR a) <= bpow radix2 1022 -> Rabs (RR b) <= bpow radix2 1022 ->
  Rabs (RR a') <= bpow radix2 1022 -> Rabs (RR b') <= bpow radix2 1022 ->
  fle a a' = true -> fle b b' = true -> fle (lerp numF a b t) (lerp numF a' b' t) = true.
Proof.
  intros a b a' b' t Fa Fb Fa' Fb' Ft Ht H1 H2 H3 H4 La Lb.
  apply fle_R in La, Lb; auto. now apply lerp_mono_ends.
Qed.
Print Assumptions C95_monotone_endpoints.

(** C95: between endpoints of opposite signs, in either order, the result lies between them. *)
Theorem C95_within_opposite_signs : forall a b t, fin a -> fin b -> fin t -> 0 <= RR t <= 1 ->
  Rabs (RR a) <= bpow radix2 1022 -> Rabs (RR b) <= bpow radix2 1022 -> RR a <= 0 <= RR b ->
  (fle a (lerp numF a b t) = true /\ fle (lerp numF a b t) b = true) /\
  (fle a (lerp numF b a t) = true /\ fle (lerp numF b a t) b = true).
Proof. exact lerp_within. Qed.
Print Assumptions C95_within_opposite_signs.

(** C95: between endpoints of the same sign it need not (7/34 of the way from 12 to 12). *)
Theorem C95_within_refuted : exists a b i j, fin a /\ fin b /\ fle a b = true /\ (0 <= i <= j)%Z /\
  flt b (lerpi numF i j a b) = true.
Proof.
  exists (of_Z 12), (of_Z 12), 7%Z, 34%Z.
  split; [reflexivity|]. split; [reflexivity|]. split; [reflexivity|]. split; [lia|]. vm_compute. reflexivity.
Qed.
Print Assumptions C95_within_refuted.

(** C95: and a larger parameter can give a smaller result although a < b. *)
Theorem C95_monotone_parameter_refuted : exists a b t t', fin a /\ fin b /\ flt a b = true /\
  fle f0 t = true /\ flt t t' = true /\ fle t' f1 = true /\ flt (lerp numF a b t') (lerp numF a b t) = true.
Proof.
  exists (dyad 13 (-1)), (dyad 0x1a000000003c00 (-50)), (dyad 0x12492492492492 (-54)), (dyad 0x12492492492493 (-54)).
  repeat split; vm_compute; reflexivity.
Qed.
Print Assumptions C95_monotone_parameter_refuted.

(** Non-vacuity: a quarter of the way from -1 to 2. *)
Example C95_ex : B2SF (lerpi numF 1 4 (of_Z (-1)) (of_Z 2)) = B2SF (dyad (-1) (-2)) /\
  fin (of_Z (-1)) /\ RR (of_Z (-1)) <= 0 <= RR (of_Z 2) /\ Rabs (RR (of_Z 2)) <= bpow radix2 1022 /\
  fin (dyad 1 (-2)) /\ 0 <= RR (dyad 1 (-2)) <= 1.
Proof.
  destruct (of_Z_exact (-1)) as [E1 F1]; [cbn; lia|]. destruct (of_Z_exact 2) as [E2 F2]; [cbn; lia|].
  split; [vm_compute; reflexivity|]. split; [exact F1|]. rewrite E1, E2. split; [lra|]. split.
  - rewrite Rabs_pos_eq by lra. change 2 with (bpow radix2 1). apply bpow_le. lia.
  - split; [reflexivity|]. destruct (dyad_ok 1 (-2)) as [E _].
    + rewrite rnd_fmt by (apply fmt_F2R; cbn; lia). unfold F2R. cbn [Fnum Fexp]. rewrite Rmult_1_l, Rabs_pos_eq by apply bpow_ge_0.
      apply bpow_lt. lia.
    + rewrite E, rnd_fmt by (apply fmt_F2R; cbn; lia). unfold F2R. cbn [Fnum Fexp]. rewrite Rmult_1_l. split; [apply bpow_ge_0|].
      change 1 with (bpow radix2 0). apply bpow_le. lia.
Qed.
