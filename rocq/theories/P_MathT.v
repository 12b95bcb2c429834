(** C111: the templates of MathUtils.hpp at further types. *)
From Coq Require Import ZArith Reals List Bool Lia Lra.
From Flocq Require Import Core.Core IEEE754.BinarySingleNaN.
From Verif Require Import Base F64 Num S_Math S_Accum S_MathT M_MathInt M_MathF M_MathT M_Accum
  L_MathInt L_MathF L_Sum L_Accum L_Approx L_MathT P_MathInt P_Accum.
Import ListNotations.
Open Scope R_scope.

(** accumulate_sum of n doubles is off by n - 1 roundings at most, relative to the sum of the magnitudes. *)
Theorem C111_sum : forall v,
  (Z.of_nat (length v) <= 2 ^ 49)%Z -> Forall fin v -> sum_abs (map RR v) <= bpow radix2 1019 ->
  fin (accumulate_sum_f v) /\
  Rabs (RR (accumulate_sum_f v) - sumR (map RR v)) <= ((1 + uro) ^ (length v - 1) - 1) * sum_abs (map RR v).
Proof.
  intros v N F A. pose proof (sum_f_finite v N F A) as H. split; [exact H|]. exact (proj2 (sum_f_error v H)).
Qed.
Print Assumptions C111_sum.

(** Whole numbers are added exactly, in any order, while the sum of the magnitudes is at most 2^53. *)
Theorem C111_sum_integers : forall v, (sumZ (map Z.abs v) <= 2 ^ 53)%Z ->
  fin (accumulate_sum_f (map of_Z v)) /\ RR (accumulate_sum_f (map of_Z v)) = IZR (sumZ v).
Proof. exact sum_f_integers. Qed.
Print Assumptions C111_sum_integers.

(** A KahanAccumulator fed with the same values is at most that far away, up to its own error. *)
Theorem C111_sum_against_kahan : forall chk v a,
  (Z.of_nat (length v) <= 2 ^ 49)%Z -> Forall fin v -> sum_abs (map RR v) <= bpow radix2 1019 ->
  apply_accumulator (KahanAdd numF chk) v (kahan_new numF) = (a, Ok tt) ->
  fin (KahanSum a) /\
  Rabs (RR (accumulate_sum_f v) - RR (KahanSum a)) <= uro * Rabs (RR (KahanSum a)) +
    ((1 + uro) ^ (length v - 1) - 1 + 2 * uro + 16 * (INR (length v) * (uro * uro))) * sum_abs (map RR v).
Proof.
  intros chk v a N F A E. destruct (C42_kahan_finite chk v N F A) as (a' & E' & Fk). rewrite E in E'. injection E' as <-.
  split; [exact Fk|]. destruct (C111_sum v N F A) as [_ B]. pose proof (C42_kahan_error chk v a E N Fk) as K.
  replace (RR (accumulate_sum_f v) - RR (KahanSum a)) with
    ((RR (accumulate_sum_f v) - sumR (map RR v)) + - (RR (KahanSum a) - sumR (map RR v))) by ring.
  apply Rle_trans with (1 := Rabs_triang _ _). rewrite Rabs_Ropp. lra.
Qed.
Print Assumptions C111_sum_against_kahan.

(** accumulate_product of n doubles is the product up to a factor made of n - 1 roundings. *)
Theorem C111_product : forall v,
  (Z.of_nat (length v) <= 2 ^ 49)%Z -> fin (accumulate_product_f v) -> no_underflow (map RR v) ->
  exists d, RR (accumulate_product_f v) = d * prodR (map RR v) /\
    (1 - uro) ^ (length v - 1) <= d <= (1 + uro) ^ (length v - 1).
Proof. intros v N F H. exact (proj2 (prod_f_error v N F H)). Qed.
Print Assumptions C111_product.

(** The hypothesis is needed: a product of value one can be computed as zero. *)
Theorem C111_product_underflow_refuted : exists v, prodR (map RR v) = 1 /\ feq (accumulate_product_f v) f0 = true.
Proof.
  exists [dyad 1 (-600); dyad 1 (-600); dyad 1 600; dyad 1 600]. split; [|vm_compute; reflexivity].
  assert (D : forall e, (-1000 <= e <= 1000)%Z -> RR (dyad 1 e) = bpow radix2 e).
  { intros e H. assert (Q : F2R (Float radix2 1 e) = bpow radix2 e) by (unfold F2R; cbn; ring).
    rewrite (proj1 (dyad_ok 1 e ltac:(rewrite Q; apply (no_overflow _ 1000); [lia|rewrite Rabs_pos_eq by apply bpow_ge_0; apply bpow_le; lia]))), Q.
    apply rnd_fmt, fmt_bpow. lia. }
  cbn [map]. rewrite !D by lia. unfold prodR. cbn [fold_right]. rewrite Rmult_1_r, <- !bpow_plus. reflexivity.
Qed.
Print Assumptions C111_product_underflow_refuted.

(** absdiff<double>: the distance, rounded once; zero exactly for equal arguments. *)
Theorem C111_absdiff_double : forall a b, fin a -> fin b -> Rabs (RR a - RR b) <= bpow radix2 1023 ->
  fin (absdiff_f a b) /\ RR (absdiff_f a b) = rnd (Rabs (RR a - RR b)) /\
  (RR (absdiff_f a b) = 0 <-> RR a = RR b).
Proof.
  intros a b Fa Fb H. assert (Hf : Rabs (rnd (RR a - RR b)) < fmax) by (apply (no_overflow _ 1023); [lia|exact H]).
  destruct (absdiff_f_ok a b Fa Fb Hf). repeat split; auto; now apply absdiff_f_zero.
Qed.
Print Assumptions C111_absdiff_double.

(** It does not depend on the order of the arguments, for any two doubles. *)
Theorem C111_absdiff_double_symmetric : forall a b,
  absdiff_f a b = absdiff_f b a \/ feq (absdiff_f a b) (absdiff_f b a) = true.
Proof. exact absdiff_f_sym. Qed.
Print Assumptions C111_absdiff_double_symmetric.

(** absdiff<long>: the distance where it is a long, undefined elsewhere. *)
Theorem C111_absdiff_long : forall a b,
  ((Z.abs (a - b) < 2 ^ 63)%Z -> absdiff_s a b = Ok (Z.abs (a - b))) /\
  ((2 ^ 63 <= Z.abs (a - b))%Z -> absdiff_s a b = UB).
Proof.
  intros a b. unfold absdiff_s, s64, sint, is_sint. change (2 ^ (64 - 1))%Z with (2 ^ 63)%Z.
  split; intros H; destruct (Z.ltb_spec b a);
    destruct (Z.leb_spec (- 2 ^ 63) (a - b)), (Z.ltb_spec (a - b) (2 ^ 63)), (Z.leb_spec (- 2 ^ 63) (b - a)), (Z.ltb_spec (b - a) (2 ^ 63));
    cbn [andb]; try lia; try reflexivity; f_equal; lia.
Qed.
Print Assumptions C111_absdiff_long.

(** signeddiff<unsigned, long>: always the difference. *)
Theorem C111_signeddiff_narrow : forall a b, (0 <= a < 2 ^ 32)%Z -> (0 <= b < 2 ^ 32)%Z -> signeddiff_32 a b = Ok (a - b)%Z.
Proof.
  intros a b Ha Hb. unfold signeddiff_32, u32. destruct (Z.ltb_spec b a).
  - rewrite Z.mod_small by lia. reflexivity.
  - rewrite Z.mod_small by lia. rewrite s64_ok by (pose proof two63_eq; lia). f_equal. lia.
Qed.
Print Assumptions C111_signeddiff_narrow.

(** max and min of doubles without NaN: an element not below, or not above, any other. *)
Theorem C111_max : forall v m, numbers v -> cmax flt v = Ok m ->
  In m v /\ Forall (fun x => fle x m = true) v.
Proof.
  intros [|a v] m N E; [discriminate|]. injection E as <-. apply Forall_cons_iff in N as [Na Nv].
  destruct (fold_max v a Na Nv) as (I & L & A). split; [exact I|]. constructor; assumption.
Qed.
Print Assumptions C111_max.

Theorem C111_min : forall v m, numbers v -> cmin flt v = Ok m ->
  In m v /\ Forall (fun x => fle m x = true) v.
Proof.
  intros [|a v] m N E; [discriminate|]. injection E as <-. apply Forall_cons_iff in N as [Na Nv].
  destruct (fold_min v a Na Nv) as (I & L & A). split; [exact I|]. constructor; assumption.
Qed.
Print Assumptions C111_min.

(** A NaN in front is the result; a NaN anywhere else is passed over. *)
Theorem C111_max_min_nan : forall a v,
  (is_nan a = true -> cmax flt (a :: v) = Ok a /\ cmin flt (a :: v) = Ok a) /\
  cmax flt (a :: v) = cmax flt (a :: filter (fun x => negb (is_nan x)) v) /\
  cmin flt (a :: v) = cmin flt (a :: filter (fun x => negb (is_nan x)) v).
Proof.
  intros a v. unfold cmax, cmin. split; [|split].
  - intros N. now rewrite fold_max_nan, fold_min_nan.
  - f_equal. apply fold_max_skip.
  - f_equal. apply fold_min_skip.
Qed.
Print Assumptions C111_max_min_nan.

(** sum_into and subtract_into on doubles: component by component, each rounded once; a shorter
    right vector is undefined. *)
Theorem C111_vectors : forall l r,
  ((length l <= length r)%nat -> exists s d, sum_into_f l r = Ok s /\ subtract_into_f l r = Ok d /\
     length s = length l /\ length d = length l /\
     forall i, (i < length l)%nat ->
       (fin (nth i s f0) -> RR (nth i s f0) = rnd (RR (nth i l f0) + RR (nth i r f0))) /\
       (fin (nth i d f0) -> RR (nth i d f0) = rnd (RR (nth i l f0) - RR (nth i r f0)))) /\
  ((length r < length l)%nat -> sum_into_f l r = UB /\ subtract_into_f l r = UB).
Proof.
  intros l r. unfold sum_into_f, subtract_into_f.
  destruct (transform_f_spec fadd l r) as [A1 A2], (transform_f_spec fsub l r) as [B1 B2]. split; intros H.
  - destruct (A1 H) as (s & Es & Ls & Ns), (B1 H) as (d & Ed & Ld & Nd). exists s, d. repeat split; auto.
    + rewrite Ns by assumption. intros F. exact (proj2 (proj2 (fadd_inv _ _ F))).
    + rewrite Nd by assumption. intros F. exact (proj2 (proj2 (fsub_inv _ _ F))).
  - auto.
Qed.
Print Assumptions C111_vectors.

(** On doubles subtract_into need not undo sum_into (it does on integers, C12). *)
Theorem C111_undo_refuted : exists a b s d, sum_into_f [a] [b] = Ok [s] /\ subtract_into_f [s] [b] = Ok [d] /\
  fin a /\ fin b /\ fin d /\ RR d <> RR a.
Proof.
  exists f1, (dyad 1 60). eexists _, _. split; [reflexivity|]. split; [reflexivity|].
  repeat split; try (vm_compute; reflexivity). rewrite RR_f1. vm_compute. intros H. lra.
Qed.
Print Assumptions C111_undo_refuted.

(** Inverting twice gives the same bits back, and the values are negated. *)
Theorem C111_invert : forall c, invert_f (invert_f c) = c /\ map RR (invert_f c) = map Ropp (map RR c).
Proof.
  intros c. unfold invert_f. rewrite !map_map. split.
  - rewrite <- (map_id c) at 2. apply map_ext. intros x. apply Bopp_involutive.
  - apply map_ext. intros x. apply RR_fopp.
Qed.
Print Assumptions C111_invert.

(** cbinomial<size_t>: exact while the last product fits. *)
Theorem C111_binomial_unsigned : forall n k, (0 <= k <= n)%Z -> (n < 2 ^ 64)%Z ->
  (binomZ n k * Z.min k (n - k) < 2 ^ 64)%Z -> cbinomial_u n k = Ok (binomZ n k).
Proof. intros n k Hk Hn H. pose proof two64_eq. apply cbinomial_u_spec; lia. Qed.
Print Assumptions C111_binomial_unsigned.

(** Beyond that a wrong number can be returned without any sign of it, even where the coefficient fits. *)
Theorem C111_binomial_wraps_refuted : exists n k r, (0 <= k <= n)%Z /\ (n < 2 ^ 64)%Z /\ (binomZ n k < 2 ^ 64)%Z /\
  cbinomial_u n k = Ok r /\ (2 * r < binomZ n k)%Z.
Proof.
  exists 66%Z, 33%Z. eexists. split; [lia|]. split; [reflexivity|].
  assert (E : binomZ 66 33 = 7219428434016265740%Z).
  { assert (S : forall i, (1 <= i <= 66)%Z -> (binomZ 66 i = binomZ 66 (i - 1) * (67 - i) / i)%Z).
    { intros i Hi. pose proof (binomZ_step 66 i ltac:(lia)) as Q. replace (binomZ 66 (i - 1) * (67 - i))%Z with (binomZ 66 i * i)%Z by lia.
      rewrite Z.div_mul; lia. }
    assert (G : forall j : nat, (j <= 66)%nat -> binomZ 66 (Z.of_nat j) =
       fst (Nat.iter j (fun st => (fst st * (67 - (snd st + 1)) / (snd st + 1), snd st + 1)%Z) (1, 0)%Z) /\
       snd (Nat.iter j (fun st => (fst st * (67 - (snd st + 1)) / (snd st + 1), snd st + 1)%Z) (1, 0)%Z) = Z.of_nat j).
    { induction j as [|j IH]; intros Hj; [split; reflexivity|]. destruct IH as [I1 I2]; [lia|].
      cbn [Nat.iter nat_rect]. cbn [fst snd]. unfold Nat.iter in I1, I2. rewrite I2, <- I1. split; [|lia]. rewrite S by lia.
      replace (Z.of_nat (Datatypes.S j) - 1)%Z with (Z.of_nat j) by lia. replace (Z.of_nat (Datatypes.S j)) with (Z.of_nat j + 1)%Z by lia. reflexivity. }
    change 33%Z with (Z.of_nat 33). rewrite (proj1 (G 33%nat ltac:(lia))). vm_compute. reflexivity. }
  rewrite E. split; [reflexivity|]. split; [vm_compute; reflexivity|]. reflexivity.
Qed.
Print Assumptions C111_binomial_wraps_refuted.

(** get_gcd on unsigned numbers: always the greatest common divisor. *)
Theorem C111_gcd_unsigned : forall a b, (0 <= a < 2 ^ 64)%Z -> (0 <= b < 2 ^ 64)%Z -> get_gcd_u a b = Ok (Z.gcd a b).
Proof. intros a b Ha Hb. pose proof two64_eq. apply get_gcd_u_spec; lia. Qed.
Print Assumptions C111_gcd_unsigned.

(** index_to_array into a vector of int: the same coordinates as into one of long, provided no
    extent exceeds 2^31. *)
Theorem C111_index_to_array_int : forall size i l,
  Forall (fun s => (0 < s <= 2 ^ 31)%Z) size -> (prodZ size < 2 ^ 64)%Z -> (0 <= i < prodZ size)%Z ->
  index_to_array i size = Ok l -> index_to_array_32 i size = Ok l.
Proof.
  intros size i l H P Hi E. unfold index_to_array_32, index_to_array in *. pose proof two64_eq as E64.
  rewrite (proj2 (C12_accumulate size)) in *. rewrite Z.mod_small in * by lia.
  apply i2a32_agrees; auto.
Qed.
Print Assumptions C111_index_to_array_int.

Theorem C111_index_to_array_int_refuted : exists size i l, Forall (fun s => (0 < s)%Z) size /\ (prodZ size < 2 ^ 64)%Z /\
  (0 <= i < prodZ size)%Z /\ index_to_array_32 i size = Ok l /\ ~ on_grid size l.
Proof.
  exists [2 ^ 32; 2]%Z, (2 ^ 32 + 1)%Z, [- 2 ^ 31; 1]%Z. split; [repeat constructor|]. split; [reflexivity|].
  split; [split; [discriminate|reflexivity]|]. split; [vm_compute; reflexivity|]. intros H. inversion H as [|? ? ? ? K]. lia.
Qed.
Print Assumptions C111_index_to_array_int_refuted.

Example C111_ex :
  feq (accumulate_sum_f [of_Z 3; of_Z (-7); dyad 1 (-1)]) (dyad (-7) (-1)) = true /\
  feq (accumulate_product_f [of_Z 3; of_Z (-7); dyad 1 (-1)]) (dyad (-21) (-1)) = true /\
  feq (absdiff_f (of_Z 3) (dyad 21 (-1))) (dyad 15 (-1)) = true /\ absdiff_s 3 (-5) = Ok 8%Z /\ absdiff_s (2 ^ 62) (- 2 ^ 62) = UB /\
  signeddiff_32 3 (2 ^ 32 - 1) = Ok (4 - 2 ^ 32)%Z /\
  cbinomial_u 10 3 = Ok 120%Z /\ get_gcd_u (2 ^ 63) (2 ^ 63 + 2 ^ 40) = Ok (2 ^ 40)%Z /\
  index_to_array_32 17 [3; 2; 4]%Z = Ok [2; 0; 1]%Z /\
  omap B2SF (cmax flt [of_Z 2; fnan; of_Z 5; of_Z (-1)]) = Ok (B2SF (of_Z 5)).
Proof. vm_compute. repeat split; reflexivity. Qed.

(** The bounds are not vacuous: here the sum is wrong by one rounding. *)
Example C111_ex_sum : let v := [dyad 1 53; f1] in
  (Z.of_nat (length v) <= 2 ^ 49)%Z /\ Forall fin v /\ feq (accumulate_sum_f v) (dyad 1 53) = true /\ numbers v.
Proof.
  split; [vm_compute; discriminate|]. split; [repeat (constructor; [reflexivity|]); constructor|]. split; [vm_compute; reflexivity|].
  repeat (constructor; [vm_compute; reflexivity|]); constructor.
Qed.
