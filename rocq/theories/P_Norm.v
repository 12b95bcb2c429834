(** Property theorems C12 (continued) and C73: powers, sums, products and norms (MathUtils.hpp). *)
From Coq Require Import ZArith Reals List Lia Lra.
From Flocq Require Import Core.Core.
From Verif Require Import Base F64 Num S_Math S_Norm M_MathInt M_MathF M_Norm L_Norm.
Import ListNotations.
Open Scope Z_scope.

(** * C12  containers of signed integers *)

Theorem C12_accumulate_sum_signed : forall v,
  (sums_fit v -> accumulate_sum_s v = Ok (sumZ v)) /\ (~ sums_fit v -> accumulate_sum_s v = UB).
Proof. exact accumulate_sum_s_spec. Qed.
Print Assumptions C12_accumulate_sum_signed.

Theorem C12_accumulate_product_signed : forall v,
  (prods_fit v -> accumulate_product_s v = Ok (prodZ v)) /\ (~ prods_fit v -> accumulate_product_s v = UB).
Proof. exact accumulate_product_s_spec. Qed.
Print Assumptions C12_accumulate_product_signed.

Theorem C12_sum_into_defined : forall l r,
  ((length l <= length r)%nat /\ (forall i, (i < length l)%nat -> is_long (nth i l 0 + nth i r 0)) <->
   exists s, sum_into l r = Ok s) /\
  (sum_into l r = UB \/ exists s, sum_into l r = Ok s).
Proof. exact sum_into_defined. Qed.
Print Assumptions C12_sum_into_defined.

Theorem C12_subtract_into_defined : forall l r,
  ((length l <= length r)%nat /\ (forall i, (i < length l)%nat -> is_long (nth i l 0 - nth i r 0)) <->
   exists s, subtract_into l r = Ok s) /\
  (subtract_into l r = UB \/ exists s, subtract_into l r = Ok s).
Proof. exact subtract_into_defined. Qed.
Print Assumptions C12_subtract_into_defined.

Theorem C12_sum_squared_undefined : forall v,
  2 ^ 63 <= sumZ (map (fun x => x * x) v) -> sum_squared_s v = UB.
Proof. exact sumsqZ_ub. Qed.
Print Assumptions C12_sum_squared_undefined.

Example C12_signed_ex :
  accumulate_sum_s [5; -7; 3] = Ok 1 /\ sums_fit [5; -7; 3] /\
  accumulate_sum_s [2 ^ 62; 2 ^ 62; - 2 ^ 62] = UB /\ ~ sums_fit [2 ^ 62; 2 ^ 62; - 2 ^ 62] /\
  accumulate_product_s [5; -7; 3] = Ok (-105) /\ accumulate_product_s [2 ^ 32; 2 ^ 32; 0] = UB /\
  sum_into [2 ^ 62] [2 ^ 62] = UB /\ sum_into [1; 2] [1] = UB /\ sum_into [1; 2] [3; 4; 5] = Ok [4; 6].
Proof.
  split; [reflexivity|]. split.
  - intros [|[|[|[|n]]]]; cbn; unfold is_long; lia.
  - split; [reflexivity|]. split; [intros H; specialize (H 2%nat); cbn in H; unfold is_long in H; lia|].
    repeat split.
Qed.

(** * C73  square, cube and the Euclidean norm *)

Theorem C73_square : forall x,
  (is_long (x * x) -> square_s x = Ok (x * x)) /\ (~ is_long (x * x) -> square_s x = UB).
Proof. exact square_s_spec. Qed.
Print Assumptions C73_square.

Theorem C73_cube : forall x,
  (is_long (x * x * x) -> cube_s x = Ok (x * x * x)) /\ (~ is_long (x * x * x) -> cube_s x = UB).
Proof. exact cube_s_spec. Qed.
Print Assumptions C73_cube.

(** Container of long: undefined exactly when the sum of squares leaves the type, otherwise the
    root of the sum after at most two roundings, one when the sum is at most 2^53. *)
Theorem C73_l2norm_integers : forall v, let s := sumZ (map (fun x => x * x) v) in
  (2 ^ 63 <= s -> l2norm_s v = UB) /\
  (s < 2 ^ 63 -> exists y, l2norm_s v = Ok y /\ fin y /\ RR y = rnd (sqrt (rnd (IZR s)))).
Proof. exact l2norm_s_spec. Qed.
Print Assumptions C73_l2norm_integers.

Theorem C73_l2norm_integers_rounded : forall v, let s := sumZ (map (fun x => x * x) v) in
  s <= 2 ^ 53 -> exists y, l2norm_s v = Ok y /\ fin y /\ RR y = rnd (euclid (map IZR v)).
Proof. exact l2norm_s_exact. Qed.
Print Assumptions C73_l2norm_integers_rounded.

(** Exact arithmetic: the Euclidean norm, with the laws of a norm. *)
Theorem C73_exact : forall v, sum_squared numR v = sumsq v /\ l2norm numR v = euclid v.
Proof. exact norms_R. Qed.
Print Assumptions C73_exact.

Theorem C73_exact_norm :
  (forall v, l2norm numR v = 0%R <-> Forall (fun x => x = 0%R) v) /\
  (forall c v, l2norm numR (map (Rmult c) v) = (Rabs c * l2norm numR v)%R) /\
  (forall a b, length a = length b -> (l2norm numR (vadd a b) <= l2norm numR a + l2norm numR b)%R).
Proof.
  split; [|split]; intros; rewrite ?(proj2 (norms_R _)).
  - apply euclid_zero.
  - apply euclid_scale.
  - now apply euclid_triangle.
Qed.
Print Assumptions C73_exact_norm.

(** Doubles: relative error, provided no square underflows and the result is finite. *)
Theorem C73_sum_squared_error : forall v,
  fin (sum_squared numF v) -> Forall (fun x => square_normal (RR x)) v ->
  ((1 - uro) ^ S (length v) * sumsq (map RR v) <= RR (sum_squared numF v) <= (1 + uro) ^ S (length v) * sumsq (map RR v))%R.
Proof. exact sum_squared_error. Qed.
Print Assumptions C73_sum_squared_error.

Theorem C73_l2norm_error : forall v,
  fin (l2norm numF v) -> Forall (fun x => square_normal (RR x)) v ->
  ((1 - uro) ^ S (S (length v)) * euclid (map RR v) <= RR (l2norm numF v) <= (1 + uro) ^ S (S (length v)) * euclid (map RR v))%R.
Proof. exact l2norm_error. Qed.
Print Assumptions C73_l2norm_error.

(** The result is finite when the entries are, and the sum of squares is at most 2^1021. *)
Theorem C73_finite : forall v,
  Forall fin v -> Z.of_nat (length v) <= 2 ^ 50 -> (sumsq (map RR v) <= bpow radix2 1021)%R ->
  fin (sum_squared numF v) /\ fin (l2norm numF v).
Proof. exact norms_finite. Qed.
Print Assumptions C73_finite.

(** Outside these ranges the norm of a finite, non-zero vector can be zero or infinite. *)
Theorem C73_underflow_refuted : exists x, fin x /\ flt f0 x = true /\ feq (l2norm numF [x]) f0 = true.
Proof. exists (dyad 1 (-600)). destruct l2norm_underflow as (A & B & C). auto. Qed.
Print Assumptions C73_underflow_refuted.

Theorem C73_overflow_refuted : exists x, fin x /\ feq (l2norm numF [x]) finf = true.
Proof. exists (dyad 1 600). exact l2norm_overflow. Qed.
Print Assumptions C73_overflow_refuted.

Example C73_ex :
  square_s (-3) = Ok 9 /\ cube_s (-3) = Ok (-27) /\ cube_s (- 2 ^ 21) = Ok (- 2 ^ 63) /\ cube_s (2 ^ 21) = UB /\
  square_u (2 ^ 32 + 1) = 2 ^ 33 + 1 /\
  (exists y, l2norm_s [3; -4; 12] = Ok y /\ feq y (of_Z 13) = true) /\ l2norm_s [2 ^ 32] = UB /\
  feq (l2norm numF [of_Z 3; of_Z (-4); of_Z 12]) (of_Z 13) = true /\
  fin (l2norm numF [of_Z 3; of_Z (-4); of_Z 12]) /\
  Forall (fun x => square_normal (RR x)) [of_Z 3; of_Z 0].
Proof.
  split; [reflexivity|]. split; [reflexivity|]. split; [reflexivity|]. split; [reflexivity|]. split; [reflexivity|].
  split; [eexists; split; [reflexivity|vm_compute; reflexivity]|]. split; [reflexivity|].
  split; [vm_compute; reflexivity|]. split; [vm_compute; reflexivity|].
  constructor; [right|constructor; [left|constructor]].
  - rewrite (proj1 (of_Z_exact 3 ltac:(cbn; lia))). rewrite Rabs_pos_eq by lra.
    apply Rle_trans with (bpow radix2 0); [apply bpow_le; lia|cbn; lra].
  - rewrite (proj1 (of_Z_exact 0 ltac:(cbn; lia))). reflexivity.
Qed.
