(** Property theorems C72 (conversions of RationalNum). *)
From Coq Require Import ZArith QArith Reals Lia.
From Verif Require Import Base F64 S_Rational M_MathInt M_Rational S_RationalObj S_Conv M_Conv L_Conv.
Open Scope Z_scope.

(** * C72  IsInt, conversion to the integer type, conversion to double *)

(** IsInt is defined whenever the quotient fits the type, and tells whether the number is an integer. *)
Theorem C72_is_int_defined : forall w r, 2 <= w -> in_w w (num r) -> in_w w (den r) ->
  (IsInt w r = UB <-> conv_ub w r) /\ (~ conv_ub w r -> exists b, IsInt w r = Ok b).
Proof.
  intros w r Hw Hn Hd. destruct (is_int_spec w r Hw Hn Hd) as [A B]. split; [exact A|].
  intros H. rewrite (B H). eauto.
Qed.
Print Assumptions C72_is_int_defined.

Theorem C72_is_int : forall w r b, 2 <= w -> wf w r -> IsInt w r = Ok b ->
  (b = true <-> exists k, (rv r == inject_Z k)%Q).
Proof. exact is_int_correct. Qed.
Print Assumptions C72_is_int.

(** The conversion to the integer type rounds towards zero. *)
Theorem C72_to_int : forall w r, 2 <= w -> in_w w (num r) -> in_w w (den r) ->
  (rat_to_int w r = UB <-> conv_ub w r) /\
  (~ conv_ub w r -> exists q, rat_to_int w r = Ok q /\
     (Rabs (IZR q) <= Rabs (vR r) < Rabs (IZR q) + 1 /\ 0 <= IZR q * vR r)%R).
Proof.
  intros w r Hw Hn Hd. destruct (to_int_spec w r Hw Hn Hd) as [A B]. split; [exact A|].
  intros H. exists (Z.quot (num r) (den r)). split; [exact (B H)|].
  apply truncation. intros E. apply H. left. exact E.
Qed.
Print Assumptions C72_to_int.

(** The conversion to double is correctly rounded when both numbers have at most 53 bits
    (always for RationalInt), so equal rationals give equal doubles and the order is kept. *)
Theorem C72_to_double_rounded : forall r,
  Z.abs (num r) <= 2 ^ 53 -> Z.abs (den r) <= 2 ^ 53 -> den r <> 0 ->
  fin (rat_to_double r) /\ RR (rat_to_double r) = rnd (vR r).
Proof. exact to_double_rounded. Qed.
Print Assumptions C72_to_double_rounded.

Theorem C72_to_double_order : forall a b,
  Z.abs (num a) <= 2 ^ 53 -> Z.abs (den a) <= 2 ^ 53 -> den a <> 0 ->
  Z.abs (num b) <= 2 ^ 53 -> Z.abs (den b) <= 2 ^ 53 -> den b <> 0 ->
  ((rv a <= rv b)%Q -> fle (rat_to_double a) (rat_to_double b) = true) /\
  ((rv a == rv b)%Q -> feq (rat_to_double a) (rat_to_double b) = true).
Proof. intros a b A1 A2 A3 B1 B2 B3. split; [now apply to_double_mono|now apply to_double_equal]. Qed.
Print Assumptions C72_to_double_order.

(** With 64-bit numbers the result is within three roundings. *)
Theorem C72_to_double_error : forall w r, 2 <= w <= 64 -> wf w r ->
  fin (rat_to_double r) /\ (Rabs (RR (rat_to_double r) - vR r) <= (3 * uro + 9 * uro * uro) * Rabs (vR r))%R.
Proof. exact to_double_error. Qed.
Print Assumptions C72_to_double_error.

(** Beyond 53 bits the order can be reversed, for fractions built by the constructor ... *)
Theorem C72_to_double_order_refuted : exists a b,
  RationalNum 64 (num a) (den a) = Ok a /\ RationalNum 64 (num b) (den b) = Ok b /\
  (rv a < rv b)%Q /\ flt (rat_to_double b) (rat_to_double a) = true.
Proof. exact to_double_order_wide. Qed.
Print Assumptions C72_to_double_order_refuted.

(** ... and equal rationals (one of them read from a stream, hence not reduced) give different doubles. *)
Theorem C72_to_double_equal_refuted : exists a b, wf 64 a /\ wf 64 b /\
  (rv a == rv b)%Q /\ flt (rat_to_double a) (rat_to_double b) = true.
Proof.
  exists wide1, wide3. split; [repeat split; discriminate|]. split; [repeat split; discriminate|]. exact to_double_wide.
Qed.
Print Assumptions C72_to_double_equal_refuted.

Theorem C72_zero_denominator : forall r, den r = 0 -> Z.abs (num r) <= 2 ^ 63 ->
  rat_to_double r = if num r =? 0 then fnan else if 0 <? num r then finf else fopp finf.
Proof. exact to_double_zero_den. Qed.
Print Assumptions C72_zero_denominator.

Example C72_ex :
  IsInt 64 (mkRat 6 3) = Ok true /\ IsInt 64 (mkRat (-7) 2) = Ok false /\
  rat_to_int 64 (mkRat (-7) 2) = Ok (-3) /\ rat_to_int 64 (mkRat 7 (-2)) = Ok (-3) /\
  rat_to_int 32 (mkRat (- 2 ^ 31) (-1)) = UB /\ IsInt 32 (mkRat 1 0) = UB /\
  feq (rat_to_double (mkRat (-7) 2)) (dyad (-7) (-1)) = true /\
  wf 64 (mkRat (-7) 2) /\ ~ conv_ub 64 (mkRat (-7) 2) /\
  (rv (mkRat 1 3) <= rv (mkRat 1 2))%Q.
Proof.
  repeat split; try (vm_compute; reflexivity); try discriminate.
  intros [H|[H _]]; discriminate H.
Qed.
