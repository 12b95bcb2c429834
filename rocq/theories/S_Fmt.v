(** Specification of numbers in scientific notation. *)
From Coq Require Import ZArith Reals List Ascii.
From Flocq Require Import Core.
From Verif Require Import Base S_Rational.
Import ListNotations.
Open Scope Z_scope.

(** Exponents: a sign and at least two digits. *)
Definition exponent_text (l : list ascii) (k : Z) : Prop :=
  exists ds v, digits_text ds v /\ (2 <= length ds)%nat /\ (l = "+"%char :: ds /\ k = v \/ l = "-"%char :: ds /\ k = - v).

(** d.ddd...e±dd with p digits after the point: the digits read as one integer n, the
    exponent k, and whether there is a minus sign. *)
Definition sci_text (p : Z) (l : list ascii) (neg : bool) (n k : Z) : Prop :=
  exists c frac ex,
    l = (if neg then ["-"%char] else []) ++ c :: (if p =? 0 then [] else "."%char :: frac) ++ "e"%char :: ex /\
    Z.of_nat (length frac) = p /\ digits_text (c :: frac) n /\ exponent_text ex k.

Definition ten : radix := Build_radix 10 (refl_equal _).

(** The number written: plus or minus n * 10^(k-p). *)
Definition sci_value (p : Z) (neg : bool) (n k : Z) : R :=
  ((if neg then - 1 else 1) * (IZR n * bpow ten (k - p)))%R.
Definition denotes (l : list ascii) (v : R) : Prop :=
  exists p neg n k, sci_text p l neg n k /\ v = sci_value p neg n k.

(** Numbers with p+1 significant decimal digits; nearest such number. *)
Definition decimal (p : Z) (v : R) : Prop := exists n k, Z.abs n < 10 ^ (p + 1) /\ v = (IZR n * bpow ten k)%R.
Definition nearest_decimal (p : Z) (x v : R) : Prop :=
  decimal p v /\ forall w, decimal p w -> (Rabs (v - x) <= Rabs (w - x))%R.
