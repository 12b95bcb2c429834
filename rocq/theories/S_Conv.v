(** Specification of the conversions of a rational. *)
From Coq Require Import ZArith Reals.
From Verif Require Import M_Rational.
Open Scope Z_scope.

(** The quotient of the stored numbers has no value in a signed type of [w] bits. *)
Definition conv_ub (w : Z) (r : rat) : Prop := den r = 0 \/ (num r = - 2 ^ (w - 1) /\ den r = -1).

(** The real number that the object represents. *)
Definition vR (r : rat) : R := (IZR (num r) / IZR (den r))%R.
