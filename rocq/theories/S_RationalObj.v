(** Specification of rational objects: value, validity, exact results.  Only the
    record [rat] is taken from the model. *)
From Coq Require Import ZArith QArith.
From Verif Require Import Base S_Rational M_Rational.
Open Scope Z_scope.

(** A value of the signed type with [w] bits. *)
Definition in_w (w z : Z) : Prop := is_sint w z = true.

(** ... which is not the minimum of the type. *)
Definition in_w' (w z : Z) : Prop := Z.abs z < 2 ^ (w - 1).

(** The number an object stands for. *)
Definition rv (r : rat) : Q := frac (num r) (den r).

(** An object with a meaning. *)
Definition wf (w : Z) (r : rat) : Prop := in_w w (num r) /\ in_w w (den r) /\ den r <> 0.

(** [r] is the number [q] in lowest terms. *)
Definition exact_result (w : Z) (r : rat) (q : Q) : Prop :=
  (frac (num r) (den r) == q)%Q /\ wf w r /\ Z.gcd (num r) (den r) = 1.
