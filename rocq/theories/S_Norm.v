(** Specifications for powers, sums and norms (mathematics only). *)
From Coq Require Import ZArith Reals List.
From Flocq Require Import Core.Core.
From Verif Require Import S_Math.
Import ListNotations.
Open Scope Z_scope.

(** A value of a 64-bit signed integer. *)
Definition is_long (z : Z) : Prop := - 2 ^ 63 <= z < 2 ^ 63.

(** Every sum (product) of a first part of the list is a 64-bit signed integer. *)
Definition sums_fit (v : list Z) : Prop := forall n, is_long (sumZ (firstn n v)).
Definition prods_fit (v : list Z) : Prop := forall n, is_long (prodZ (firstn n v)).

(** Euclidean norm. *)
Definition sumsq (v : list R) : R := fold_right (fun x s => (x * x + s)%R) 0%R v.
Definition euclid (v : list R) : R := sqrt (sumsq v).
Fixpoint vadd (a b : list R) : list R :=
  match a, b with x :: a', y :: b' => (x + y)%R :: vadd a' b' | _, _ => [] end.

(** The square of the number does not underflow. *)
Definition square_normal (x : R) : Prop := x = 0%R \/ (bpow radix2 (-500) <= Rabs x)%R.
