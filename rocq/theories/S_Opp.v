(** Opposite momenta and opposite data. *)
From Coq Require Import ZArith Reals List.
From Verif Require Import Base F64 S_Grid S_Bravais S_Mirror.
Open Scope Z_scope.

(** Points at the same distance from the middle point, on opposite sides. *)
Definition facing (size c c' : list Z) : Prop := Forall3 (fun s x y => x + y = 2 * (s / 2)) size c c'.

(** A sine that is odd and a cosine that is even, up to the sign of zero. *)
Definition odd_and_even (fsin fcos : f64 -> f64) : Prop :=
  (forall x, negated (fsin x) (fsin (fopp x))) /\ (forall x, alike (fcos x) (fcos (fopp x))) /\
  fin (fsin f0) /\ RR (fsin f0) = 0%R.
