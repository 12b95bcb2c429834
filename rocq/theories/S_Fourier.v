(** Specification of the sum rule and the symmetries of structure factors. *)
From Coq Require Import ZArith Reals List.
From Verif Require Import Base S_Grid M_Bravais S_Bravais.
Import ListNotations.
Open Scope Z_scope.

(** Lattices whose momenta are dual to the periods: hypercubic ones, and all
    Bravais lattices with inverse matrices when the extents are equal. *)
Definition dual_momenta (B : bravais R) (size : list Z) : Prop :=
  unit_lattice 0%R 1%R B \/ inverse_matrices B /\ exists s, Forall (eq s) size.

(** Points on opposite sides of the middle of the grid. *)
Definition opposite_points (size c c' : list Z) : Prop :=
  Forall3 (fun s x y => (s | x + y - 2 * (s / 2))) size c c'.
