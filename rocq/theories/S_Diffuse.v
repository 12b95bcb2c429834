(** Specification of averages over all walks of a given number of hops. *)
From Coq Require Import ZArith Reals List.
From Verif Require Import Base Num S_Math S_Accum M_Grid M_Bravais M_Lattice S_Route.
Import ListNotations.
Open Scope Z_scope.

(** All sequences of n directions out of 0 .. g-1. *)
Fixpoint sequences (g : Z) (n : nat) : list (list Z) :=
  match n with
  | O => [[]]
  | S n' => flat_map (fun j => map (cons j) (sequences g n')) (upto g)
  end.

Definition average (l : list R) : R := (sumR l / INR (length l))%R.

(** What a caller does with one sequence: follow it, add up the jumps, and turn the
    sum into a vector. *)
Definition travelled {T} (N : num T) (B : bravais T) (L : lattice (T := T)) (size : list Z) (a : Z) (js : list Z) : out (list T) :=
  w <- route L a js ;; t <- walk_jumps (l_grid L) a w (map (fun _ => 0) size) ;; GetRealSpace N B t.
