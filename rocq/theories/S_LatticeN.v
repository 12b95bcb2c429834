(** Specification of the neighbour graph of a finite lattice: walks and the
    least number of hops between two points. *)
From Coq Require Import ZArith List.
From Verif Require Import Base M_Lattice S_Bravais.
Import ListNotations.
Open Scope Z_scope.

(** Walks of n hops, each to a site in the neighbour list. *)
Inductive walk {T} (L : lattice (T := T)) : nat -> Z -> Z -> Prop :=
| walk_here a : walk L 0 a a
| walk_hop n a b c nn : GetNeighbors L a = Ok nn -> In b nn -> walk L n b c -> walk L (S n) a c.

(** Distance on a ring of length s, and its sum over the coordinates. *)
Definition ring (s d : Z) : Z := Z.min (d mod s) (s - d mod s).
Fixpoint ring_hops (size a b : list Z) : Z :=
  match size, a, b with
  | s :: size', x :: a', y :: b' => ring s (y - x) + ring_hops size' a' b'
  | _, _, _ => 0
  end.

(** Distance along the axes of a grid without periodic boundaries. *)
Fixpoint axis_hops (a b : list Z) : Z :=
  match a, b with
  | x :: a', y :: b' => Z.abs (y - x) + axis_hops a' b'
  | _, _ => 0
  end.

(** The same when one may also step along (1,-1). *)
Definition hex_hops (a b : list Z) : Z :=
  match zip_with Z.sub b a with
  | [i; j] => Z.max (Z.max (Z.abs i) (Z.abs j)) (Z.abs (i + j))
  | _ => 0
  end.
