(** Specification of sublattices: colourings of the sites and sums of coordinates. *)
From Coq Require Import ZArith List.
From Verif Require Import Base M_Lattice S_Grid.
Import ListNotations.
Open Scope Z_scope.

(** Numbers 0 .. q-1 given to the sites so that neighbours get different ones. *)
Definition colouring {T} (q : Z) (L : lattice (T := T)) (size : list Z) (f : Z -> Z) : Prop :=
  (forall a, valid_site size a -> 0 <= f a < q) /\
  forall a b, valid_site size a -> valid_site size b -> AreNeighbors L a b = Ok true -> f a <> f b.

Definition total (c : list Z) : Z := fold_right Z.add 0 c.

(** Coordinates that belong to the even sublattice. *)
Definition on_even (c : list Z) : bool := Z.even (total c).
