(** A client of Lattice and choose_between: a walker that hops to a random
    neighbour of the site it is on,

      auto const& nn = lattice.GetNeighbors(a);
      a = nn[choose_between(std::vector<double>(nn.size(), 1.0), rng)];

    Lattice.hpp:79-82 and MathUtils.hpp:196-212. *)
From Coq Require Import ZArith List.
From Verif Require Import Base F64 M_Grid M_Bravais M_Lattice M_MathF M_Random.
Import ListNotations.
Open Scope Z_scope.
Open Scope out_scope.

(** One hop from site [a], with the word [w] of the engine. *)
Definition hop {T} (L : @lattice T) (a w : Z) : out Z :=
  nn <- GetNeighbors L a ;; i <- choose_between_rng (repeat f1 (length nn)) w ;; vget nn i.

(** One hop for each word. *)
Definition hops {T} (L : @lattice T) (a : Z) (ws : list Z) : out Z := ofold (hop L) ws a.
