(** Specification of the geometry of the triangular lattice. *)
From Coq Require Import ZArith List.
Import ListNotations.
Open Scope Z_scope.

(** The squared length of i a + j b for unit vectors a and b at sixty degrees. *)
Definition hex_square (d : list Z) : Z :=
  match d with
  | [i; j] => i * i + i * j + j * j
  | _ => 0
  end.
