(** Specification of distances on closed triangular lattices. *)
From Coq Require Import ZArith List.
From Verif Require Import Base S_Lattice S_Geom.
Import ListNotations.
Open Scope Z_scope.

(** q is the least squared length of a displacement d over all its periodic images. *)
Definition least_hex (size d : list Z) (q : Z) : Prop :=
  (exists e, length e = length size /\ hex_square (image size d e) = q) /\
  forall e, length e = length size -> q <= hex_square (image size d e).

(** Extents of which neither is more than twice the other. *)
Definition compact (size : list Z) : Prop :=
  match size with
  | [s; t] => s <= 2 * t /\ t <= 2 * s
  | _ => False
  end.
