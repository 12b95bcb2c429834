(** Specification of walks given by the numbers of the directions taken. *)
From Coq Require Import ZArith List Bool.
From Verif Require Import Base M_Bravais M_Lattice S_Bravais S_Lattice.
Import ListNotations.
Open Scope Z_scope.

(** The sites visited from a when the neighbour with number j is taken for every j of
    the list in turn. *)
Fixpoint route {T} (L : lattice (T := T)) (a : Z) (js : list Z) : out (list Z) :=
  match js with
  | [] => Ok []
  | j :: js' => nn <- GetNeighbors L a ;; b <- vget nn j ;; r <- route L b js' ;; Ok (b :: r)
  end.

Definition directions {T} (B : bravais T) (js : list Z) : Prop := Forall (fun j => 0 <= j < b_gamma B) js.

(** The sum of the displacements. *)
Definition overall {T} (B : bravais T) (js : list Z) : list Z :=
  fold_right (fun j v => shifted (displacement B j) v) (repeat 0 (Z.to_nat (b_dim B))) js.

(** No displacement leads half around the lattice or further. *)
Definition short_steps {T} (B : bravais T) (size : list Z) : Prop :=
  forall j, 0 <= j < b_gamma B -> Forall2 (fun s d => 2 * Z.abs d < s) size (displacement B j).

(** The direction back. *)
Definition opposite (j : Z) : Z := if Z.even j then j + 1 else j - 1.
