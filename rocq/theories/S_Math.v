(** Independent specifications for the integer utilities (mathematics only,
    nothing from the model). *)
From Coq Require Import ZArith List.
Import ListNotations.
Open Scope Z_scope.

(** Exact product and sum of a list of integers. *)
Definition prodZ (l : list Z) : Z := fold_right Z.mul 1 l.
Definition sumZ (l : list Z) : Z := fold_right Z.add 0 l.

(** [c] lies on the grid with extents [size]. *)
Definition on_grid (size c : list Z) : Prop := Forall2 (fun s x => 0 <= x < s) size c.

(** Row-major position: the last coordinate varies fastest. *)
Fixpoint row_major (size c : list Z) : Z :=
  match size, c with
  | _ :: size', x :: c' => x * prodZ size' + row_major size' c'
  | _, _ => 0
  end.

(** Binomial coefficient by Pascal's rule. *)
Fixpoint binom (n k : nat) : nat :=
  match n, k with
  | _, O => 1
  | O, S _ => 0
  | S n', S k' => binom n' k' + binom n' (S k')
  end.

Definition binomZ (n k : Z) : Z := Z.of_nat (binom (Z.to_nat n) (Z.to_nat k)).
