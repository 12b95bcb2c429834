(** Specification for C100: when a jump over the grid and a vector between lattice
    points mean the same. *)
From Coq Require Import ZArith Reals List.
Import ListNotations.
Open Scope Z_scope.

(** The number of steps along the axes that a jump takes. *)
Fixpoint steps_of (j : list Z) : Z :=
  match j with
  | [] => 0
  | x :: j' => Z.abs x + steps_of j'
  end.

(** The real component y for the jump k on a ring of length s: the same number,
    except that half way round the direction may differ. *)
Definition same_way (s : Z) (y : R) (k : Z) : Prop := y = IZR k \/ 2 * k = s /\ y = (- IZR k)%R.
