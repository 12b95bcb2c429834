(** Specification of energies of bonds: a sum over all neighbouring pairs. *)
From Coq Require Import ZArith Reals List.
From Verif Require Import Base S_Math S_Accum M_Lattice S_Grid S_Bonds.
Import ListNotations.
Open Scope Z_scope.

Section Energy.
Context {A : Type} (V : A -> A -> R).

(** Every bond is met from both of its ends, so half of the sum over all sites
    and their neighbours. *)
Definition energy (nn : list (list Z)) (s : Z -> A) : R := (sumR (map (fun p => V (s (fst p)) (s (snd p))) (bonds nn)) / 2)%R.

(** What a site with value [x] contributes next to the neighbours [n]. *)
Definition local_energy (n : list Z) (s : Z -> A) (x : A) : R := sumR (map (fun b => V x (s b)) n).

Definition symmetric : Prop := forall x y, V x y = V y x.

(** Site [a] gets the value [x]. *)
Definition changed (s : Z -> A) (a : Z) (x : A) (i : Z) : A := if i =? a then x else s i.
(** Sites [a] and [b] exchange their values. *)
Definition exchanged (s : Z -> A) (a b : Z) (i : Z) : A := if i =? a then s b else if i =? b then s a else s i.
End Energy.

(** No two of the chosen sites are neighbours. *)
Definition independent {T} (L : lattice (T := T)) (size : list Z) (W : Z -> bool) : Prop :=
  forall a b, valid_site size a -> valid_site size b -> W a = true -> W b = true -> AreNeighbors L a b = Ok false.
