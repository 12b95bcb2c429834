(** Spec: all configurations of n values plus or minus one. *)
From Coq Require Import ZArith Reals List.
From Verif Require Import Base.
Import ListNotations.

Fixpoint configurations (n : nat) : list (list R) :=
  match n with O => [[]] | S m => map (cons 1%R) (configurations m) ++ map (cons (-1)%R) (configurations m) end.
(** The value on site a. *)
Definition value (s : list R) (a : Z) : R := nth (Z.to_nat a) s 0%R.
