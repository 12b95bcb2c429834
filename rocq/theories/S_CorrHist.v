(** Correlations of whole occupation numbers. *)
From Coq Require Import ZArith List.
From Verif Require Import Base S_Math.
Import ListNotations.
Open Scope Z_scope.

Definition numberZ (n : list Z) (a : Z) : Z := nth (Z.to_nat a) n 0.

(** Sum over all configurations and sites of n_a times the occupation of the site f a. *)
Definition correlationZ (configurations : list (list Z)) (sites : list Z) (f : Z -> Z) : Z :=
  sumZ (map (fun n => sumZ (map (fun a => numberZ n a * numberZ n (f a)) sites)) configurations).

(** Sum over all configurations of the square of the number of particles. *)
Definition squared_numbers (configurations : list (list Z)) : Z :=
  sumZ (map (fun n => sumZ n * sumZ n) configurations).
Definition squared_magnitudes (configurations : list (list Z)) : Z :=
  sumZ (map (fun n => sumZ (map Z.abs n) * sumZ (map Z.abs n)) configurations).
