(** The bonds of a lattice: what a loop over all sites and their neighbours visits. *)
From Coq Require Import ZArith List.
From Verif Require Import Base.
Import ListNotations.
Open Scope Z_scope.

(** Site i with each entry of its list nn_i, for i = 0, 1, ... *)
Definition bonds (nn : list (list Z)) : list (Z * Z) :=
  flat_map (fun p => map (fun n => (fst p, n)) (snd p)) (combine (upto (vsize nn)) nn).
(** Bonds seen from the other end. *)
Definition reversed (l : list (Z * Z)) : list (Z * Z) := map (fun p => (snd p, fst p)) l.
(** How often b occurs in a list. *)
Definition occurrences (b : Z) (l : list Z) : nat := count_occ Z.eq_dec l b.
