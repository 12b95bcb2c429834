(** Specification of the counting of walks. *)
From Coq Require Import ZArith Reals List.
From Verif Require Import Base Num S_Math S_Accum M_Grid M_Bravais M_Lattice S_Bravais S_Route S_Diffuse.
Import ListNotations.
Open Scope Z_scope.

(** The last sites of all walks of n hops from a. *)
Definition ends {T} (L : lattice (T := T)) (g a : Z) (n : nat) : out (list Z) :=
  omapl (fun js => w <- route L a js ;; Ok (last w a)) (sequences g n).

(** How many of them are b. *)
Definition reaching (es : list Z) (b : Z) : nat := count_occ Z.eq_dec es b.

(** The sum of the cosines of the phases of the hops [ds] at [k]. *)
Definition band (ds : list (list R)) (k : list R) : R := sumR (map (fun d => cos (dot k d)) ds).
