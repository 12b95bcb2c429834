(** Structure factors as transforms of what is seen between pairs of sites. *)
From Coq Require Import ZArith Reals List.
From Verif Require Import Base S_Accum S_Bravais.
Import ListNotations.
Open Scope R_scope.

(** The occupation of a site. *)
Definition at_site (occ : list R) (a : Z) : R := nth (Z.to_nat a) occ 0.

(** Sum over all pairs of sites of n_a n_b cos(k v_ab). *)
Definition pair_transform (occ : list R) (sites : list Z) (k : list R) (v : Z -> Z -> list R) : R :=
  sumR (map (fun a => sumR (map (fun b => at_site occ a * at_site occ b * cos (dot k (v a b))) sites)) sites).

(** Squared modulus of the sum over all sites of n_a exp(i k x_a). *)
Definition site_transform (occ : list R) (sites : list Z) (k : list R) (x : Z -> list R) : R :=
  sumR (map (fun a => at_site occ a * cos (dot k (x a))) sites) ^ 2 +
  sumR (map (fun a => at_site occ a * sin (dot k (x a))) sites) ^ 2.

(** Sum over all sites of n_a times the occupation of the site f a. *)
Definition correlation (occ : list R) (sites : list Z) (f : Z -> Z) : R :=
  sumR (map (fun a => at_site occ a * at_site occ (f a)) sites).
