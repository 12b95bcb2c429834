(** C103: bonds are counted from both ends alike; closed lattices look the same from every site. *)
From Coq Require Import ZArith Reals List Bool Lia Permutation.
From Flocq Require Import IEEE754.BinarySingleNaN.
From Verif Require Import Base F64 Num S_Math S_Accum M_MathInt M_Grid M_Bravais M_Lattice S_Grid S_Bravais S_Lattice S_Bonds
  L_Bravais L_Lattice L_Bonds P_Lattice.
Import ListNotations.
Open Scope Z_scope.

(** b is as often a neighbour of a as a is one of b. *)
Theorem C103_multiplicity : forall (T : Type) (N : num T) (pi : T) (B : bravais T) size cl, lattice_ok B size ->
  exists L, Lattice N pi B size cl = Ok L /\ forall a b, valid_site size a -> valid_site size b ->
  exists na nb, GetNeighbors L a = Ok na /\ GetNeighbors L b = Ok nb /\ occurrences b na = occurrences a nb.
Proof.
  intros T N pi B size cl H. eexists. split; [now apply lattice_built|]. intros a b Ha Hb. eexists _, _.
  split; [now apply nn_built|]. split; [now apply nn_built|]. now apply (multiplicity N pi B size cl H).
Qed.
Print Assumptions C103_multiplicity.
(** On a closed 2 x 3 square lattice site 3 is twice a neighbour of site 0. *)
Example C103_multiplicity_ex :
  (L <- Lattice numF pi_d (SquareLattice numF) [2; 3] true ;; GetNeighbors L 0) = Ok [3; 3; 1; 2] /\
  (L <- Lattice numF pi_d (SquareLattice numF) [2; 3] true ;; GetNeighbors L 3) = Ok [0; 0; 4; 5] /\
  occurrences 3 [3; 3; 1; 2] = 2%nat /\ occurrences 0 [0; 0; 4; 5] = 2%nat.
Proof. split; [|split; [|split]]; vm_compute; reflexivity. Qed.

(** A loop over all sites and their neighbours meets every bond as often from
    one end as from the other. *)
Theorem C103_bonds : forall (T : Type) (N : num T) (pi : T) (B : bravais T) size cl, lattice_ok B size ->
  exists L nn, Lattice N pi B size cl = Ok L /\ omapl (GetNeighbors L) (upto (GetNumSites (l_grid L))) = Ok nn /\
  Permutation (bonds nn) (reversed (bonds nn)).
Proof.
  intros T N pi B size cl H. eexists _, _. split; [now apply lattice_built|].
  change (l_grid (built N pi B size cl)) with (HyperCubicGrid size cl). rewrite (proj1 (grid_sites size cl (proj1 (proj2 (proj2 (proj2 H)))))).
  split; [now apply nn_table|]. now apply (bonds_reversed N pi B size cl H).
Qed.
Print Assumptions C103_bonds.
Example C103_bonds_ex :
  (L <- Lattice numF pi_d (SquareLattice numF) [2; 2] false ;; omapl (GetNeighbors L) (upto (GetNumSites (l_grid L)))) = Ok [[2; 1]; [3; 0]; [0; 3]; [1; 2]] /\
  bonds [[2; 1]; [3; 0]; [0; 3]; [1; 2]] = [(0, 2); (0, 1); (1, 3); (1, 0); (2, 0); (2, 3); (3, 1); (3, 2)].
Proof. split; vm_compute; reflexivity. Qed.

(** The neighbours of a moved site are the moved neighbours, in the same order. *)
Theorem C103_moved_neighbors : forall (T : Type) (N : num T) (pi : T) (B : bravais T) size, lattice_ok B size ->
  exists L, Lattice N pi B size true = Ok L /\ forall t a, valid_site size t -> valid_site size a ->
  exists a' na na', GetUnMappedSite (l_grid L) t a = Ok a' /\ GetNeighbors L a = Ok na /\ GetNeighbors L a' = Ok na' /\
  Forall2 (fun x x' => GetUnMappedSite (l_grid L) t x = Ok x') na na'.
Proof.
  intros T N pi B size H. eexists. split; [now apply lattice_built|]. intros t a Ht Ha.
  exists (moved size t a). eexists _, _. split; [now apply (moved_ok B size H)|]. split; [now apply nn_built|].
  split; [apply nn_built; now apply (moved_valid B size H)|]. rewrite (nn_moved B size H) by assumption.
  change (l_grid (built N pi B size true)) with (HyperCubicGrid size true).
  assert (V : Forall (valid_site size) (nbrs B size true (coords_of size a) (upto (b_gamma B)))).
  { apply Forall_forall. intros x Hx. now apply (nn_valid N pi B size true H a). }
  induction V as [|x l Hx V IH]; [constructor|]. cbn [map]. constructor; [now apply (moved_ok B size H)|exact IH].
Qed.
Print Assumptions C103_moved_neighbors.
Example C103_moved_neighbors_ex :
  (L <- Lattice numF pi_d (TriangularLattice numF) [3; 4] true ;; GetNeighbors L 0) = Ok [4; 8; 1; 3; 7; 9] /\
  GetUnMappedSite (HyperCubicGrid [3; 4] true) 7 0 = Ok 7 /\
  (L <- Lattice numF pi_d (TriangularLattice numF) [3; 4] true ;; GetNeighbors L 7) = Ok [11; 3; 4; 6; 10; 0] /\
  omapl (GetUnMappedSite (HyperCubicGrid [3; 4] true) 7) [4; 8; 1; 3; 7; 9] = Ok [11; 3; 4; 6; 10; 0].
Proof. split; [|split; [|split]]; vm_compute; reflexivity. Qed.

(** Moving both sites changes nothing. *)
Theorem C103_moved_pairs : forall (T : Type) (N : num T) (pi : T) (B : bravais T) size, lattice_ok B size ->
  exists L, Lattice N pi B size true = Ok L /\ forall t a b, valid_site size t -> valid_site size a -> valid_site size b ->
  exists a' b', GetUnMappedSite (l_grid L) t a = Ok a' /\ GetUnMappedSite (l_grid L) t b = Ok b' /\
  AreNeighbors L a' b' = AreNeighbors L a b /\ GetDistance L a' b' = GetDistance L a b /\ GetVector L a' b' = GetVector L a b.
Proof.
  intros T N pi B size H. eexists. split; [now apply lattice_built|]. intros t a b Ht Ha Hb.
  exists (moved size t a), (moved size t b). split; [now apply (moved_ok B size H)|]. split; [now apply (moved_ok B size H)|].
  split; [now apply are_moved|]. now apply distance_moved.
Qed.
Print Assumptions C103_moved_pairs.
Example C103_moved_pairs_ex :
  GetUnMappedSite (HyperCubicGrid [3; 4] true) 7 9 = Ok 0 /\ GetUnMappedSite (HyperCubicGrid [3; 4] true) 7 0 = Ok 7 /\
  (L <- Lattice numF pi_d (TriangularLattice numF) [3; 4] true ;; AreNeighbors L 9 0) = Ok true /\
  (L <- Lattice numF pi_d (TriangularLattice numF) [3; 4] true ;; AreNeighbors L 0 7) = Ok true.
Proof. split; [|split; [|split]]; vm_compute; reflexivity. Qed.

(** The distances and vectors to all sites are the same ones from everywhere. *)
Theorem C103_surroundings : forall (T : Type) (N : num T) (pi : T) (B : bravais T) size, lattice_ok B size ->
  exists L, Lattice N pi B size true = Ok L /\ forall a b, valid_site size a -> valid_site size b ->
  let sites := upto (GetNumSites (l_grid L)) in
  exists da va db vb, omapl (GetDistance L a) sites = Ok da /\ omapl (GetVector L a) sites = Ok va /\
  omapl (GetDistance L b) sites = Ok db /\ omapl (GetVector L b) sites = Ok vb /\ Permutation da db /\ Permutation va vb.
Proof.
  intros T N pi B size H. eexists. split; [now apply lattice_built|]. intros a b Ha Hb. cbv zeta.
  change (l_grid (built N pi B size true)) with (HyperCubicGrid size true). rewrite (proj1 (grid_sites size true (proj1 (proj2 (proj2 (proj2 H)))))).
  now apply surroundings.
Qed.
Print Assumptions C103_surroundings.
Definition vectors_ex (a : Z) : out (list (list Z)) :=
  L <- Lattice numF pi_d (SquareLattice numF) [2; 3] true ;; vs <- omapl (GetVector L a) (upto (GetNumSites (l_grid L))) ;;
  Ok (map (map (fun x : f64 => match BinarySingleNaN.B2SF x with
    | SpecFloat.S754_finite s m e => (if s then -1 else 1) * Z.shiftl (Zpos m) e | _ => 0 end)) vs).
Example C103_surroundings_ex :
  vectors_ex 0 = Ok [[0; 0]; [0; 1]; [0; -1]; [1; 0]; [1; 1]; [-1; -1]] /\
  vectors_ex 4 = Ok [[-1; -1]; [1; 0]; [1; 1]; [0; -1]; [0; 0]; [0; 1]].
Proof. split; vm_compute; reflexivity. Qed.

(** Open lattices are not like that: a corner has fewer neighbours. *)
Theorem C103_open_refuted :
  exists L, Lattice numF pi_d (SquareLattice numF) [3; 3] false = Ok L /\
  GetCoordination L 0 = Ok 2 /\ GetCoordination L 4 = Ok 4.
Proof. eexists. split; [apply lattice_built; standard_lattice|]. split; vm_compute; reflexivity. Qed.
Print Assumptions C103_open_refuted.
