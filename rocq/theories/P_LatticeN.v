(** Properties of the neighbour graph of finite lattices. *)
From Coq Require Import ZArith Reals List Bool Lia Lra.
From Verif Require Import Base F64 Num S_Math S_Accum M_MathInt M_Grid M_Bravais M_Lattice S_Grid S_Bravais S_Lattice S_LatticeN
  L_Bravais L_Lattice L_LatticeD L_LatticeN.
Import ListNotations.
Open Scope Z_scope.

Ltac standard_lattice :=
  split; [lazymatch goal with
    | |- well_formed (ChainLattice ?N) => exact (chain_wf N) | |- well_formed (SquareLattice ?N) => exact (square_wf N)
    | |- well_formed (CubicLattice ?N) => exact (cubic_wf N) | |- well_formed (TriangularLattice ?N) => exact (triangular_wf N) end|
  split; [reflexivity|split; [cbn; lia|split; [split; [repeat constructor; lia|vm_compute; reflexivity]|
  split; [reflexivity|repeat constructor; lia]]]]].

(** * C34: the coordination number of the lattice is that of site 0 *)
Theorem C34_coordination : forall (T : Type) (N : num T) (pi : T) (B : bravais T) size cl,
  lattice_ok B size ->
  exists L, Lattice N pi B size cl = Ok L /\
  exists nn, GetNeighbors L 0 = Ok nn /\ GetCoordination0 L = Ok (vsize nn) /\ GetCoordination0 L = GetCoordination L 0 /\
  if cl then vsize nn = b_gamma B else Z.of_nat (length (filter (inside size) (around B (zeros size)))) = vsize nn.
Proof. intros T N pi B size cl H. exact (coordination N pi B size H cl). Qed.
Print Assumptions C34_coordination.
Example C34_coordination_ex :
  (L <- Lattice numF pi_d (TriangularLattice numF) [3; 4] true ;; GetCoordination0 L) = Ok 6 /\
  (L <- Lattice numF pi_d (TriangularLattice numF) [3; 4] false ;; GetCoordination0 L) = Ok 2 /\
  (L <- Lattice numF pi_d (TriangularLattice numF) [3; 4] false ;; GetCoordination L 5) = Ok 6.
Proof. split; [|split]; vm_compute; reflexivity. Qed.

(** * C77 *)
Theorem C77_neighbors_at_distance_one : forall B size,
  B = ChainLattice numF \/ B = SquareLattice numF \/ B = CubicLattice numF ->
  lattice_ok B size -> 4 * sum_squares size <= 2 ^ 53 -> Forall (fun s => 2 <= s) size ->
  exists L, Lattice numF pi_d B size true = Ok L /\ forall a b, valid_site size a -> valid_site size b ->
  exists x r, GetDistance L a b = Ok x /\ AreNeighbors L a b = Ok r /\ (r = true <-> RR x = 1%R).
Proof.
  intros B size HB. apply neighbors_at_one.
  - destruct HB as [->|[->| ->]]; [apply (chain_unit numF)|apply (square_unit numF)|apply (cubic_unit numF)].
  - destruct HB as [->|[->| ->]]; [apply chain_axis|apply square_axis|apply cubic_axis].
Qed.
Print Assumptions C77_neighbors_at_distance_one.
Example C77_neighbors_at_distance_one_ex :
  lattice_ok (CubicLattice numF) [2; 3; 4] /\ 4 * sum_squares [2; 3; 4] <= 2 ^ 53 /\
  (L <- Lattice numF pi_d (CubicLattice numF) [2; 3; 4] true ;; x <- GetDistance L 3 15 ;; r <- AreNeighbors L 3 15 ;; Ok (feq x f1, r)) = Ok (true, true) /\
  (L <- Lattice numF pi_d (CubicLattice numF) [2; 3; 4] true ;; x <- GetDistance L 3 16 ;; r <- AreNeighbors L 3 16 ;; Ok (feq x f1, r)) = Ok (false, false).
Proof. split; [standard_lattice|]. split; [cbn; lia|]. split; vm_compute; reflexivity. Qed.

Theorem C77_extent_one_refuted :
  exists size L x, lattice_ok (SquareLattice numF) size /\ 4 * sum_squares size <= 2 ^ 53 /\
  Lattice numF pi_d (SquareLattice numF) size true = Ok L /\ GetDistance L 0 0 = Ok x /\ feq x f0 = true /\ AreNeighbors L 0 0 = Ok true.
Proof.
  assert (H : lattice_ok (SquareLattice numF) [1; 4]) by standard_lattice.
  assert (P : (L <- Lattice numF pi_d (SquareLattice numF) [1; 4] true ;; x <- GetDistance L 0 0 ;; Ok (feq x f0)) = Ok true) by (vm_compute; reflexivity).
  assert (Q : (L <- Lattice numF pi_d (SquareLattice numF) [1; 4] true ;; AreNeighbors L 0 0) = Ok true) by (vm_compute; reflexivity).
  pose proof (lattice_built numF pi_d _ _ true H) as EL. rewrite EL in P, Q. unfold bind at 1 in P. unfold bind at 1 in Q.
  set (L := built numF pi_d (SquareLattice numF) [1; 4] true) in *. clearbody L.
  destruct (GetDistance L 0 0) as [x| | |] eqn:Ex; try discriminate P. unfold bind in P.
  exists [1; 4], L, x. split; [exact H|]. split; [cbn; lia|]. split; [exact EL|]. split; [exact Ex|]. split; [congruence|exact Q].
Qed.
Print Assumptions C77_extent_one_refuted.

(** * C78 *)
Theorem C78_shortest_closed : forall (T : Type) (N : num T) (pi : T) (B : bravais T) size,
  B = ChainLattice N \/ B = SquareLattice N \/ B = CubicLattice N -> lattice_ok B size ->
  exists L, Lattice N pi B size true = Ok L /\ forall a b ca cb, valid_site size a -> valid_site size b ->
  GetCoordinates (l_grid L) a = Ok ca -> GetCoordinates (l_grid L) b = Ok cb ->
  walk L (Z.to_nat (ring_hops size ca cb)) a b /\ forall n, walk L n a b -> ring_hops size ca cb <= Z.of_nat n.
Proof.
  intros T N pi B size HB H. apply (shortest_closed N pi B size H).
  destruct HB as [->|[->| ->]]; [apply chain_axis|apply square_axis|apply cubic_axis].
Qed.
Print Assumptions C78_shortest_closed.
Example C78_shortest_closed_ex :
  lattice_ok (SquareLattice numF) [4; 6] /\ valid_site [4; 6] 1 /\ valid_site [4; 6] 23 /\
  GetCoordinates (HyperCubicGrid [4; 6] true) 1 = Ok [0; 1] /\ GetCoordinates (HyperCubicGrid [4; 6] true) 23 = Ok [3; 5] /\
  ring_hops [4; 6] [0; 1] [3; 5] = 3.
Proof.
  split; [standard_lattice|]. split; [unfold valid_site; cbn; lia|]. split; [unfold valid_site; cbn; lia|].
  split; [|split]; vm_compute; reflexivity.
Qed.

Theorem C78_shortest_open : forall (T : Type) (N : num T) (pi : T) (B : bravais T) size,
  B = ChainLattice N \/ B = SquareLattice N \/ B = CubicLattice N -> lattice_ok B size ->
  exists L, Lattice N pi B size false = Ok L /\ forall a b ca cb, valid_site size a -> valid_site size b ->
  GetCoordinates (l_grid L) a = Ok ca -> GetCoordinates (l_grid L) b = Ok cb ->
  walk L (Z.to_nat (axis_hops ca cb)) a b /\ forall n, walk L n a b -> axis_hops ca cb <= Z.of_nat n.
Proof.
  intros T N pi B size HB H. apply (shortest_open N pi B size H).
  destruct HB as [->|[->| ->]]; [apply chain_axis|apply square_axis|apply cubic_axis].
Qed.
Print Assumptions C78_shortest_open.
Example C78_shortest_open_ex :
  lattice_ok (CubicLattice numF) [2; 3; 5] /\ GetCoordinates (HyperCubicGrid [2; 3; 5] false) 29 = Ok [1; 2; 4] /\
  axis_hops [0; 0; 0] [1; 2; 4] = 7 /\ ring_hops [2; 3; 5] [0; 0; 0] [1; 2; 4] = 3.
Proof. split; [standard_lattice|]. split; [|split]; vm_compute; reflexivity. Qed.

Theorem C78_shortest_triangular_closed : forall (T : Type) (N : num T) (pi : T) size, lattice_ok (TriangularLattice N) size ->
  exists L, Lattice N pi (TriangularLattice N) size true = Ok L /\ forall a b ca cb, valid_site size a -> valid_site size b ->
  GetCoordinates (l_grid L) a = Ok ca -> GetCoordinates (l_grid L) b = Ok cb ->
  (forall e, length e = length size -> walk L (Z.to_nat (hex_hops ca (image size cb e))) a b) /\
  forall n, walk L n a b -> exists e, length e = length size /\ hex_hops ca (image size cb e) <= Z.of_nat n.
Proof. intros T N pi size. exact (tri_shortest_closed N pi size). Qed.
Print Assumptions C78_shortest_triangular_closed.
Example C78_shortest_triangular_closed_ex :
  lattice_ok (TriangularLattice numF) [4; 6] /\ hex_hops [0; 1] (image [4; 6] [3; 5] [-1; 0]) = 4 /\ hex_hops [0; 1] (image [4; 6] [3; 5] [0; -1]) = 3.
Proof. split; [standard_lattice|]. split; vm_compute; reflexivity. Qed.

Theorem C78_shortest_triangular_open : forall (T : Type) (N : num T) (pi : T) size, lattice_ok (TriangularLattice N) size ->
  exists L, Lattice N pi (TriangularLattice N) size false = Ok L /\ forall a b ca cb, valid_site size a -> valid_site size b ->
  GetCoordinates (l_grid L) a = Ok ca -> GetCoordinates (l_grid L) b = Ok cb ->
  walk L (Z.to_nat (hex_hops ca cb)) a b /\ forall n, walk L n a b -> hex_hops ca cb <= Z.of_nat n.
Proof. intros T N pi size. exact (tri_shortest_open N pi size). Qed.
Print Assumptions C78_shortest_triangular_open.
Example C78_shortest_triangular_open_ex :
  lattice_ok (TriangularLattice numF) [4; 6] /\ hex_hops [0; 5] [3; 1] = 4 /\ axis_hops [0; 5] [3; 1] = 7 /\ hex_hops [0; 0] [3; 1] = 4.
Proof. split; [standard_lattice|]. split; [|split]; vm_compute; reflexivity. Qed.

(** * C79 *)
Theorem C79_closed_lists : forall (T : Type) (N : num T) (pi : T) (B : bravais T) size,
  B = ChainLattice N \/ B = SquareLattice N \/ B = CubicLattice N \/ B = TriangularLattice N -> lattice_ok B size ->
  exists L, Lattice N pi B size true = Ok L /\ forall a, valid_site size a ->
  exists nn, GetNeighbors L a = Ok nn /\ (NoDup nn <-> Forall (fun s => 3 <= s) size) /\ (In a nn <-> Exists (eq 1) size).
Proof.
  intros T N pi B size HB H. apply (neighbor_lists_distinct N pi B size H) with (cl := true).
  destruct HB as [->|[->|[->| ->]]]; [apply chain_small|apply square_small|apply cubic_small|apply triangular_small].
Qed.
Print Assumptions C79_closed_lists.
Example C79_closed_lists_ex :
  (L <- Lattice numF pi_d (TriangularLattice numF) [3; 4] true ;; GetNeighbors L 0) = Ok [4; 8; 1; 3; 7; 9] /\
  (L <- Lattice numF pi_d (SquareLattice numF) [2; 4] true ;; GetNeighbors L 0) = Ok [4; 4; 1; 3] /\
  (L <- Lattice numF pi_d (SquareLattice numF) [1; 4] true ;; GetNeighbors L 0) = Ok [0; 0; 1; 3].
Proof. split; [|split]; vm_compute; reflexivity. Qed.

Theorem C79_open_lists : forall (T : Type) (N : num T) (pi : T) (B : bravais T) size,
  B = ChainLattice N \/ B = SquareLattice N \/ B = CubicLattice N \/ B = TriangularLattice N -> lattice_ok B size ->
  exists L, Lattice N pi B size false = Ok L /\ forall a, valid_site size a ->
  exists nn, GetNeighbors L a = Ok nn /\ NoDup nn /\ ~ In a nn.
Proof.
  intros T N pi B size HB H. apply (neighbor_lists_distinct N pi B size H) with (cl := false).
  destruct HB as [->|[->|[->| ->]]]; [apply chain_small|apply square_small|apply cubic_small|apply triangular_small].
Qed.
Print Assumptions C79_open_lists.
Example C79_open_lists_ex :
  (L <- Lattice numF pi_d (SquareLattice numF) [2; 4] false ;; GetNeighbors L 0) = Ok [4; 1] /\
  (L <- Lattice numF pi_d (SquareLattice numF) [1; 4] false ;; GetNeighbors L 0) = Ok [1].
Proof. split; vm_compute; reflexivity. Qed.
