(** Property theorems C100 (jumps, vectors, distances, neighbours and walks agree).
    [steps_of] and [same_way] are those of S_Jump, [walk] is that of S_LatticeN. *)
From Coq Require Import ZArith Reals List Bool Lia Lra.
From Verif Require Import Base F64 Num S_Math S_Accum M_MathInt L_MathInt M_Grid M_Bravais M_Lattice S_Grid L_Grid S_Bravais S_Lattice S_LatticeN S_Geom
  L_Bravais L_Lattice L_LatticeD L_LatticeN L_LatticeV L_Geom S_Jump L_Jump.
Import ListNotations.
Open Scope Z_scope.

Ltac standard_lattice :=
  split; [lazymatch goal with
    | |- well_formed (ChainLattice ?N) => exact (chain_wf N) | |- well_formed (SquareLattice ?N) => exact (square_wf N)
    | |- well_formed (CubicLattice ?N) => exact (cubic_wf N) | |- well_formed (TriangularLattice ?N) => exact (triangular_wf N) end|
  split; [reflexivity|split; [cbn; lia|split; [split; [repeat constructor; lia|vm_compute; reflexivity]|
  split; [reflexivity|repeat constructor; lia]]]]].

(** On closed hyper-cubic lattices the vector between two sites is the jump between
    them, up to the direction of components that lead half way round, and the
    distance is the correctly rounded length of the jump. *)
Theorem C100_vector : forall B size,
  B = ChainLattice numF \/ B = SquareLattice numF \/ B = CubicLattice numF ->
  lattice_ok B size -> 4 * sum_squares size <= 2 ^ 53 ->
  exists L, Lattice numF pi_d B size true = Ok L /\ forall a b, valid_site size a -> valid_site size b ->
  exists v j x, GetVector L a b = Ok v /\ GetJump (l_grid L) a b = Ok j /\ GetDistance L a b = Ok x /\
  Forall3 (fun s y k => fin y /\ same_way s (RR y) k) size v j /\
  RR x = rnd (sqrt (IZR (sum_squares j))).
Proof.
  intros B size HB. apply vector_jump.
  destruct HB as [->|[->| ->]]; [apply (chain_unit numF)|apply (square_unit numF)|apply (cubic_unit numF)].
Qed.
Print Assumptions C100_vector.
Example C100_vector_ex :
  lattice_ok (SquareLattice numF) [5; 7] /\ 4 * sum_squares [5; 7] <= 2 ^ 53 /\ GetJump (HyperCubicGrid [5; 7] true) 0 33 = Ok [-1; -2] /\
  (L <- Lattice numF pi_d (SquareLattice numF) [5; 7] true ;; v <- GetVector L 0 33 ;;
   Ok (map (fun p => feq (fst p) (snd p)) (combine v (map of_Z [-1; -2])))) = Ok [true; true].
Proof. split; [standard_lattice|]. split; [cbn; lia|]. split; vm_compute; reflexivity. Qed.

(** The exception is needed: half way round in one direction, the vector points
    backwards when the other component crosses the boundary. *)
Theorem C100_half_way_refuted :
  exists size L v j, lattice_ok (SquareLattice numF) size /\ Lattice numF pi_d (SquareLattice numF) size true = Ok L /\
  valid_site size 0 /\ valid_site size 5 /\ GetVector L 0 5 = Ok v /\ GetJump (l_grid L) 0 5 = Ok j /\
  j = [-1; 1] /\ Forall2 (fun y k => feq y (of_Z k) = true) v [-1; -1].
Proof.
  assert (H : lattice_ok (SquareLattice numF) [3; 2]) by standard_lattice.
  assert (P : (L <- Lattice numF pi_d (SquareLattice numF) [3; 2] true ;; v <- GetVector L 0 5 ;;
    Ok (match v with [x; y] => feq x (of_Z (-1)) && feq y (of_Z (-1)) | _ => false end)) = Ok true) by (vm_compute; reflexivity).
  pose proof (lattice_built numF pi_d _ _ true H) as EL. rewrite EL in P. unfold bind at 1 in P.
  assert (G : l_grid (built numF pi_d (SquareLattice numF) [3; 2] true) = HyperCubicGrid [3; 2] true) by reflexivity.
  set (L := built numF pi_d (SquareLattice numF) [3; 2] true) in *. clearbody L.
  destruct (GetVector L 0 5) as [v| | |] eqn:Ev; try discriminate P. unfold bind in P.
  exists [3; 2], L, v, [-1; 1]. split; [exact H|]. split; [exact EL|]. split; [vm_compute; split; congruence|]. split; [vm_compute; split; congruence|].
  split; [exact Ev|]. split; [rewrite G; vm_compute; reflexivity|]. split; [reflexivity|].
  destruct v as [|x [|y [|]]]; try discriminate P. injection P as P. apply andb_prop in P as [P1 P2]. repeat constructor; assumption.
Qed.
Print Assumptions C100_half_way_refuted.

(** Shortest walks along neighbours take as many steps as the jump. *)
Theorem C100_walks : forall (T : Type) (N : num T) (pi : T) (B : bravais T) size cl,
  B = ChainLattice N \/ B = SquareLattice N \/ B = CubicLattice N -> lattice_ok B size -> small_sizes size ->
  exists L, Lattice N pi B size cl = Ok L /\ forall a b, valid_site size a -> valid_site size b ->
  exists j, GetJump (l_grid L) a b = Ok j /\ walk L (Z.to_nat (steps_of j)) a b /\
  forall n, walk L n a b -> steps_of j <= Z.of_nat n.
Proof.
  intros T N pi B size cl HB H S. apply walk_jump; [exact H|exact S|].
  destruct HB as [->|[->| ->]]; [apply chain_axis|apply square_axis|apply cubic_axis].
Qed.
Print Assumptions C100_walks.
Example C100_walks_ex : lattice_ok (CubicLattice numF) [3; 4; 5] /\ small_sizes [3; 4; 5] /\
  GetJump (HyperCubicGrid [3; 4; 5] true) 0 59 = Ok [-1; -1; -1] /\ steps_of [-1; -1; -1] = 3 /\
  GetJump (HyperCubicGrid [3; 4; 5] false) 0 59 = Ok [2; 3; 4].
Proof. split; [standard_lattice|]. split; [split; [repeat constructor; lia|vm_compute; reflexivity]|]. split; [|split]; vm_compute; reflexivity. Qed.

(** Neighbours are the sites one step away. *)
Theorem C100_neighbors : forall (T : Type) (N : num T) (pi : T) (B : bravais T) size cl,
  B = ChainLattice N \/ B = SquareLattice N \/ B = CubicLattice N -> lattice_ok B size -> small_sizes size ->
  (cl = true -> Forall (fun s => 2 <= s) size) ->
  exists L, Lattice N pi B size cl = Ok L /\ forall a b, valid_site size a -> valid_site size b ->
  exists j r, GetJump (l_grid L) a b = Ok j /\ AreNeighbors L a b = Ok r /\ (r = true <-> steps_of j = 1).
Proof.
  intros T N pi B size cl HB H S F. apply neighbors_jump; [exact H|exact S| |exact F].
  destruct HB as [->|[->| ->]]; [apply chain_axis|apply square_axis|apply cubic_axis].
Qed.
Print Assumptions C100_neighbors.
Example C100_neighbors_ex : lattice_ok (SquareLattice numF) [2; 4] /\ small_sizes [2; 4] /\ Forall (fun s => 2 <= s) [2; 4] /\
  GetJump (HyperCubicGrid [2; 4] true) 0 3 = Ok [0; -1] /\
  (L <- Lattice numF pi_d (SquareLattice numF) [2; 4] true ;; AreNeighbors L 0 3) = Ok true /\
  (L <- Lattice numF pi_d (SquareLattice numF) [2; 4] false ;; AreNeighbors L 0 3) = Ok false.
Proof.
  split; [standard_lattice|]. split; [split; [repeat constructor; lia|vm_compute; reflexivity]|]. split; [repeat constructor; lia|].
  split; [|split]; vm_compute; reflexivity.
Qed.

(** In one direction round a ring of one site, a neighbour is no step away. *)
Theorem C100_extent_one_refuted :
  exists L, Lattice numF pi_d (SquareLattice numF) [1; 4] true = Ok L /\ AreNeighbors L 0 0 = Ok true /\
  GetJump (l_grid L) 0 0 = Ok [0; 0].
Proof.
  assert (H : lattice_ok (SquareLattice numF) [1; 4]) by standard_lattice.
  assert (Q : (L <- Lattice numF pi_d (SquareLattice numF) [1; 4] true ;; AreNeighbors L 0 0) = Ok true) by (vm_compute; reflexivity).
  pose proof (lattice_built numF pi_d _ _ true H) as EL. rewrite EL in Q. unfold bind at 1 in Q.
  eexists. split; [exact EL|]. split; [exact Q|vm_compute; reflexivity].
Qed.
Print Assumptions C100_extent_one_refuted.
