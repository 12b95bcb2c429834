(** Properties of distances on closed triangular lattices. *)
From Coq Require Import ZArith Reals List Bool Lia Lra.
From Verif Require Import Base F64 Num S_Math S_Accum M_MathInt M_Grid M_Bravais M_Lattice S_Grid S_Bravais S_Lattice S_LatticeN S_Geom S_TriD
  L_Bravais L_Lattice L_Geom L_TriD.
Import ListNotations.
Open Scope Z_scope.

Ltac standard_lattice :=
  split; [lazymatch goal with
    | |- well_formed (TriangularLattice ?N) => exact (triangular_wf N) end|
  split; [reflexivity|split; [cbn; lia|split; [split; [repeat constructor; lia|vm_compute; reflexivity]|
  split; [reflexivity|repeat constructor; lia]]]]].

(** * C84 *)
Theorem C84_least_image : forall size,
  lattice_ok (TriangularLattice numR) size -> compact size ->
  exists L, Lattice numR PI (TriangularLattice numR) size true = Ok L /\ forall a b ca cb, valid_site size a -> valid_site size b ->
  GetCoordinates (l_grid L) a = Ok ca -> GetCoordinates (l_grid L) b = Ok cb ->
  exists q, least_hex size (zip_with Z.sub cb ca) q /\ GetDistance L a b = Ok (sqrt (IZR q)).
Proof. exact tri_closed_exact. Qed.
Print Assumptions C84_least_image.
Example C84_least_image_ex :
  lattice_ok (TriangularLattice numR) [6; 4] /\ compact [6; 4] /\ least_hex [6; 4] [3; 2] 7.
Proof.
  split; [standard_lattice|]. split; [cbn; lia|]. split; [exists [-1; 0]; split; reflexivity|].
  intros [|i [|j [|]]] L; try discriminate L. unfold image, hex_square. cbn [zip_with].
  set (x := 3 + i * 6). set (y := 2 + j * 4). assert (Z.abs x >= 3) by lia. assert (Z.abs y >= 2) by lia. clearbody x y.
  pose proof (Z.square_nonneg (x + y)). pose proof (Z.square_nonneg (x - y)). assert (x * x >= 9) by nia. assert (y * y >= 4) by nia. nia.
Qed.

Theorem C84_metric : forall size,
  lattice_ok (TriangularLattice numR) size -> compact size ->
  exists L d, Lattice numR PI (TriangularLattice numR) size true = Ok L /\
  (forall a b, valid_site size a -> valid_site size b ->
   GetDistance L a b = Ok (d a b) /\ d b a = d a b /\ (d a b = 0%R <-> a = b) /\ (a <> b -> 1 <= d a b)%R) /\
  (forall a b c, valid_site size a -> valid_site size b -> valid_site size c -> d a c <= d a b + d b c)%R.
Proof. exact tri_closed_metric. Qed.
Print Assumptions C84_metric.
Example C84_metric_ex : lattice_ok (TriangularLattice numR) [12; 7] /\ compact [12; 7].
Proof. split; [standard_lattice|cbn; lia]. Qed.

Theorem C84_doubles : forall size,
  lattice_ok (TriangularLattice numF) size -> compact size -> Forall (fun s => s <= 2 ^ 50) size ->
  exists L, Lattice numF pi_d (TriangularLattice numF) size true = Ok L /\ forall a b ca cb, valid_site size a -> valid_site size b ->
  GetCoordinates (l_grid L) a = Ok ca -> GetCoordinates (l_grid L) b = Ok cb ->
  exists q x, least_hex size (zip_with Z.sub cb ca) q /\ GetDistance L a b = Ok x /\ fin x /\
  let u := (/ IZR (2 ^ 53))%R in ((1 - u) ^ 5 * sqrt (IZR q) <= RR x <= (1 + u) ^ 5 * sqrt (IZR q))%R.
Proof. rewrite <- uro_val. exact tri_doubles. Qed.
Print Assumptions C84_doubles.
Example C84_doubles_ex :
  lattice_ok (TriangularLattice numF) [6; 4] /\ compact [6; 4] /\ Forall (fun s => s <= 2 ^ 50) [6; 4] /\
  (L <- Lattice numF pi_d (TriangularLattice numF) [6; 4] true ;; x <- GetDistance L 0 15 ;; Ok (feq x (fsqrt (of_Z 7)))) = Ok true.
Proof. split; [standard_lattice|]. split; [cbn; lia|]. split; [repeat constructor; lia|vm_compute; reflexivity]. Qed.

Theorem C84_neighbors : forall size,
  lattice_ok (TriangularLattice numF) size -> compact size -> Forall (fun s => 2 <= s <= 2 ^ 50) size ->
  exists L, Lattice numF pi_d (TriangularLattice numF) size true = Ok L /\ forall a b, valid_site size a -> valid_site size b ->
  exists r x, AreNeighbors L a b = Ok r /\ GetDistance L a b = Ok x /\ (r = true <-> (/ 2 < RR x < 3 / 2)%R) /\
  (a <> b -> (/ 2 < RR x)%R) /\ (a = b -> RR x = 0%R).
Proof. exact tri_neighbors_doubles. Qed.
Print Assumptions C84_neighbors.
Example C84_neighbors_ex :
  lattice_ok (TriangularLattice numF) [3; 5] /\ compact [3; 5] /\ Forall (fun s => 2 <= s <= 2 ^ 50) [3; 5] /\
  (L <- Lattice numF pi_d (TriangularLattice numF) [3; 5] true ;; r <- AreNeighbors L 0 14 ;; r' <- AreNeighbors L 0 4 ;; Ok (r, r')) = Ok (false, true).
Proof. split; [standard_lattice|]. split; [cbn; lia|]. split; [apply Forall_cons; [lia|apply Forall_cons; [lia|apply Forall_nil]]|vm_compute; reflexivity]. Qed.

Theorem C84_triangle_inequality : forall size,
  lattice_ok (TriangularLattice numF) size -> compact size -> Forall (fun s => s <= 2 ^ 50) size ->
  exists L, Lattice numF pi_d (TriangularLattice numF) size true = Ok L /\
  forall a b c, valid_site size a -> valid_site size b -> valid_site size c ->
  exists x y z w, GetDistance L a b = Ok x /\ GetDistance L b c = Ok y /\ GetDistance L a c = Ok z /\ GetDistance L b a = Ok w /\
  let u := (/ IZR (2 ^ 53))%R in
  ((1 - u) ^ 5 * RR z <= (1 + u) ^ 5 * (RR x + RR y))%R /\ ((1 - u) ^ 5 * RR w <= (1 + u) ^ 5 * RR x)%R.
Proof. rewrite <- uro_val. exact tri_triangle_doubles. Qed.
Print Assumptions C84_triangle_inequality.
Example C84_triangle_inequality_ex :
  lattice_ok (TriangularLattice numF) [1000; 2000] /\ compact [1000; 2000] /\ Forall (fun s => s <= 2 ^ 50) [1000; 2000].
Proof. split; [standard_lattice|]. split; [cbn; lia|repeat constructor; lia]. Qed.

(** An elongated lattice: the distance exceeds that of the nearest image, which is two periods away. *)
Theorem C84_elongated_refuted :
  exists size L x e, lattice_ok (TriangularLattice numF) size /\ Lattice numF pi_d (TriangularLattice numF) size true = Ok L /\
  GetCoordinates (l_grid L) 0 = Ok [0; 0] /\ GetCoordinates (l_grid L) 4 = Ok [4; 0] /\ GetDistance L 0 4 = Ok x /\
  hex_square (image size [4; 0] e) = 12 /\ flt (fdiv (of_Z 7) (of_Z 2)) x = true /\ (sqrt 12 < 7 / 2)%R.
Proof.
  assert (H : lattice_ok (TriangularLattice numF) [8; 1]) by standard_lattice.
  assert (P : (L <- Lattice numF pi_d (TriangularLattice numF) [8; 1] true ;; x <- GetDistance L 0 4 ;; Ok (flt (fdiv (of_Z 7) (of_Z 2)) x)) = Ok true) by (vm_compute; reflexivity).
  pose proof (lattice_built numF pi_d _ _ true H) as EL. rewrite EL in P. unfold bind at 1 in P.
  destruct (GetDistance (built numF pi_d (TriangularLattice numF) [8; 1] true) 0 4) as [x| | |] eqn:Ex; try discriminate P. unfold bind in P. injection P as P.
  exists [8; 1], (built numF pi_d (TriangularLattice numF) [8; 1] true), x, [0; -2]. split; [exact H|]. split; [exact EL|]. split; [reflexivity|]. split; [reflexivity|]. split; [exact Ex|].
  split; [reflexivity|]. split; [exact P|]. rewrite <- (sqrt_square (7 / 2)) by lra. apply sqrt_lt_1_alt. lra.
Qed.
Print Assumptions C84_elongated_refuted.
