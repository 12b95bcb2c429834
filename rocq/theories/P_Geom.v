(** Properties of vectors and distances between lattice points. *)
From Coq Require Import ZArith Reals List Bool Lia Lra.
From Verif Require Import Base F64 Num S_Math S_Accum M_MathInt M_Grid M_Bravais M_Lattice S_Grid S_Bravais S_Lattice S_LatticeN S_Geom
  L_Bravais L_Lattice L_LatticeD L_LatticeN L_LatticeV L_Geom.
Import ListNotations.
Open Scope Z_scope.

Ltac standard_lattice :=
  split; [lazymatch goal with
    | |- well_formed (ChainLattice ?N) => exact (chain_wf N) | |- well_formed (SquareLattice ?N) => exact (square_wf N)
    | |- well_formed (CubicLattice ?N) => exact (cubic_wf N) | |- well_formed (TriangularLattice ?N) => exact (triangular_wf N) end|
  split; [reflexivity|split; [cbn; lia|split; [split; [repeat constructor; lia|vm_compute; reflexivity]|
  split; [reflexivity|repeat constructor; lia]]]]].

(** * C80 *)
Theorem C80_minimum_image_vectors : forall B size,
  B = ChainLattice numF \/ B = SquareLattice numF \/ B = CubicLattice numF ->
  lattice_ok B size -> 4 * sum_squares size <= 2 ^ 53 ->
  exists L, Lattice numF pi_d B size true = Ok L /\ forall a b ca cb, valid_site size a -> valid_site size b ->
  GetCoordinates (l_grid L) a = Ok ca -> GetCoordinates (l_grid L) b = Ok cb ->
  exists v z x, GetVector L a b = Ok v /\ Forall2 (fun y k => fin y /\ RR y = IZR k) v z /\
  Forall3 (fun s d k => (s | k - d) /\ 2 * Z.abs k <= s) size (zip_with Z.sub cb ca) z /\
  GetDistance L a b = Ok x /\ RR x = rnd (sqrt (IZR (sum_squares z))).
Proof.
  intros B size HB. apply hypercubic_vector.
  destruct HB as [->|[->| ->]]; [apply (chain_unit numF)|apply (square_unit numF)|apply (cubic_unit numF)].
Qed.
Print Assumptions C80_minimum_image_vectors.
Example C80_minimum_image_vectors_ex :
  lattice_ok (SquareLattice numF) [4; 6] /\ 4 * sum_squares [4; 6] <= 2 ^ 53 /\
  Forall3 (fun s d k => (s | k - d) /\ 2 * Z.abs k <= s) [4; 6] (zip_with Z.sub [3; 5] [0; 1]) [-1; -2] /\
  (L <- Lattice numF pi_d (SquareLattice numF) [4; 6] true ;; v <- GetVector L 1 23 ;;
   Ok (map (fun p => feq (fst p) (snd p)) (combine v [of_Z (-1); of_Z (-2)]))) = Ok [true; true].
Proof.
  split; [standard_lattice|]. split; [cbn; lia|]. split; [|vm_compute; reflexivity].
  constructor; [split; [exists (-1); reflexivity|cbn; lia]|]. constructor; [split; [exists (-1); reflexivity|cbn; lia]|constructor].
Qed.

Theorem C80_back : forall B size,
  B = ChainLattice numF \/ B = SquareLattice numF \/ B = CubicLattice numF ->
  lattice_ok B size -> 4 * sum_squares size <= 2 ^ 53 ->
  exists L, Lattice numF pi_d B size true = Ok L /\ forall a b, valid_site size a -> valid_site size b ->
  exists v w, GetVector L a b = Ok v /\ GetVector L b a = Ok w /\
  Forall3 (fun s y y' => (2 * Rabs (RR y) < IZR s)%R /\ RR y' = (- RR y)%R \/
                         (2 * Rabs (RR y) = IZR s)%R /\ (2 * Rabs (RR y') = IZR s)%R) size v w.
Proof.
  intros B size HB. apply hypercubic_vector_back.
  destruct HB as [->|[->| ->]]; [apply (chain_unit numF)|apply (square_unit numF)|apply (cubic_unit numF)].
Qed.
Print Assumptions C80_back.
Example C80_back_ex :
  lattice_ok (CubicLattice numF) [3; 4; 5] /\ 4 * sum_squares [3; 4; 5] <= 2 ^ 53 /\
  (L <- Lattice numF pi_d (CubicLattice numF) [3; 4; 5] true ;; v <- GetVector L 0 31 ;; w <- GetVector L 31 0 ;;
   Ok (map (fun p => feq (fst p) (snd p)) (combine (v ++ w) (map of_Z [1; 2; 1; -1; -2; -1])))) = Ok [true; true; true; true; true; true].
Proof. split; [standard_lattice|]. split; [cbn; lia|vm_compute; reflexivity]. Qed.

(** Half an extent: both vectors point the same way. *)
Theorem C80_antisymmetric_refuted :
  exists size L v w, lattice_ok (ChainLattice numF) size /\ 4 * sum_squares size <= 2 ^ 53 /\
  Lattice numF pi_d (ChainLattice numF) size true = Ok L /\ GetVector L 0 2 = Ok v /\ GetVector L 2 0 = Ok w /\
  Forall2 (fun x y => feq x y = true /\ flt f0 x = true) v w /\ v <> [].
Proof.
  assert (H : lattice_ok (ChainLattice numF) [4]) by standard_lattice.
  assert (P : (L <- Lattice numF pi_d (ChainLattice numF) [4] true ;; v <- GetVector L 0 2 ;; w <- GetVector L 2 0 ;;
    Ok (match v, w with [x], [y] => feq x y && flt f0 x | _, _ => false end)) = Ok true) by (vm_compute; reflexivity).
  pose proof (lattice_built numF pi_d _ _ true H) as EL. rewrite EL in P. unfold bind at 1 in P.
  set (L := built numF pi_d (ChainLattice numF) [4] true) in *. clearbody L.
  destruct (GetVector L 0 2) as [v| | |] eqn:Ev; try discriminate P. unfold bind at 1 in P.
  destruct (GetVector L 2 0) as [w| | |] eqn:Ew; try discriminate P. unfold bind in P.
  destruct v as [|x [|? ?]]; try discriminate P. destruct w as [|y [|? ?]]; try discriminate P. injection P as P. apply andb_prop in P as [P1 P2].
  exists [4], L, [x], [y]. split; [exact H|]. split; [cbn; lia|]. split; [exact EL|]. split; [exact Ev|]. split; [exact Ew|].
  split; [|discriminate]. constructor; [split; [exact P1|exact P2]|constructor].
Qed.
Print Assumptions C80_antisymmetric_refuted.

(** * C81 *)
Theorem C81_triangle_inequality : forall B size,
  B = ChainLattice numF \/ B = SquareLattice numF \/ B = CubicLattice numF ->
  lattice_ok B size -> 4 * sum_squares size <= 2 ^ 53 ->
  exists L, Lattice numF pi_d B size true = Ok L /\ forall a b c, valid_site size a -> valid_site size b -> valid_site size c ->
  exists x y z, GetDistance L a b = Ok x /\ GetDistance L b c = Ok y /\ GetDistance L a c = Ok z /\
  ((1 - / IZR (2 ^ 53)) * RR z <= (1 + / IZR (2 ^ 53)) * (RR x + RR y))%R.
Proof.
  intros B size HB. rewrite <- uro_val. apply hypercubic_triangle.
  destruct HB as [->|[->| ->]]; [apply (chain_unit numF)|apply (square_unit numF)|apply (cubic_unit numF)].
Qed.
Print Assumptions C81_triangle_inequality.
Example C81_triangle_inequality_ex : lattice_ok (SquareLattice numF) [9; 9] /\ 4 * sum_squares [9; 9] <= 2 ^ 53.
Proof. split; [standard_lattice|cbn; lia]. Qed.

(** Without the allowance for rounding it fails: (0,0), (1,1), (4,4). *)
Theorem C81_exact_refuted :
  exists size L a b c x y z, lattice_ok (SquareLattice numF) size /\ Lattice numF pi_d (SquareLattice numF) size true = Ok L /\
  GetDistance L a b = Ok x /\ GetDistance L b c = Ok y /\ GetDistance L a c = Ok z /\ flt (fadd x y) z = true.
Proof.
  assert (H : lattice_ok (SquareLattice numF) [9; 9]) by standard_lattice.
  assert (P : (L <- Lattice numF pi_d (SquareLattice numF) [9; 9] true ;; x <- GetDistance L 0 10 ;; y <- GetDistance L 10 40 ;; z <- GetDistance L 0 40 ;;
    Ok (flt (fadd x y) z)) = Ok true) by (vm_compute; reflexivity).
  pose proof (lattice_built numF pi_d _ _ true H) as EL. rewrite EL in P. unfold bind at 1 in P.
  set (L := built numF pi_d (SquareLattice numF) [9; 9] true) in *. clearbody L.
  destruct (GetDistance L 0 10) as [x| | |] eqn:Ex; try discriminate P. unfold bind at 1 in P.
  destruct (GetDistance L 10 40) as [y| | |] eqn:Ey; try discriminate P. unfold bind at 1 in P.
  destruct (GetDistance L 0 40) as [z| | |] eqn:Ez; try discriminate P. unfold bind in P. injection P as P.
  exists [9; 9], L, 0, 10, 40, x, y, z. split; [exact H|]. split; [exact EL|]. split; [exact Ex|]. split; [exact Ey|]. split; [exact Ez|exact P].
Qed.
Print Assumptions C81_exact_refuted.

(** * C82 *)
Theorem C82_unit_spacing : forall B a b,
  B = ChainLattice numR \/ B = SquareLattice numR \/ B = CubicLattice numR \/ B = TriangularLattice numR ->
  vsize a = b_dim B -> vsize b = b_dim B -> Forall in_long (zip_with Z.sub b a) ->
  exists d, BGetDistance numR B a b = Ok d /\ (a = b /\ d = 0%R \/ a <> b /\ (1 <= d)%R) /\ (d = 1%R <-> In b (around B a)) /\
  NoDup (around B a) /\ vsize (around B a) = b_gamma B.
Proof.
  intros B a b HB. assert (S : spacing B); [|exact (S a b)].
  destruct HB as [->|[->|[->| ->]]].
  - apply unit_spacing; [apply (chain_unit numR)|apply chain_axis|apply chain_small].
  - apply unit_spacing; [apply (square_unit numR)|apply square_axis|apply square_small].
  - apply unit_spacing; [apply (cubic_unit numR)|apply cubic_axis|apply cubic_small].
  - apply tri_spacing.
Qed.
Print Assumptions C82_unit_spacing.
Example C82_unit_spacing_ex :
  around (TriangularLattice numR) [5; 7] = [[6; 7]; [4; 7]; [5; 8]; [5; 6]; [6; 6]; [4; 8]] /\
  Forall in_long (zip_with Z.sub [4; 8] [5; 7]) /\ b_gamma (CubicLattice numR) = 6.
Proof. split; [reflexivity|]. split; [repeat constructor; cbn; lia|reflexivity]. Qed.

Theorem C82_triangular_distance : forall a b,
  vsize a = 2 -> vsize b = 2 -> Forall in_long (zip_with Z.sub b a) ->
  BGetDistance numR (TriangularLattice numR) a b = Ok (sqrt (IZR (hex_square (zip_with Z.sub b a)))).
Proof. exact tri_exact. Qed.
Print Assumptions C82_triangular_distance.
Example C82_triangular_distance_ex : hex_square (zip_with Z.sub [3; 1] [1; 2]) = 3 /\ hex_square (zip_with Z.sub [3; 3] [1; 2]) = 7.
Proof. split; reflexivity. Qed.

Theorem C82_triangular_doubles : forall a b,
  vsize a = 2 -> vsize b = 2 -> Forall (fun z => Z.abs z <= 2 ^ 51) (zip_with Z.sub b a) ->
  exists x, BGetDistance numF (TriangularLattice numF) a b = Ok x /\ fin x /\
  let u := (/ IZR (2 ^ 53))%R in let r := sqrt (IZR (hex_square (zip_with Z.sub b a))) in
  ((1 - u) ^ 5 * r <= RR x <= (1 + u) ^ 5 * r)%R /\
  ((/ 2 < RR x < 3 / 2)%R <-> In b (around (TriangularLattice numF) a)).
Proof. rewrite <- uro_val. exact tri_distance_double. Qed.
Print Assumptions C82_triangular_doubles.
Example C82_triangular_doubles_ex :
  Forall (fun z => Z.abs z <= 2 ^ 51) (zip_with Z.sub [4; 8] [5; 7]) /\
  (x <- BGetDistance numF (TriangularLattice numF) [5; 7] [4; 8] ;; Ok (feq x f1)) = Ok false.
Proof. split; [repeat constructor; cbn; lia|vm_compute; reflexivity]. Qed.
