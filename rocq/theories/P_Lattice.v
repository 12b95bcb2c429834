(** Properties of finite lattices. *)
From Coq Require Import ZArith Reals List Bool Lia Lra Ascii String.
From Verif Require Import Base F64 Num S_Math S_Accum M_MathInt M_Pairs M_Grid M_Bravais M_Text M_Util M_Obs M_Lattice
  S_Grid S_Bravais S_Obs S_Lattice S_LatticeF L_Grid L_MathF L_Bravais L_Obs L_Lattice L_LatticeD L_LatticeK L_LatticeF.
Import ListNotations.
Open Scope Z_scope.

(** The hypotheses hold for the lattices of the library with any extents that fit. *)
Ltac standard_lattice :=
  split; [lazymatch goal with
    | |- well_formed (ChainLattice ?N) => exact (chain_wf N) | |- well_formed (SquareLattice ?N) => exact (square_wf N)
    | |- well_formed (CubicLattice ?N) => exact (cubic_wf N) | |- well_formed (TriangularLattice ?N) => exact (triangular_wf N) end|
  split; [reflexivity|split; [cbn; lia|split; [split; [repeat constructor; lia|vm_compute; reflexivity]|
  split; [reflexivity|repeat constructor; lia]]]]].
Example lattice_ok_ex :
  lattice_ok (ChainLattice numF) [7] /\ lattice_ok (SquareLattice numF) [4; 6] /\ lattice_ok (CubicLattice numF) [2; 3; 5] /\
  lattice_ok (TriangularLattice numF) [3; 1000000].
Proof. split; [|split; [|split]]; standard_lattice. Qed.

(** * C34 *)
Theorem C34_neighbor_lists : forall (T : Type) (N : num T) (pi : T) (B : bravais T) size cl,
  lattice_ok B size ->
  exists L, Lattice N pi B size cl = Ok L /\ forall i, valid_site size i ->
  exists c nn, GetCoordinates (l_grid L) i = Ok c /\ GetNeighbors L i = Ok nn /\ GetCoordination L i = Ok (vsize nn) /\
  Forall (valid_site size) nn /\
  if cl then nn = map (fun p => row_major size (reduced_mod size p)) (around B c) /\ vsize nn = b_gamma B
  else nn = map (row_major size) (filter (inside size) (around B c)).
Proof. intros T N pi B size cl. exact (neighbor_lists N pi B size cl). Qed.
Print Assumptions C34_neighbor_lists.
Example C34_neighbor_lists_ex :
  (L <- Lattice numF pi_d (TriangularLattice numF) [3; 4] true ;; GetNeighbors L 0) = Ok [4; 8; 1; 3; 7; 9] /\
  (L <- Lattice numF pi_d (TriangularLattice numF) [3; 4] false ;; GetNeighbors L 0) = Ok [4; 1] /\
  around (TriangularLattice numF) [0; 0] = [[1; 0]; [-1; 0]; [0; 1]; [0; -1]; [1; -1]; [-1; 1]].
Proof. split; [|split]; vm_compute; reflexivity. Qed.

(** * C35 *)
Theorem C35_symmetric : forall (T : Type) (N : num T) (pi : T) (B : bravais T) size cl,
  lattice_ok B size ->
  exists L, Lattice N pi B size cl = Ok L /\ forall a b, valid_site size a -> valid_site size b ->
  exists r nn, AreNeighbors L a b = Ok r /\ AreNeighbors L b a = Ok r /\ GetNeighbors L a = Ok nn /\ (r = true <-> In b nn).
Proof. intros T N pi B size cl. exact (are_neighbors_sym N pi B size cl). Qed.
Print Assumptions C35_symmetric.
Example C35_symmetric_ex :
  (L <- Lattice numF pi_d (TriangularLattice numF) [3; 4] true ;; AreNeighbors L 0 9) = Ok true /\
  (L <- Lattice numF pi_d (TriangularLattice numF) [3; 4] true ;; AreNeighbors L 9 0) = Ok true /\
  (L <- Lattice numF pi_d (TriangularLattice numF) [3; 4] true ;; AreNeighbors L 0 2) = Ok false.
Proof. split; [|split]; vm_compute; reflexivity. Qed.

(** * C36 *)
Theorem C36_minimum_image : forall B size,
  B = ChainLattice numF \/ B = SquareLattice numF \/ B = CubicLattice numF ->
  lattice_ok B size -> 4 * sum_squares size <= 2 ^ 53 ->
  exists L, Lattice numF pi_d B size true = Ok L /\ forall a b ca cb, valid_site size a -> valid_site size b ->
  GetCoordinates (l_grid L) a = Ok ca -> GetCoordinates (l_grid L) b = Ok cb ->
  exists x, GetDistance L a b = Ok x /\ fin x /\
  RR x = rnd (sqrt (IZR (nearest_squares size (zip_with Z.sub cb ca)))) /\
  forall e, List.length e = List.length size -> (RR x <= rnd (sqrt (IZR (sum_squares (image size (zip_with Z.sub cb ca) e)))))%R.
Proof.
  intros B size HB H Hb.
  assert (U : unit_lattice f0 f1 B) by (destruct HB as [->|[->| ->]]; [apply (chain_unit numF)|apply (square_unit numF)|apply (cubic_unit numF)]).
  destruct (hypercubic_distance B size U H Hb) as (L & EL & P). exists L. split; [exact EL|]. intros a b ca cb Ha Hb' Ea Eb.
  destruct (P a b ca cb Ha Hb' Ea Eb) as (x & Ex & Fx & Rx). exists x. split; [exact Ex|]. split; [exact Fx|]. split; [exact Rx|].
  intros e Le. rewrite Rx. apply rnd_le, sqrt_IZR_le. pose proof H as (W & Hs & H40 & Hok & He & Hn).
  apply nearest_minimal; [now apply sizes_pos| |exact Le].
  rewrite lattice_built in EL by exact H. injection EL as <-. unfold built in Ea, Eb. cbn [l_grid] in Ea, Eb.
  rewrite grid_coords in Ea, Eb by assumption. injection Ea as <-. injection Eb as <-.
  destruct (coords_of_spec size a Hok Ha) as (_ & Ga & _). destruct (coords_of_spec size b Hok Hb') as (_ & Gb & _).
  rewrite zip_length, (on_grid_length _ _ Gb), ?(on_grid_length _ _ Ga). lia.
Qed.
Print Assumptions C36_minimum_image.
Example C36_minimum_image_ex :
  4 * sum_squares [4; 6] <= 2 ^ 53 /\ nearest_squares [4; 6] (zip_with Z.sub [3; 5] [0; 1]) = 1 + 4 /\
  (L <- Lattice numF pi_d (SquareLattice numF) [4; 6] true ;; x <- GetDistance L 1 23 ;; Ok (feq x (fsqrt (of_Z 5)))) = Ok true.
Proof. split; [cbn; lia|]. split; vm_compute; reflexivity. Qed.

Theorem C36_metric : forall B size,
  B = ChainLattice numF \/ B = SquareLattice numF \/ B = CubicLattice numF ->
  lattice_ok B size -> 4 * sum_squares size <= 2 ^ 53 ->
  exists L, Lattice numF pi_d B size true = Ok L /\ forall a b, valid_site size a -> valid_site size b ->
  exists x, GetDistance L a b = Ok x /\ GetDistance L b a = Ok x /\ (RR x = 0%R <-> a = b).
Proof.
  intros B size HB. apply hypercubic_metric.
  destruct HB as [->|[->| ->]]; [apply (chain_unit numF)|apply (square_unit numF)|apply (cubic_unit numF)].
Qed.
Print Assumptions C36_metric.
Example C36_metric_ex :
  (L <- Lattice numF pi_d (CubicLattice numF) [2; 3; 4] true ;; x <- GetDistance L 3 21 ;; y <- GetDistance L 21 3 ;; Ok (feq x y && flt f0 x)) = Ok true.
Proof. vm_compute. reflexivity. Qed.

(** Translations move neither distances nor vectors, for any lattice. *)
Theorem C36_translation_invariant : forall (T : Type) (N : num T) (pi : T) (B : bravais T) size,
  lattice_ok B size ->
  exists L, Lattice N pi B size true = Ok L /\ forall t a b a' b', valid_site size t -> valid_site size a -> valid_site size b ->
  GetUnMappedSite (l_grid L) t a = Ok a' -> GetUnMappedSite (l_grid L) t b = Ok b' ->
  GetDistance L a' b' = GetDistance L a b /\ GetVector L a' b' = GetVector L a b.
Proof. intros T N pi B size. exact (distance_translation N pi B size). Qed.
Print Assumptions C36_translation_invariant.
Example C36_translation_invariant_ex :
  GetUnMappedSite (HyperCubicGrid [4; 6] true) 8 1 = Ok 9 /\ GetUnMappedSite (HyperCubicGrid [4; 6] true) 8 23 = Ok 1 /\
  (L <- Lattice numF pi_d (TriangularLattice numF) [4; 6] true ;; x <- GetDistance L 1 23 ;; y <- GetDistance L 9 1 ;; Ok (feq x y && flt f1 x)) = Ok true.
Proof. split; [|split]; vm_compute; reflexivity. Qed.

(** * C37 *)
Theorem C37_minimum_over_shell : forall pi B size,
  lattice_ok B size ->
  exists L, Lattice numF pi B size true = Ok L /\ forall a b ca cb, valid_site size a -> valid_site size b ->
  GetCoordinates (l_grid L) a = Ok ca -> GetCoordinates (l_grid L) b = Ok cb ->
  let c := seen_from size ca cb in
  exists d v e0, GetDistance L a b = Ok d /\ GetVector L a b = Ok v /\ shell size e0 /\
  GetDistanceVector numF B (zeros size) (image size c e0) = Ok (d, v) /\
  forall e, shell size e -> exists d', BGetDistance numF B (zeros size) (image size c e) = Ok d' /\ flt d' d = false.
Proof. intros pi B size. exact (minimum_over_shell numF pi flt_trans flt_irrefl B size). Qed.
Print Assumptions C37_minimum_over_shell.
Example C37_minimum_over_shell_ex :
  seen_from [4; 6] [0; 1] [3; 5] = [3; 4] /\ shell [4; 6] [-1; -1] /\ image [4; 6] [3; 4] [-1; -1] = [-1; -2] /\
  (L <- Lattice numF pi_d (TriangularLattice numF) [4; 6] true ;; x <- GetDistance L 1 23 ;;
   y <- BGetDistance numF (TriangularLattice numF) [0; 0] [-1; -2] ;; z <- BGetDistance numF (TriangularLattice numF) [0; 0] [3; -2] ;;
   Ok (feq x y || feq x z)) = Ok true.
Proof. split; [reflexivity|]. split; [split; [reflexivity|repeat constructor; lia]|]. split; vm_compute; reflexivity. Qed.

(** A narrow triangular lattice: an image two periods away is strictly closer. *)
Theorem C37_all_images_refuted :
  exists size L s c e d d', Lattice numF pi_d (TriangularLattice numF) size true = Ok L /\ lattice_ok (TriangularLattice numF) size /\
  GetCoordinates (l_grid L) s = Ok c /\ GetDistance L 0 s = Ok d /\
  BGetDistance numF (TriangularLattice numF) (zeros size) (image size c e) = Ok d' /\ flt d' d = true.
Proof.
  destruct beyond_the_shell as (L & d & d' & EL & P). exists [1; 10], L, 5, [0; 5], [-2; 0], d, d'. split; [exact EL|]. split; [|exact P].
  standard_lattice.
Qed.
Print Assumptions C37_all_images_refuted.

Theorem C37_symmetric_refuted :
  exists size L a b x y, Lattice numF pi_d (TriangularLattice numF) size true = Ok L /\ lattice_ok (TriangularLattice numF) size /\
  valid_site size a /\ valid_site size b /\ GetDistance L a b = Ok x /\ GetDistance L b a = Ok y /\ flt y x = true.
Proof.
  destruct not_symmetric as (L & x & y & EL & P). exists [2; 11], L, 0, 16, x, y. split; [exact EL|]. split.
  - standard_lattice.
  - split; [unfold valid_site; cbn; lia|]. split; [unfold valid_site; cbn; lia|exact P].
Qed.
Print Assumptions C37_symmetric_refuted.

(** * C38 *)
Theorem C38_open_distances : forall (T : Type) (N : num T) (pi : T) (B : bravais T) size,
  lattice_ok B size ->
  exists L, Lattice N pi B size false = Ok L /\ forall a b ca cb, valid_site size a -> valid_site size b ->
  GetCoordinates (l_grid L) a = Ok ca -> GetCoordinates (l_grid L) b = Ok cb ->
  (Forall2 Z.le ca cb -> exists d v, GetDistanceVector N B ca cb = Ok (d, v) /\ GetDistance L a b = Ok d /\ GetVector L a b = Ok v) /\
  (prodZ size <= 2 ^ 63 -> b < a -> GetDistance L a b = UB /\ GetVector L a b = UB).
Proof. intros T N pi B size. exact (open_distance N pi B size). Qed.
Print Assumptions C38_open_distances.
Example C38_open_distances_ex :
  GetCoordinates (HyperCubicGrid [4; 6] false) 1 = Ok [0; 1] /\ GetCoordinates (HyperCubicGrid [4; 6] false) 23 = Ok [3; 5] /\
  Forall2 Z.le [0; 1] [3; 5] /\
  (L <- Lattice numF pi_d (SquareLattice numF) [4; 6] false ;; x <- GetDistance L 1 23 ;; Ok (feq x (of_Z 5))) = Ok true /\
  (L <- Lattice numF pi_d (SquareLattice numF) [4; 6] false ;; GetDistance L 23 1) = UB.
Proof. split; [vm_compute; reflexivity|]. split; [vm_compute; reflexivity|]. split; [repeat constructor; lia|]. split; vm_compute; reflexivity. Qed.

Theorem C38_unrelated_refuted :
  exists size L a b ca cb d d', Lattice numF pi_d (SquareLattice numF) size false = Ok L /\ a <= b /\
  GetCoordinates (l_grid L) a = Ok ca /\ GetCoordinates (l_grid L) b = Ok cb /\
  GetDistance L a b = Ok d /\ BGetDistance numF (SquareLattice numF) ca cb = Ok d' /\ flt d d' = true.
Proof.
  destruct open_unrelated as (L & d & d' & EL & P). exists [2; 2], L, 1, 2, [0; 1], [1; 0], d, d'. split; [exact EL|]. split; [lia|exact P].
Qed.
Print Assumptions C38_unrelated_refuted.

(** * C39 *)
Theorem C39_momenta : forall B size,
  B = ChainLattice numR \/ B = SquareLattice numR \/ B = CubicLattice numR -> lattice_ok B size ->
  exists L, Lattice numR PI B size true = Ok L /\ forall a c, valid_site size a -> GetCoordinates (l_grid L) a = Ok c ->
  GetMomentum L a = Ok (allowed size c).
Proof.
  intros B size HB. apply unit_momenta.
  destruct HB as [->|[->| ->]]; [apply (chain_unit numR)|apply (square_unit numR)|apply (cubic_unit numR)].
Qed.
Print Assumptions C39_momenta.
Example C39_momenta_ex : allowed [4; 6] [0; 5] = [2 * PI * (-2) / 4; 2 * PI * 2 / 6]%R /\ lattice_ok (SquareLattice numR) [4; 6].
Proof.
  split; [reflexivity|]. standard_lattice.
Qed.

Theorem C39_periods_and_distinct : forall B size,
  B = ChainLattice numR \/ B = SquareLattice numR \/ B = CubicLattice numR -> lattice_ok B size ->
  exists L, Lattice numR PI B size true = Ok L /\
  (forall a e, valid_site size a -> List.length e = List.length size -> exists m p z, GetMomentum L a = Ok m /\
     GetRealSpace numR B (zip_with Z.mul e size) = Ok p /\ dot m p = (2 * PI * IZR z)%R) /\
  (forall a b, valid_site size a -> valid_site size b -> GetMomentum L a = GetMomentum L b -> a = b).
Proof.
  intros B size HB. apply unit_periods.
  destruct HB as [->|[->| ->]]; [apply (chain_unit numR)|apply (square_unit numR)|apply (cubic_unit numR)].
Qed.
Print Assumptions C39_periods_and_distinct.
Example C39_periods_ex : zip_with Z.mul [1; -1] [4; 6] = [4; -6] /\ valid_site [4; 6] 5.
Proof. split; [reflexivity|]. unfold valid_site. cbn. lia. Qed.

(** With equal extents any lattice whose vectors are dual has allowed momenta. *)
Theorem C39_periods_equal_sizes : forall B size s,
  inverse_matrices B -> lattice_ok B size -> Forall (eq s) size ->
  exists L, Lattice numR PI B size true = Ok L /\
  forall a e, valid_site size a -> List.length e = List.length size -> exists m p z, GetMomentum L a = Ok m /\
     GetRealSpace numR B (zip_with Z.mul e size) = Ok p /\ dot m p = (2 * PI * IZR z)%R.
Proof. exact equal_periods. Qed.
Print Assumptions C39_periods_equal_sizes.
Example C39_periods_equal_sizes_ex : inverse_matrices (TriangularLattice numR) /\ lattice_ok (TriangularLattice numR) [6; 6] /\ Forall (eq 6) [6; 6].
Proof.
  split; [apply triangular_inverse|]. split; [|repeat constructor]. standard_lattice.
Qed.

Theorem C39_triangular_refuted :
  exists size L a e m p, Lattice numR PI (TriangularLattice numR) size true = Ok L /\ GetMomentum L a = Ok m /\
  GetRealSpace numR (TriangularLattice numR) (zip_with Z.mul e size) = Ok p /\ forall z, dot m p <> (2 * PI * IZR z)%R.
Proof.
  destruct triangular_momentum as (L & m & p & EL & Em & Ep & D). exists [2; 4], L, 2, [0; 1], m, p. split; [exact EL|]. split; [exact Em|]. split; [exact Ep|].
  intros z E. rewrite D in E. pose proof PI_RGT_0 as Pp. assert (F : (IZR (2 * z) = IZR (-1))%R) by (rewrite mult_IZR; apply (Rmult_eq_reg_l PI); lra).
  apply eq_IZR in F. lia.
Qed.
Print Assumptions C39_triangular_refuted.

Theorem C39_open_refuted : forall (T : Type) (N : num T) (pi : T) (B : bravais T) size,
  lattice_ok B size ->
  exists L, Lattice N pi B size false = Ok L /\ (forall a, 0 <= a -> GetMomentum L a = UB) /\
  (forall fmt wr fs fname, SaveMomenta fmt wr L fs fname = UB).
Proof. intros T N pi B size. exact (open_momentum N pi B size). Qed.
Print Assumptions C39_open_refuted.
Example C39_open_refuted_ex : (L <- Lattice numF pi_d (ChainLattice numF) [3] false ;; GetMomentum L 0) = UB.
Proof. vm_compute. reflexivity. Qed.

(** * C40 *)
Theorem C40_structure_factor : forall B size occ sk mult,
  lattice_ok B size -> vsize occ = prodZ size -> vsize sk = prodZ size -> prodZ size < 2 ^ 32 ->
  exists L sk' xs, Lattice numR PI B size true = Ok L /\ AccumulateSk numR sin cos L occ sk mult = Ok sk' /\ vsize sk' = prodZ size /\
  omapl (GetVector L 0) (upto (prodZ size)) = Ok xs /\
  forall i, valid_site size i -> exists k, GetMomentum L i = Ok k /\
  nth (Z.to_nat i) sk' 0%R = (nth (Z.to_nat i) sk 0 + mult * intensity occ k xs / IZR (prodZ size * prodZ size))%R.
Proof.
  intros B size occ sk mult H Ho Hs Hlt. destruct (structure_spec B size H occ sk mult Ho Hs Hlt) as (sk' & xs & P).
  exists (built numR PI B size true), sk', xs. split; [now apply lattice_built|exact P].
Qed.
Print Assumptions C40_structure_factor.
Example C40_structure_factor_ex :
  lattice_ok (SquareLattice numR) [2; 2] /\ vsize [1; 0; 2; 0]%R = prodZ [2; 2] /\ prodZ [2; 2] < 2 ^ 32 /\
  intensity [1; 2]%R [0; 0]%R [[0; 0]; [1; 0]]%R = 9%R.
Proof.
  split; [standard_lattice|]. split; [reflexivity|]. split; [reflexivity|].
  unfold intensity, dot, sumR. cbn [zip_with fold_right]. rewrite !Rmult_0_l, !Rplus_0_l, cos_0, sin_0. lra.
Qed.

(** The increments: their sign, bound, value at zero momentum and for an empty configuration. *)
Theorem C40_increment : forall B size occ sk mult,
  lattice_ok B size -> vsize occ = prodZ size -> vsize sk = prodZ size -> prodZ size < 2 ^ 32 ->
  exists L sk', Lattice numR PI B size true = Ok L /\ AccumulateSk numR sin cos L occ sk mult = Ok sk' /\
  forall i, valid_site size i -> let inc := (nth (Z.to_nat i) sk' 0 - nth (Z.to_nat i) sk 0)%R in
  ((0 <= mult)%R -> (0 <= inc <= mult * sum_abs occ ^ 2 / IZR (prodZ size * prodZ size))%R) /\
  (forall k, GetMomentum L i = Ok k -> Forall (eq 0%R) k -> inc = (mult * sumR occ ^ 2 / IZR (prodZ size * prodZ size))%R) /\
  (Forall (eq 0%R) occ -> inc = 0%R).
Proof.
  intros B size occ sk mult H Ho Hs Hlt. destruct (C40_structure_factor B size occ sk mult H Ho Hs Hlt) as (L & sk' & xs & EL & E & _ & Ex & P).
  exists L, sk'. split; [exact EL|]. split; [exact E|]. intros i Hi inc. destruct (P i Hi) as (k & Ek & Es).
  assert (Ei : inc = (mult * intensity occ k xs / IZR (prodZ size * prodZ size))%R) by (unfold inc; rewrite Es; ring).
  assert (N0 : (0 < IZR (prodZ size * prodZ size))%R) by (apply IZR_lt; unfold valid_site in Hi; nia).
  assert (Lx : List.length xs = List.length occ).
  { apply omapl_length in Ex. rewrite upto_length in Ex. unfold vsize in Ho. lia. }
  rewrite Ei. split; [|split].
  - intros Hm. pose proof (intensity_nonneg occ k xs). pose proof (intensity_bound k occ xs). unfold Rdiv. split.
    + apply Rmult_le_pos; [nra|]. left. now apply Rinv_0_lt_compat.
    + apply Rmult_le_compat_r; [left; now apply Rinv_0_lt_compat|]. nra.
  - intros k' Ek' F. rewrite Ek in Ek'. injection Ek' as <-. now rewrite intensity_zero_momentum by assumption.
  - intros F. rewrite intensity_empty by exact F. unfold Rdiv. ring.
Qed.
Print Assumptions C40_increment.

(** Zero momentum occurs: the site in the middle of the grid has it. *)
Theorem C40_zero_momentum : forall B size,
  lattice_ok B size ->
  exists L, Lattice numR PI B size true = Ok L /\ valid_site size (middle size) /\
  exists k, GetMomentum L (middle size) = Ok k /\ Forall (eq 0%R) k.
Proof. exact middle_momentum. Qed.
Print Assumptions C40_zero_momentum.
Example C40_zero_momentum_ex : middle [4; 6] = 15 /\ middle [3] = 1.
Proof. split; reflexivity. Qed.

(** ComputeSk starts from zeros; open lattices are left untouched. *)
Theorem C40_compute : forall B size cl occ mult,
  lattice_ok B size ->
  exists L, Lattice numR PI B size cl = Ok L /\
  (cl = true -> ComputeSk numR sin cos L occ mult = AccumulateSk numR sin cos L occ (repeat 0%R (Z.to_nat (prodZ size))) mult) /\
  (cl = false -> ComputeSk numR sin cos L occ mult = Ok (repeat 0%R (Z.to_nat (prodZ size))) /\
     forall sk, AccumulateSk numR sin cos L occ sk mult = Ok sk).
Proof.
  intros B size cl occ mult H. exists (built numR PI B size cl). split; [now apply lattice_built|].
  pose proof H as (W & Hs & H40 & Hok & He & Hn). destruct (grid_sites size cl Hok) as [En Pn].
  unfold ComputeSk, AccumulateSk, built. cbn [l_grid]. rewrite En. split; intros ->; cbn [HyperCubicGrid closed]; [reflexivity|split; reflexivity].
Qed.
Print Assumptions C40_compute.
Example C40_compute_ex : lattice_ok (ChainLattice numR) [3] /\ repeat 0%R (Z.to_nat (prodZ [3])) = [0; 0; 0]%R.
Proof. split; [|reflexivity]. standard_lattice. Qed.

(** * C41 *)
Theorem C41_site_files : forall (T : Type) (N : num T) (pi : T) (fmt : T -> list ascii) wr (B : bravais T) size cl,
  (forall x, clean (fmt x)) -> lattice_ok B size ->
  exists L p v m, Lattice N pi B size cl = Ok L /\
  (forall i, valid_site size i -> GetPosition L i = Ok (p i) /\ vsize (p i) = vsize size /\ GetVector L 0 i = Ok (v i) /\ vsize (v i) = vsize size /\
    (cl = true -> GetMomentum L i = Ok (m i) /\ vsize (m i) = vsize size)) /\
  forall fs fname, wr fname = true ->
  saved fs fname (SavePositions fmt wr L fs fname) (site_rows fmt "x" (vsize size) (prodZ size) p) /\
  saved fs fname (SaveDistances fmt wr L fs fname) (site_rows fmt "d" (vsize size) (prodZ size) v) /\
  (cl = true -> saved fs fname (SaveMomenta fmt wr L fs fname) (site_rows fmt "k" (vsize size) (prodZ size) m)).
Proof. intros T N pi fmt wr B size cl C. exact (save_sites N pi fmt wr C B size cl). Qed.
Print Assumptions C41_site_files.
Example C41_site_files_ex :
  let fmt (x : f64) := if flt x f0 then chars "-x" else chars "x.5" in
  (forall x, clean (fmt x)) /\
  (L <- Lattice numF pi_d (SquareLattice numF) [1; 2] true ;; fs <- SavePositions fmt (fun _ => true) L (fun _ => None) (chars "f") ;;
   Ok (fs (chars "f"))) = Ok (Some (chars "i,x0,x1" ++ [newline] ++ chars "0,x.5,x.5" ++ [newline] ++ chars "1,x.5,x.5" ++ [newline])).
Proof.
  split; [|vm_compute; reflexivity]. intros x. destruct (flt x f0); split; cbn; intuition discriminate.
Qed.

Theorem C41_pair_file : forall (T : Type) (N : num T) (pi : T) (fmt : T -> list ascii) wr (B : bravais T) size,
  (forall x, clean (fmt x)) -> lattice_ok B size -> prodZ size < 2 ^ 32 ->
  exists L v, Lattice N pi B size true = Ok L /\
  (forall a b, valid_site size a -> valid_site size b -> GetVector L a b = Ok (v a b) /\ vsize (v a b) = vsize size) /\
  forall fs fname, wr fname = true -> saved fs fname (SavePairs fmt wr L fs fname) (pair_rows fmt (vsize size) (prodZ size) v).
Proof. intros T N pi fmt wr B size C. exact (save_pairs N pi fmt wr C B size). Qed.
Print Assumptions C41_pair_file.
Example C41_pair_file_ex :
  let fmt (x : f64) := if flt x f0 then chars "-x" else chars "x.5" in
  (L <- Lattice numF pi_d (ChainLattice numF) [2] true ;; fs <- SavePairs fmt (fun _ => true) L (fun _ => None) (chars "f") ;;
   Ok (match fs (chars "f") with Some t => map (firstn 3) (table t) | None => [] end)) =
  Ok (map (map chars) [["i"; "a"; "b"]; ["0"; "0"; "0"]; ["1"; "1"; "0"]; ["2"; "0"; "1"]; ["3"; "1"; "1"]])%string.
Proof. vm_compute. reflexivity. Qed.

(** All rows of both tables are as long as the header. *)
Theorem C41_rectangular : forall (T : Type) (fmt : T -> list ascii) c d n (p : Z -> list T) (v : Z -> Z -> list T),
  0 <= d -> 0 < n -> (forall i, 0 <= i < n -> vsize (p i) = d) ->
  (forall a b, 0 <= a < n -> 0 <= b < n -> vsize (v a b) = d) ->
  Forall (fun r => vsize r = 1 + d) (site_rows fmt c d n p) /\ vsize (site_rows fmt c d n p) = 1 + n /\
  Forall (fun r => vsize r = 3 + 3 * d) (pair_rows fmt d n v) /\ vsize (pair_rows fmt d n v) = 1 + n * n.
Proof. intros T. exact (@rectangular T). Qed.
Print Assumptions C41_rectangular.

(** On an open lattice of more than one site SavePairs reads out of bounds. *)
Theorem C41_pairs_open_refuted : forall (T : Type) (N : num T) (pi : T) (B : bravais T) size,
  lattice_ok B size -> 1 < prodZ size < 2 ^ 32 ->
  exists L, Lattice N pi B size false = Ok L /\ forall fmt wr fs fname, SavePairs fmt wr L fs fname = UB.
Proof. intros T N pi B size. exact (save_pairs_open N pi B size). Qed.
Print Assumptions C41_pairs_open_refuted.
Example C41_pairs_open_refuted_ex : lattice_ok (ChainLattice numF) [2] /\ 1 < prodZ [2] < 2 ^ 32.
Proof. split; [|cbn; lia]. standard_lattice. Qed.
