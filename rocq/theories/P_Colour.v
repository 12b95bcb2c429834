(** Property theorems C115 (sublattices: which lattices can be divided so that no two
    neighbours are in the same part).  Nothing else is proved here.  [colouring],
    [total] and [on_even] are those of S_Colour, [walk] is that of S_LatticeN. *)
From Coq Require Import ZArith Reals List Bool Lia.
From Verif Require Import Base F64 Num S_Math M_MathInt M_Grid M_Bravais M_Lattice S_Grid S_Bravais S_Lattice S_LatticeN S_Colour
  L_Bravais L_Lattice L_LatticeN L_Colour P_Lattice.
Import ListNotations.
Open Scope Z_scope.

Local Ltac axes HB := destruct HB as [->|[->| ->]]; [apply chain_axis|apply square_axis|apply cubic_axis].
Local Ltac closed_even HE := let E := fresh in intros E; destruct HE as [HE|HE]; [rewrite HE in E; discriminate E|exact HE].

(** On chain, square and cubic lattices that are open, or closed with even extents,
    the sums of the coordinates of two neighbours are of different parity. *)
Theorem C115_checkerboard : forall (T : Type) (N : num T) (pi : T) (B : bravais T) size cl,
  B = ChainLattice N \/ B = SquareLattice N \/ B = CubicLattice N -> lattice_ok B size ->
  cl = false \/ Forall (fun s => (2 | s)) size ->
  exists L, Lattice N pi B size cl = Ok L /\ forall a b ca cb, valid_site size a -> valid_site size b ->
  GetCoordinates (l_grid L) a = Ok ca -> GetCoordinates (l_grid L) b = Ok cb -> AreNeighbors L a b = Ok true ->
  (total ca + total cb) mod 2 = 1.
Proof.
  intros T N pi B size cl HB H HE. assert (X : axis_lattice B) by axes HB.
  eexists. split; [now apply lattice_built|]. intros a b ca cb Ha Hb Ea Eb E.
  change (l_grid (built N pi B size cl)) with (HyperCubicGrid size cl) in *.
  rewrite grid_coords in Ea, Eb by (apply H || assumption). injection Ea as <-. injection Eb as <-.
  apply (neighbor_parity N pi B size H cl a b X); [closed_even HE|assumption..].
Qed.
Print Assumptions C115_checkerboard.
Example C115_checkerboard_ex :
  lattice_ok (SquareLattice numF) [4; 6] /\ Forall (fun s => (2 | s)) [4; 6] /\
  (L <- Lattice numF pi_d (SquareLattice numF) [4; 6] true ;; AreNeighbors L 5 0)%out = Ok true /\
  (L <- Lattice numF pi_d (SquareLattice numF) [4; 6] true ;; GetCoordinates (l_grid L) 5)%out = Ok [0; 5].
Proof.
  split; [standard_lattice|]. split; [repeat constructor; [exists 2|exists 3]; reflexivity|]. split; vm_compute; reflexivity.
Qed.

(** These lattices are the only ones with two sublattices: if a closed chain, square or
    cubic lattice has an odd extent, neighbours cannot be told apart by two colours. *)
Theorem C115_two_colours : forall (T : Type) (N : num T) (pi : T) (B : bravais T) size cl,
  B = ChainLattice N \/ B = SquareLattice N \/ B = CubicLattice N -> lattice_ok B size ->
  exists L, Lattice N pi B size cl = Ok L /\
  ((exists f, colouring 2 L size f) <-> cl = false \/ Forall (fun s => (2 | s)) size).
Proof.
  intros T N pi B size cl HB H. assert (X : axis_lattice B) by axes HB.
  eexists. split; [now apply lattice_built|]. split.
  - intros [f C]. destruct cl; [right|now left]. exact (two_colours_even N pi B size H f X C).
  - intros HE. exists (fun a => total (coords_of size a) mod 2). split.
    + intros a _. apply Z.mod_pos_bound. lia.
    + intros a b Ha Hb E C. assert (P : (total (coords_of size a) + total (coords_of size b)) mod 2 = 1).
      { apply (neighbor_parity N pi B size H cl a b X); [closed_even HE|assumption..]. }
      Z.div_mod_to_equations. lia.
Qed.
Print Assumptions C115_two_colours.
Example C115_two_colours_ex :
  lattice_ok (SquareLattice numF) [4; 3] /\ ~ Forall (fun s => (2 | s)) [4; 3] /\ lattice_ok (ChainLattice numF) [1].
Proof.
  split; [standard_lattice|]. split; [|standard_lattice].
  intros F. inversion F as [|? ? _ F']; subst. inversion F' as [|? ? [k Hk] _]; subst. lia.
Qed.

(** A walker on such a lattice is on the one sublattice after an even number of hops
    and on the other after an odd number. *)
Theorem C115_walks : forall (T : Type) (N : num T) (pi : T) (B : bravais T) size cl,
  B = ChainLattice N \/ B = SquareLattice N \/ B = CubicLattice N -> lattice_ok B size ->
  cl = false \/ Forall (fun s => (2 | s)) size ->
  exists L, Lattice N pi B size cl = Ok L /\ forall n a b ca cb, valid_site size a -> valid_site size b ->
  GetCoordinates (l_grid L) a = Ok ca -> GetCoordinates (l_grid L) b = Ok cb -> walk L n a b ->
  Z.even (Z.of_nat n) = Bool.eqb (on_even ca) (on_even cb).
Proof.
  intros T N pi B size cl HB H HE. assert (X : axis_lattice B) by axes HB.
  eexists. split; [now apply lattice_built|]. intros n a b ca cb Ha Hb Ea Eb W.
  change (l_grid (built N pi B size cl)) with (HyperCubicGrid size cl) in *.
  rewrite grid_coords in Ea, Eb by (apply H || assumption). injection Ea as <-. injection Eb as <-.
  assert (P : (total (coords_of size a) + total (coords_of size b) + Z.of_nat n) mod 2 = 0).
  { apply (parity_walk N pi B size H cl n a b X); [closed_even HE|assumption..]. }
  rewrite Zmod_odd in P. destruct (Z.odd _) eqn:O; [discriminate P|]. rewrite !Z.odd_add, <- !Z.negb_even in O. unfold on_even.
  destruct (Z.even (total (coords_of size a))), (Z.even (total (coords_of size b))), (Z.even (Z.of_nat n)); cbn in *; congruence.
Qed.
Print Assumptions C115_walks.
Example C115_walks_ex :
  lattice_ok (ChainLattice numF) [4] /\ (exists L, Lattice numF pi_d (ChainLattice numF) [4] true = Ok L /\ walk L 2 1 3).
Proof.
  split; [standard_lattice|]. eexists. split; [apply lattice_built; standard_lattice|].
  eapply walk_hop with (b := 2); [vm_compute; reflexivity|vm_compute; tauto|].
  eapply walk_hop with (b := 3); [vm_compute; reflexivity|vm_compute; tauto|constructor].
Qed.

(** On closed chain, square and cubic lattices of even extents each sublattice has half of the sites. *)
Theorem C115_halves : forall (T : Type) (N : num T) (pi : T) (B : bravais T) size,
  B = ChainLattice N \/ B = SquareLattice N \/ B = CubicLattice N -> lattice_ok B size -> Forall (fun s => (2 | s)) size ->
  exists L cs, Lattice N pi B size true = Ok L /\
  omapl (GetCoordinates (l_grid L)) (upto (GetNumSites (l_grid L))) = Ok cs /\
  2 * vsize (filter on_even cs) = GetNumSites (l_grid L) /\ 2 * vsize (filter (fun c => negb (on_even c)) cs) = GetNumSites (l_grid L).
Proof.
  intros T N pi B size HB H HE. assert (X : axis_lattice B) by axes HB.
  pose proof (proj1 (proj2 (proj2 (proj2 H)))) as ok.
  eexists _, (map (coords_of size) (upto (prodZ size))). split; [now apply lattice_built|].
  change (l_grid (built N pi B size true)) with (HyperCubicGrid size true). rewrite (proj1 (grid_sites size true ok)).
  split.
  { apply omapl_pure. intros a Ha. apply upto_In in Ha. now apply grid_coords. }
  destruct (halves N pi B size H X HE) as [E O].
  assert (M : forall p, vsize (filter p (map (coords_of size) (upto (prodZ size)))) = vsize (filter (fun a => p (coords_of size a)) (upto (prodZ size)))).
  { intros p. unfold vsize. f_equal. generalize (upto (prodZ size)). clear. intros l. induction l as [|x l IH]; [reflexivity|].
    cbn [map filter]. destruct (p (coords_of size x)); cbn [length]; congruence. }
  rewrite !M. now split.
Qed.
Print Assumptions C115_halves.
Example C115_halves_ex :
  lattice_ok (CubicLattice numF) [2; 4; 2] /\ Forall (fun s => (2 | s)) [2; 4; 2] /\
  filter on_even [[0; 0]; [1; 0]; [0; 1]; [1; 1]] = [[0; 0]; [1; 1]].
Proof. split; [standard_lattice|]. split; [repeat constructor; [exists 1|exists 2|exists 1]; reflexivity|reflexivity]. Qed.

(** Triangular lattices have three sublattices if they are open or if both extents are
    multiples of three, and not otherwise. *)
Theorem C115_three_colours : forall (T : Type) (N : num T) (pi : T) size cl, lattice_ok (TriangularLattice N) size ->
  exists L, Lattice N pi (TriangularLattice N) size cl = Ok L /\
  ((exists f, colouring 3 L size f) <-> cl = false \/ Forall (fun s => (3 | s)) size).
Proof.
  intros T N pi size cl H. eexists. split; [now apply lattice_built|]. split.
  - intros [f C]. destruct cl; [right|now left]. exact (three_colours_three N pi size f H C).
  - intros HE. exists (fun a => weigh [1; -1] (coords_of size a) mod 3). split.
    + intros a _. apply Z.mod_pos_bound. lia.
    + intros a b Ha Hb E C. destruct (neighbor_weight N pi (TriangularLattice N) size H cl 3 [1; -1] a b) as (d & Hd & [k Hk]);
        [closed_even HE|symmetry; now apply (tri_size N)|exact Ha|exact E|].
      apply (tri_weight N d Hd). exists (weigh [1; -1] (coords_of size b) / 3 - weigh [1; -1] (coords_of size a) / 3 - k).
      Z.div_mod_to_equations. lia.
Qed.
Print Assumptions C115_three_colours.
Example C115_three_colours_ex :
  lattice_ok (TriangularLattice numF) [6; 3] /\ Forall (fun s => (3 | s)) [6; 3] /\ lattice_ok (TriangularLattice numF) [4; 3].
Proof. split; [standard_lattice|]. split; [repeat constructor; [exists 2|exists 1]; reflexivity|standard_lattice]. Qed.

(** Which sublattice: the difference of the coordinates modulo three. *)
Theorem C115_three_sublattices : forall (T : Type) (N : num T) (pi : T) size cl, lattice_ok (TriangularLattice N) size ->
  cl = false \/ Forall (fun s => (3 | s)) size ->
  exists L, Lattice N pi (TriangularLattice N) size cl = Ok L /\ forall a b x y x' y', valid_site size a -> valid_site size b ->
  GetCoordinates (l_grid L) a = Ok [x; y] -> GetCoordinates (l_grid L) b = Ok [x'; y'] -> AreNeighbors L a b = Ok true ->
  (x - y) mod 3 <> (x' - y') mod 3.
Proof.
  intros T N pi size cl H HE. eexists. split; [now apply lattice_built|]. intros a b x y x' y' Ha Hb Ea Eb E C.
  change (l_grid (built N pi (TriangularLattice N) size cl)) with (HyperCubicGrid size cl) in *.
  rewrite grid_coords in Ea, Eb by (apply H || assumption). injection Ea as Ea. injection Eb as Eb.
  destruct (neighbor_weight N pi (TriangularLattice N) size H cl 3 [1; -1] a b) as (d & Hd & [k Hk]);
    [closed_even HE|symmetry; now apply (tri_size N)|exact Ha|exact E|].
  apply (tri_weight N d Hd). rewrite Ea, Eb in Hk. generalize dependent (weigh [1; -1] d). intros w Hk. cbn [weigh] in Hk. exists ((x' - y') / 3 - (x - y) / 3 - k).
  Z.div_mod_to_equations. lia.
Qed.
Print Assumptions C115_three_sublattices.
Example C115_three_sublattices_ex :
  (L <- Lattice numF pi_d (TriangularLattice numF) [3; 3] true ;; AreNeighbors L 0 5)%out = Ok true /\
  (L <- Lattice numF pi_d (TriangularLattice numF) [3; 3] true ;; GetCoordinates (l_grid L) 5)%out = Ok [1; 2].
Proof. split; vm_compute; reflexivity. Qed.

(** Two sublattices are never enough for a triangular lattice with extents of at least two. *)
Theorem C115_triangular_not_two : forall (T : Type) (N : num T) (pi : T) size cl, lattice_ok (TriangularLattice N) size ->
  Forall (fun s => 2 <= s) size ->
  exists L, Lattice N pi (TriangularLattice N) size cl = Ok L /\ forall f, ~ colouring 2 L size f.
Proof.
  intros T N pi size cl H F. eexists. split; [now apply lattice_built|]. intros f [C P].
  destruct (tri_triangle N pi size cl H F) as (a & b & c & Va & Vb & Vc & E1 & E2 & E3).
  pose proof (P a b Va Vb E1). pose proof (P a c Va Vc E2). pose proof (P c b Vc Vb E3).
  pose proof (C a Va). pose proof (C b Vb). pose proof (C c Vc). lia.
Qed.
Print Assumptions C115_triangular_not_two.
Example C115_triangular_not_two_ex : lattice_ok (TriangularLattice numF) [2; 5] /\ Forall (fun s => 2 <= s) [2; 5].
Proof. split; [standard_lattice|repeat constructor; lia]. Qed.
