(** Sum rule and symmetries of structure factors. *)
From Coq Require Import ZArith Reals List Bool Lia Lra.
From Verif Require Import Base F64 Num S_Math S_Accum M_MathInt M_Grid M_Bravais M_Lattice S_Grid S_Bravais S_Lattice S_Fourier
  L_Bravais L_Lattice L_LatticeK L_Fourier.
Import ListNotations.
Open Scope Z_scope.

Ltac standard_lattice :=
  split; [lazymatch goal with
    | |- well_formed (ChainLattice ?N) => exact (chain_wf N) | |- well_formed (SquareLattice ?N) => exact (square_wf N)
    | |- well_formed (CubicLattice ?N) => exact (cubic_wf N) | |- well_formed (TriangularLattice ?N) => exact (triangular_wf N) end|
  split; [reflexivity|split; [cbn; lia|split; [split; [repeat constructor; lia|vm_compute; reflexivity]|
  split; [reflexivity|repeat constructor; lia]]]]].

(** * C83 *)
Theorem C83_sum_rule : forall B size occ sk mult,
  dual_momenta B size -> lattice_ok B size -> vsize occ = prodZ size -> vsize sk = prodZ size -> prodZ size < 2 ^ 32 ->
  exists L sk', Lattice numR PI B size true = Ok L /\ AccumulateSk numR sin cos L occ sk mult = Ok sk' /\
  sumR sk' = (sumR sk + mult * sumR (map (fun n => n * n) occ) / IZR (prodZ size))%R.
Proof. intros B size occ sk mult D H. now apply sum_rule. Qed.
Print Assumptions C83_sum_rule.

(** The lattices meant. *)
Theorem C83_built_in : forall size s,
  dual_momenta (ChainLattice numR) size /\ dual_momenta (SquareLattice numR) size /\ dual_momenta (CubicLattice numR) size /\
  (Forall (eq s) size -> dual_momenta (TriangularLattice numR) size).
Proof.
  intros size s. split; [left; apply (chain_unit numR)|]. split; [left; apply (square_unit numR)|]. split; [left; apply (cubic_unit numR)|].
  intros F. right. split; [apply triangular_inverse|now exists s].
Qed.
Print Assumptions C83_built_in.
Example C83_sum_rule_ex :
  dual_momenta (TriangularLattice numR) [2; 2] /\ lattice_ok (TriangularLattice numR) [2; 2] /\
  vsize [1; 0; 2; 0]%R = prodZ [2; 2] /\ prodZ [2; 2] < 2 ^ 32 /\ sumR (map (fun n => n * n) [1; 0; 2; 0])%R = 5%R.
Proof.
  split; [apply (C83_built_in [2; 2] 2); repeat constructor|]. split; [standard_lattice|]. split; [reflexivity|]. split; [reflexivity|]. cbn. lra.
Qed.

(** Opposite momenta. *)
Theorem C83_opposite_momenta : forall B size occ sk mult,
  dual_momenta B size -> lattice_ok B size -> vsize occ = prodZ size -> vsize sk = prodZ size -> prodZ size < 2 ^ 32 ->
  exists L sk', Lattice numR PI B size true = Ok L /\ AccumulateSk numR sin cos L occ sk mult = Ok sk' /\
  forall i i' c c', valid_site size i -> valid_site size i' -> GetCoordinates (l_grid L) i = Ok c -> GetCoordinates (l_grid L) i' = Ok c' ->
  opposite_points size c c' ->
  (nth (Z.to_nat i') sk' 0 - nth (Z.to_nat i') sk 0 = nth (Z.to_nat i) sk' 0 - nth (Z.to_nat i) sk 0)%R /\
  exists k k', GetMomentum L i = Ok k /\ GetMomentum L i' = Ok k' /\
  forall d p, length d = length size -> GetRealSpace numR B d = Ok p -> exists z, dot k' p = (- dot k p + 2 * PI * IZR z)%R.
Proof. intros B size occ sk mult D H. now apply opposite_increments. Qed.
Print Assumptions C83_opposite_momenta.
Example C83_opposite_momenta_ex :
  opposite_points [4; 5] [1; 4] [3; 0] /\ opposite_points [4; 5] [0; 2] [0; 2] /\
  GetCoordinates (HyperCubicGrid [4; 5] true) 9 = Ok [1; 4] /\ GetCoordinates (HyperCubicGrid [4; 5] true) 15 = Ok [3; 0].
Proof.
  split; [|split; [|split; vm_compute; reflexivity]].
  - constructor; [exists 0; reflexivity|]. constructor; [exists 0; reflexivity|constructor].
  - constructor; [exists (-1); reflexivity|]. constructor; [exists 0; reflexivity|constructor].
Qed.

(** A constant added to all occupations is seen at zero momentum only, and a
    factor comes out squared; in particular a + (-1) n: occupied and empty
    sites exchanged. *)
Theorem C83_constant_background : forall B size occ sk mult a b,
  dual_momenta B size -> lattice_ok B size -> vsize occ = prodZ size -> vsize sk = prodZ size -> prodZ size < 2 ^ 32 ->
  exists L sk1 sk2, Lattice numR PI B size true = Ok L /\ AccumulateSk numR sin cos L occ sk mult = Ok sk1 /\
  AccumulateSk numR sin cos L (map (fun n => a + b * n)%R occ) sk mult = Ok sk2 /\
  forall i, valid_site size i -> i <> middle size ->
  (nth (Z.to_nat i) sk2 0 - nth (Z.to_nat i) sk 0 = b ^ 2 * (nth (Z.to_nat i) sk1 0 - nth (Z.to_nat i) sk 0))%R.
Proof. intros B size occ sk mult a b D H. now apply affine_increments. Qed.
Print Assumptions C83_constant_background.
Example C83_constant_background_ex : middle [4; 5] = 12 /\ valid_site [4; 5] 9 /\ map (fun n => 1 + -1 * n)%R [1; 0]%R = [0; 1]%R.
Proof. split; [reflexivity|]. split; [unfold valid_site; cbn; lia|]. cbn. f_equal; [lra|f_equal; lra]. Qed.

(** Moving all occupations by the displacement of site t. *)
Theorem C83_translation : forall B size occ occ' sk mult t,
  dual_momenta B size -> lattice_ok B size -> vsize occ = prodZ size -> vsize occ' = prodZ size -> vsize sk = prodZ size -> prodZ size < 2 ^ 32 ->
  valid_site size t ->
  exists L sk', Lattice numR PI B size true = Ok L /\ AccumulateSk numR sin cos L occ sk mult = Ok sk' /\
  ((forall j j', valid_site size j -> GetUnMappedSite (l_grid L) j t = Ok j' -> nth (Z.to_nat j') occ' 0%R = nth (Z.to_nat j) occ 0%R) ->
   AccumulateSk numR sin cos L occ' sk mult = Ok sk').
Proof. intros B size occ occ' sk mult t D H. now apply translated_increments. Qed.
Print Assumptions C83_translation.
Example C83_translation_ex :
  forall j j', valid_site [2; 3] j -> GetUnMappedSite (HyperCubicGrid [2; 3] true) j 4 = Ok j' ->
  nth (Z.to_nat j') [15; 13; 14; 12; 10; 11]%R 0%R = nth (Z.to_nat j) [10; 11; 12; 13; 14; 15]%R 0%R.
Proof.
  intros j j' Hj. unfold valid_site in Hj. cbn in Hj.
  assert (j = 0 \/ j = 1 \/ j = 2 \/ j = 3 \/ j = 4 \/ j = 5) as [->|[->|[->|[->|[->| ->]]]]] by lia;
  vm_compute GetUnMappedSite; intros E; injection E as <-; reflexivity.
Qed.

(** Triangular lattices with unequal extents break the sum rule. *)
Theorem C83_triangular_refuted :
  exists size occ sk L sk', lattice_ok (TriangularLattice numR) size /\ vsize occ = prodZ size /\ vsize sk = prodZ size /\
  Lattice numR PI (TriangularLattice numR) size true = Ok L /\ AccumulateSk numR sin cos L occ sk 1%R = Ok sk' /\
  sumR sk' <> (sumR sk + 1 * sumR (map (fun n => n * n) occ) / IZR (prodZ size))%R.
Proof. exact tri_sum_rule_fails. Qed.
Print Assumptions C83_triangular_refuted.
