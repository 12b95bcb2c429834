(** C102: structure factors, pair vectors, positions and correlations agree. *)
From Coq Require Import ZArith Reals List Bool Lia Lra.
From Verif Require Import Base F64 Num S_Math S_Accum M_MathInt M_Grid M_Bravais M_Lattice S_Grid S_Bravais S_Lattice S_Fourier S_Corr
  L_Bravais L_Lattice L_LatticeK L_Fourier L_Corr P_Fourier.
Import ListNotations.
Open Scope Z_scope.

(** What AccumulateSk adds is the transform of the pair vectors. *)
Theorem C102_pairs : forall B size occ sk mult,
  dual_momenta B size -> lattice_ok B size -> vsize occ = prodZ size -> vsize sk = prodZ size -> prodZ size < 2 ^ 32 ->
  exists L sk', Lattice numR PI B size true = Ok L /\ AccumulateSk numR sin cos L occ sk mult = Ok sk' /\
  forall i k v, valid_site size i -> GetMomentum L i = Ok k ->
  (forall a b, valid_site size a -> valid_site size b -> GetVector L a b = Ok (v a b)) ->
  (nth (Z.to_nat i) sk' 0 = nth (Z.to_nat i) sk 0 +
   mult * pair_transform occ (upto (prodZ size)) k v / IZR (prodZ size * prodZ size))%R.
Proof.
  intros B size occ sk mult D H Ho Hs Hlt. destruct (accumulated B size D H occ sk mult Ho Hs Hlt) as (sk' & E & A & _).
  exists (built numR PI B size true), sk'. split; [now apply lattice_built|]. split; [exact E|exact A].
Qed.
Print Assumptions C102_pairs.

(** It is the squared modulus of the transform of the positions, too. *)
Theorem C102_positions : forall B size occ sk mult,
  dual_momenta B size -> lattice_ok B size -> vsize occ = prodZ size -> vsize sk = prodZ size -> prodZ size < 2 ^ 32 ->
  exists L sk', Lattice numR PI B size true = Ok L /\ AccumulateSk numR sin cos L occ sk mult = Ok sk' /\
  forall i k x, valid_site size i -> GetMomentum L i = Ok k ->
  (forall a, valid_site size a -> GetPosition L a = Ok (x a)) ->
  (nth (Z.to_nat i) sk' 0 = nth (Z.to_nat i) sk 0 +
   mult * site_transform occ (upto (prodZ size)) k x / IZR (prodZ size * prodZ size))%R.
Proof.
  intros B size occ sk mult D H Ho Hs Hlt. destruct (accumulated B size D H occ sk mult Ho Hs Hlt) as (sk' & E & _ & A & _).
  exists (built numR PI B size true), sk'. split; [now apply lattice_built|]. split; [exact E|exact A].
Qed.
Print Assumptions C102_positions.

(** The transform of the structure factor gives back the correlations of the
    occupations: sites a with the sites as far from a as d is from 0. *)
Theorem C102_correlations : forall B size occ sk mult,
  dual_momenta B size -> lattice_ok B size -> vsize occ = prodZ size -> vsize sk = prodZ size -> prodZ size < 2 ^ 32 ->
  exists L sk', Lattice numR PI B size true = Ok L /\ AccumulateSk numR sin cos L occ sk mult = Ok sk' /\
  forall d v k g, valid_site size d -> GetVector L 0 d = Ok v ->
  (forall i, valid_site size i -> GetMomentum L i = Ok (k i)) ->
  (forall a, valid_site size a -> GetUnMappedSite (l_grid L) d a = Ok (g a)) ->
  (sumR (map (fun i => (nth (Z.to_nat i) sk' 0 - nth (Z.to_nat i) sk 0) * cos (dot (k i) v)) (upto (prodZ size))) =
   mult * correlation occ (upto (prodZ size)) g / IZR (prodZ size))%R.
Proof.
  intros B size occ sk mult D H Ho Hs Hlt. destruct (accumulated B size D H occ sk mult Ho Hs Hlt) as (sk' & E & _ & _ & A).
  exists (built numR PI B size true), sk'. split; [now apply lattice_built|]. split; [exact E|exact A].
Qed.
Print Assumptions C102_correlations.

(** Occupations 1,0,2,0 on a chain of four sites: correlation 4 with the second
    neighbours, and the tables asked for exist. *)
Example C102_example :
  dual_momenta (ChainLattice numR) [4] /\ lattice_ok (ChainLattice numR) [4] /\
  (exists L v k g, Lattice numR PI (ChainLattice numR) [4] true = Ok L /\ GetVector L 0 2 = Ok v /\
     (forall i, valid_site [4] i -> GetMomentum L i = Ok (k i)) /\
     (forall a, valid_site [4] a -> GetUnMappedSite (l_grid L) 2 a = Ok (g a)) /\
     correlation [1; 0; 2; 0]%R (upto 4) g = 4%R).
Proof.
  assert (H : lattice_ok (ChainLattice numR) [4]) by standard_lattice.
  split; [apply (C83_built_in [4] 4)|]. split; [exact H|].
  assert (V : forall a, valid_site [4] a <-> 0 <= a < 4) by (intros a; unfold valid_site; change (prodZ [4]) with 4; reflexivity).
  destruct (closed_distance numR PI (ChainLattice numR) [4] 0 2 H) as (_ & Ev & _); [now apply V..|].
  eexists _, _, (fun i => mom numR PI (ChainLattice numR) [4] (coords_of [4] i)), (fun a => (a + 2) mod 4).
  split; [apply lattice_built; exact H|]. split; [exact Ev|]. split; [intros i Hi; now apply momentum_built|]. split.
  - intros a Ha. apply (proj1 (V a)) in Ha. change (l_grid (built numR PI (ChainLattice numR) [4] true)) with (HyperCubicGrid [4] true).
    assert (a = 0 \/ a = 1 \/ a = 2 \/ a = 3) as [->|[->|[->| ->]]] by lia; vm_compute; reflexivity.
  - change (upto 4) with [0; 1; 2; 3]. unfold correlation, at_site, sumR. cbn. change (Pos.to_nat 1) with 1%nat. change (Pos.to_nat 2) with 2%nat. change (Pos.to_nat 3) with 3%nat. cbn. lra.
Qed.
