(** Property theorems C124 (energies of bonds and correlations along walks from structure
    factors).  [ends] and [band] are those of S_Count, [energy] that of S_Energy. *)
From Coq Require Import ZArith Reals List Bool Lia Lra.
From Verif Require Import Base F64 Num S_Math S_Accum M_MathInt L_MathInt M_Grid M_Bravais M_Lattice S_Grid L_Grid S_Bravais S_Lattice S_LatticeN S_Fourier
  L_Bravais L_Lattice L_LatticeN L_Sum L_LatticeK L_Fourier S_Bonds L_Bonds S_Energy L_Energy S_Route L_Route S_Diffuse L_Diffuse S_Count L_Count L_BondSk.
Import ListNotations.
Open Scope Z_scope.

Ltac standard_lattice :=
  split; [lazymatch goal with
    | |- well_formed (ChainLattice ?N) => exact (chain_wf N) | |- well_formed (SquareLattice ?N) => exact (square_wf N)
    | |- well_formed (CubicLattice ?N) => exact (cubic_wf N) | |- well_formed (TriangularLattice ?N) => exact (triangular_wf N) end|
  split; [reflexivity|split; [cbn; lia|split; [split; [repeat constructor; lia|vm_compute; reflexivity]|
  split; [reflexivity|repeat constructor; lia]]]]].

(** * C124 *)
(** What AccumulateSk adds, weighted with powers of the band, is the correlation of the
    occupations at the two ends of all walks of n hops. *)
Theorem C124_walks : forall B size occ sk mult,
  dual_momenta B size -> lattice_ok B size -> vsize occ = prodZ size -> vsize sk = prodZ size -> prodZ size < 2 ^ 32 ->
  exists L ds k sk', Lattice numR PI B size true = Ok L /\
  omapl (fun j => GetRealSpace numR B (displacement B j)) (upto (b_gamma B)) = Ok ds /\
  (forall i, valid_site size i -> GetMomentum L i = Ok (k i)) /\ AccumulateSk numR sin cos L occ sk mult = Ok sk' /\
  forall n, exists es : Z -> list Z, (forall a, valid_site size a -> ends L (b_gamma B) a n = Ok (es a)) /\
  let s a := nth (Z.to_nat a) occ 0%R in let sites := upto (prodZ size) in
  sumR (map (fun i => band ds (k i) ^ n * (nth (Z.to_nat i) sk' 0 - nth (Z.to_nat i) sk 0))%R sites) =
  (mult * sumR (map (fun a => s a * sumR (map s (es a))) sites) / IZR (prodZ size))%R.
Proof.
  intros B size occ sk mult D H Ho Hs Hlt. pose proof (dual_fourier B size D H) as FB. destruct (ok_dims _ _ H) as [Dm DS].
  destruct (increments B size H occ sk mult Ho Hs Hlt) as (sk' & E & _ & _ & I).
  exists (built numR PI B size true), (map (fun j => pv numR B (displacement B j)) (upto (b_gamma B))), (kvec B size), sk'.
  split; [now apply lattice_built|]. split.
  { apply omapl_pure. intros j Hj. apply upto_In in Hj. pose proof (disp_length B size H j Hj). rewrite real_space_pure; [reflexivity|apply H|unfold vsize; lia]. }
  split; [intros i Hi; now apply kvec_momentum|]. split; [exact E|]. intros n.
  exists (fun a => map (dest B size a) (sequences (b_gamma B) n)). split; [intros a Ha; now apply ends_spec|]. intros s sites.
  assert (Pp : 0 < prodZ size) by (apply (proj2 (grid_sites size true (Hok B size H)))). assert (P0 : IZR (prodZ size) <> 0%R) by (apply IZR_neq; lia).
  pose proof (intensities_and_walks B size H FB occ n Ho) as W. fold sites in W. fold s in W.
  transitivity (mult / IZR (prodZ size * prodZ size) * (IZR (prodZ size) * sumR (map (fun a => s a * sumR (map s (map (dest B size a) (sequences (b_gamma B) n)))) sites)))%R.
  - change (fun a => s a * sumR (map s (map (dest B size a) (sequences (b_gamma B) n))))%R with (fun a => nth (Z.to_nat a) occ 0 * sumR (map (fun a => nth (Z.to_nat a) occ 0) (map (dest B size a) (sequences (b_gamma B) n))))%R.
    rewrite <- W, <- sumR_scal. apply sumR_ext. intros i Hi. apply upto_In in Hi. rewrite (I i Hi). unfold sites, Rdiv. ring.
  - rewrite mult_IZR. field. exact P0.
Qed.
Print Assumptions C124_walks.
Example C124_walks_ex :
  dual_momenta (TriangularLattice numR) [4; 4] /\ lattice_ok (TriangularLattice numR) [4; 4] /\ vsize (map IZR (upto 16)) = prodZ [4; 4] /\
  vsize (repeat 1%R 16) = prodZ [4; 4] /\ prodZ [4; 4] < 2 ^ 32.
Proof. split; [right; split; [apply triangular_inverse|exists 4; repeat constructor]|]. split; [standard_lattice|]. repeat split. Qed.

(** One hop: the energy of the bonds with V(x, y) = x y. *)
Theorem C124_energy : forall B size occ sk mult,
  dual_momenta B size -> lattice_ok B size -> vsize occ = prodZ size -> vsize sk = prodZ size -> prodZ size < 2 ^ 32 ->
  exists L nn ds k sk', Lattice numR PI B size true = Ok L /\ omapl (GetNeighbors L) (upto (prodZ size)) = Ok nn /\
  omapl (fun j => GetRealSpace numR B (displacement B j)) (upto (b_gamma B)) = Ok ds /\
  (forall i, valid_site size i -> GetMomentum L i = Ok (k i)) /\ AccumulateSk numR sin cos L occ sk mult = Ok sk' /\
  sumR (map (fun i => band ds (k i) * (nth (Z.to_nat i) sk' 0 - nth (Z.to_nat i) sk 0))%R (upto (prodZ size))) =
  (2 * mult * energy Rmult nn (fun a => nth (Z.to_nat a) occ 0%R) / IZR (prodZ size))%R.
Proof.
  intros B size occ sk mult D H Ho Hs Hlt. destruct (C124_walks B size occ sk mult D H Ho Hs Hlt) as (L & ds & k & sk' & EL & Ed & Ek & Es & Q).
  pose proof EL as EL'. rewrite lattice_built in EL' by exact H. injection EL' as <-.
  exists (built numR PI B size true), (table B size true), ds, k, sk'. split; [exact EL|]. split; [now apply nn_table|]. split; [exact Ed|]. split; [exact Ek|]. split; [exact Es|].
  destruct (Q 1%nat) as (es & Ee & F). cbv zeta in F. rewrite (sumR_ext _ (fun i => band ds (k i) ^ 1 * (nth (Z.to_nat i) sk' 0 - nth (Z.to_nat i) sk 0))%R) by (intros; now rewrite pow_1).
  rewrite F. replace (2 * mult * energy Rmult (table B size true) (fun a => nth (Z.to_nat a) occ 0%R))%R
    with (mult * (2 * energy Rmult (table B size true) (fun a => nth (Z.to_nat a) occ 0%R)))%R by ring.
  rewrite (energy_of_products B size H occ). do 2 f_equal. apply sumR_ext. intros a Ha. apply upto_In in Ha.
  specialize (Ee a Ha). rewrite (ends_spec numR PI B size H a 1 Ha) in Ee. injection Ee as <-. reflexivity.
Qed.
Print Assumptions C124_energy.

Example C124_energy_ex :
  dual_momenta (SquareLattice numR) [2; 3] /\ lattice_ok (SquareLattice numR) [2; 3] /\ vsize [1; 0; 0; 2; 0; -1]%R = prodZ [2; 3] /\
  vsize (repeat 0%R 6) = prodZ [2; 3] /\ prodZ [2; 3] < 2 ^ 32 /\
  energy Rmult (table (SquareLattice numR) [2; 3] true) (fun a => nth (Z.to_nat a) [1; 0; 0; 2; 0; -1] 0)%R = 2%R.
Proof.
  split; [left; apply (square_unit numR)|]. split; [standard_lattice|]. split; [reflexivity|]. split; [reflexivity|]. split; [reflexivity|].
  assert (E : bonds (table (SquareLattice numR) [2; 3] true) =
    [(0, 3); (0, 3); (0, 1); (0, 2); (1, 4); (1, 4); (1, 2); (1, 0); (2, 5); (2, 5); (2, 0); (2, 1);
     (3, 0); (3, 0); (3, 4); (3, 5); (4, 1); (4, 1); (4, 5); (4, 3); (5, 2); (5, 2); (5, 3); (5, 4)]) by (vm_compute; reflexivity).
  unfold energy. rewrite E. unfold sumR. cbn [map fst snd fold_right].
  repeat match goal with |- context [nth ?n ?l 0%R] => let v := eval cbv [nth Z.to_nat Pos.to_nat Pos.iter_op Init.Nat.add] in (nth n l 0%R) in change (nth n l 0%R) with v end. lra.
Qed.
