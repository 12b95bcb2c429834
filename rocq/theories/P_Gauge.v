(** Property theorems C126 (magnets and antimagnets on bipartite lattices). *)
From Coq Require Import ZArith Reals List Bool Lia Lra.
From Verif Require Import Base F64 Num S_Math S_Accum M_MathInt L_MathInt M_Grid M_Bravais M_Lattice S_Grid L_Grid S_Bravais S_Lattice S_LatticeN
  L_Bravais L_Lattice L_LatticeN L_Sum L_LatticeK S_Bonds L_Bonds S_Energy L_Energy S_Colour S_Gauge L_Ising P_Colour.
Import ListNotations.
Open Scope Z_scope.

Ltac standard_lattice :=
  split; [lazymatch goal with
    | |- well_formed (ChainLattice ?N) => exact (chain_wf N) | |- well_formed (SquareLattice ?N) => exact (square_wf N)
    | |- well_formed (CubicLattice ?N) => exact (cubic_wf N) | |- well_formed (TriangularLattice ?N) => exact (triangular_wf N) end|
  split; [reflexivity|split; [cbn; lia|split; [split; [repeat constructor; lia|vm_compute; reflexivity]|
  split; [reflexivity|repeat constructor; lia]]]]].

(** The sign of a site: its sublattice. *)
Definition sign (c : list Z) : R := if Z.even (total c) then 1%R else (-1)%R.

Lemma sign_either c : sign c = 1%R \/ sign c = (-1)%R.
Proof. unfold sign. destruct (Z.even _); [now left|now right]. Qed.

Lemma zip_length (t : list R) : forall s, length s = length t -> length (zip_with Rmult t s) = length t.
Proof. induction t as [|x t IH]; intros [|y s] E; try discriminate E; [reflexivity|]. cbn [zip_with length]. injection E as E. now rewrite IH. Qed.

Lemma zip_nth (t : list R) : forall s k, length s = length t -> nth k (zip_with Rmult t s) 0%R = (nth k t 0 * nth k s 0)%R.
Proof. induction t as [|x t IH]; intros [|y s] k E; try discriminate E; [destruct k; cbn; ring|]. injection E as E. destruct k; cbn [zip_with nth]; [reflexivity|now apply IH]. Qed.

(** Multiplying with signs permutes the configurations. *)
Lemma flipped_sum t : Forall (fun x => x = 1 \/ x = -1)%R t -> forall F : list R -> R,
  sumR (map (fun s => F (zip_with Rmult t s)) (configurations (length t))) = sumR (map F (configurations (length t))).
Proof.
  induction 1 as [|x t Hx Ht IH]; intros F; [reflexivity|]. cbn [length configurations]. rewrite !map_app, !sumR_app, !map_map. cbn [zip_with].
  rewrite (IH (fun s => F ((x * 1)%R :: s))), (IH (fun s => F ((x * -1)%R :: s))). destruct Hx as [-> | ->].
  - replace (1 * 1)%R with 1%R by ring. replace (1 * -1)%R with (-1)%R by ring. reflexivity.
  - replace (-1 * 1)%R with (-1)%R by ring. replace (-1 * -1)%R with 1%R by ring. apply Rplus_comm.
Qed.

Lemma opposite (T : Type) (N : num T) (pi : T) (B : bravais T) size cl :
  B = ChainLattice N \/ B = SquareLattice N \/ B = CubicLattice N -> lattice_ok B size -> cl = false \/ Forall (fun s => (2 | s)) size ->
  forall s t : Z -> R, (forall a, valid_site size a -> t a = sign (coords_of size a) * s a)%R ->
  energy Rmult (table B size cl) t = (- energy Rmult (table B size cl) s)%R.
Proof.
  intros HB H HE s t Et. destruct (C115_checkerboard T N pi B size cl HB H HE) as (L & EL & Q).
  rewrite lattice_built in EL by exact H. injection EL as <-. assert (ok : sizes_ok size) by apply H.
  unfold energy, table, nbs. rewrite (bonds_map B size cl).
  rewrite (sumR_ext _ (fun p => -1 * (s (fst p) * s (snd p)))%R); [rewrite sumR_scal; lra|].
  intros [a b] I. apply in_flat_map in I. destruct I as (i & Hi & I). apply in_map_iff in I. destruct I as (b' & E & I). injection E as -> ->.
  apply upto_In in Hi. assert (Hb : valid_site size b) by exact (nn_valid N pi B size cl H a b Hi I). cbn [fst snd].
  specialize (Q a b (coords_of size a) (coords_of size b) Hi Hb). change (l_grid (built N pi B size cl)) with (HyperCubicGrid size cl) in Q.
  rewrite !grid_coords in Q by assumption. specialize (Q eq_refl eq_refl).
  assert (A : AreNeighbors (built N pi B size cl) a b = Ok true).
  { rewrite (are_in N pi B size cl) by exact Hi. f_equal. apply existsb_exists. exists b. split; [exact I|apply Z.eqb_refl]. }
  specialize (Q A). assert (E : Z.even (total (coords_of size a) + total (coords_of size b)) = false) by (rewrite Zeven_mod, Q; reflexivity).
  rewrite Z.even_add in E. rewrite !Et by assumption. unfold sign.
  destruct (Z.even (total (coords_of size a))), (Z.even (total (coords_of size b))); try discriminate E; ring.
Qed.

(** * C126 *)
(** Turning one sublattice over changes the sign of the energy. *)
Theorem C126_sublattice : forall (T : Type) (N : num T) (pi : T) (B : bravais T) size cl,
  B = ChainLattice N \/ B = SquareLattice N \/ B = CubicLattice N -> lattice_ok B size -> cl = false \/ Forall (fun s => (2 | s)) size ->
  exists L nn, Lattice N pi B size cl = Ok L /\ omapl (GetNeighbors L) (upto (prodZ size)) = Ok nn /\
  forall s t : Z -> R,
  (forall a c, valid_site size a -> GetCoordinates (l_grid L) a = Ok c -> t a = if Z.even (total c) then s a else - s a)%R ->
  energy Rmult nn t = (- energy Rmult nn s)%R.
Proof.
  intros T N pi B size cl HB H HE. exists (built N pi B size cl), (table B size cl). split; [now apply lattice_built|]. split; [now apply nn_table|].
  intros s t Et. apply (opposite T N pi B size cl HB H HE). intros a Ha. assert (ok : sizes_ok size) by apply H.
  rewrite (Et a (coords_of size a) Ha); [unfold sign; destruct (Z.even _); ring|].
  change (l_grid (built N pi B size cl)) with (HyperCubicGrid size cl). now apply grid_coords.
Qed.
Print Assumptions C126_sublattice.
Example C126_sublattice_ex : lattice_ok (CubicLattice numF) [2; 4; 2] /\ Forall (fun s => (2 | s)) [2; 4; 2] /\ lattice_ok (SquareLattice numF) [3; 5].
Proof. split; [standard_lattice|]. split; [|standard_lattice]. constructor; [now exists 1|constructor; [now exists 2|constructor; [now exists 1|constructor]]]. Qed.

(** Sums over all configurations, partition functions for instance, do not
    distinguish ferromagnets and antiferromagnets. *)
Theorem C126_partition : forall (T : Type) (N : num T) (pi : T) (B : bravais T) size cl,
  B = ChainLattice N \/ B = SquareLattice N \/ B = CubicLattice N -> lattice_ok B size -> cl = false \/ Forall (fun s => (2 | s)) size ->
  exists L nn, Lattice N pi B size cl = Ok L /\ omapl (GetNeighbors L) (upto (prodZ size)) = Ok nn /\
  forall f : R -> R,
  sumR (map (fun s => f (energy Rmult nn (value s))) (configurations (Z.to_nat (prodZ size)))) =
  sumR (map (fun s => f (- energy Rmult nn (value s))%R) (configurations (Z.to_nat (prodZ size)))).
Proof.
  intros T N pi B size cl HB H HE. exists (built N pi B size cl), (table B size cl). split; [now apply lattice_built|]. split; [now apply nn_table|].
  intros f. set (t := map (fun a => sign (coords_of size a)) (upto (prodZ size))).
  assert (Lt : Z.to_nat (prodZ size) = length t) by (unfold t; now rewrite map_length, upto_length). rewrite Lt.
  rewrite <- (flipped_sum t); [|unfold t; apply Forall_forall; intros x Hx; apply in_map_iff in Hx; destruct Hx as (a & <- & _); apply sign_either].
  apply sumR_ext. intros s Hs. apply configurations_length in Hs. f_equal.
  apply (opposite T N pi B size cl HB H HE). intros a Ha. unfold value. rewrite zip_nth by exact Hs. f_equal.
  rewrite (nth_indep _ 0%R (sign (coords_of size 0))) by (rewrite <- Lt; unfold valid_site in Ha; lia). unfold t.
  rewrite (map_nth (fun a => sign (coords_of size a))). unfold upto. rewrite (map_nth Z.of_nat _ 0%nat). rewrite seq_nth by (unfold valid_site in Ha; lia). cbn [Nat.add].
  rewrite Z2Nat.id by (unfold valid_site in Ha; lia). reflexivity.
Qed.
Print Assumptions C126_partition.
Example C126_partition_ex : lattice_ok (SquareLattice numF) [4; 2] /\ Forall (fun s => (2 | s)) [4; 2] /\ length (configurations 8) = 256%nat.
Proof. split; [standard_lattice|]. split; [constructor; [now exists 2|constructor; [now exists 1|constructor]]|reflexivity]. Qed.
