(** Property theorems C127 (the partition function of the Ising model on closed chains). *)
From Coq Require Import ZArith Reals List Bool Lia Lra.
From Verif Require Import Base F64 Num S_Math S_Accum M_MathInt L_MathInt M_Grid M_Bravais M_Lattice S_Grid L_Grid S_Bravais S_Lattice S_LatticeN
  L_Bravais L_Lattice L_LatticeN L_Sum L_LatticeK S_Bonds L_Bonds S_Energy L_Energy S_Gauge L_Ising.
Import ListNotations.
Open Scope Z_scope.

Ltac standard_lattice :=
  split; [lazymatch goal with
    | |- well_formed (ChainLattice ?N) => exact (chain_wf N) | |- well_formed (SquareLattice ?N) => exact (square_wf N)
    | |- well_formed (CubicLattice ?N) => exact (cubic_wf N) | |- well_formed (TriangularLattice ?N) => exact (triangular_wf N) end|
  split; [reflexivity|split; [cbn; lia|split; [split; [repeat constructor; lia|vm_compute; reflexivity]|
  split; [reflexivity|repeat constructor; lia]]]]].

(** * C127 *)
Theorem C127_ising : forall (T : Type) (N : num T) (pi : T) n, lattice_ok (ChainLattice N) [n] ->
  exists L nn, Lattice N pi (ChainLattice N) [n] true = Ok L /\ omapl (GetNeighbors L) (upto n) = Ok nn /\
  forall K : R, sumR (map (fun s => exp (K * energy Rmult nn (value s))) (configurations (Z.to_nat n))) =
  ((2 * cosh K) ^ Z.to_nat n + (2 * sinh K) ^ Z.to_nat n)%R.
Proof.
  intros T N pi n H. exists (built N pi (ChainLattice N) [n] true), (table (ChainLattice N) [n] true). split; [now apply lattice_built|].
  assert (EP : prodZ [n] = n) by (cbn; lia). split.
  { rewrite <- EP at 2. now apply nn_table. }
  intros K. assert (pos : 0 < n). { destruct H as (_ & _ & _ & ok & _). pose proof (sizes_pos _ ok) as F. now inversion F. }
  destruct (Z.to_nat n) as [|m] eqn:Em; [lia|]. assert (En : n = Z.of_nat (S m)) by lia.
  assert (E : forall x l, length l = m -> energy Rmult (table (ChainLattice N) [n] true) (value (x :: l)) = around x x l).
  { intros x l Ll. rewrite (ring_energy N n H), around_ring, Ll, <- En. reflexivity. }
  cbn [configurations]. rewrite map_app, sumR_app, !map_map.
  rewrite (sumR_ext (fun x => exp (K * energy Rmult (table (ChainLattice N) [n] true) (value (1%R :: x)))) (fun l => exp (K * around 1 1 l)))
    by (intros l Hl; apply configurations_length in Hl; now rewrite E).
  rewrite (sumR_ext (fun x => exp (K * energy Rmult (table (ChainLattice N) [n] true) (value ((-1)%R :: x)))) (fun l => exp (K * around (-1) (-1) l)))
    by (intros l Hl; apply configurations_length in Hl; now rewrite E).
  rewrite !transfer by first [left; reflexivity | right; reflexivity]. field.
Qed.
Print Assumptions C127_ising.
Example C127_ising_ex : lattice_ok (ChainLattice numF) [7] /\ lattice_ok (ChainLattice numF) [1] /\ length (configurations 7) = 128%nat.
Proof. split; [standard_lattice|]. split; [standard_lattice|reflexivity]. Qed.

(** Open ends. *)
Theorem C127_open : forall (T : Type) (N : num T) (pi : T) n, lattice_ok (ChainLattice N) [n] ->
  exists L nn, Lattice N pi (ChainLattice N) [n] false = Ok L /\ omapl (GetNeighbors L) (upto n) = Ok nn /\
  forall K : R, sumR (map (fun s => exp (K * energy Rmult nn (value s))) (configurations (Z.to_nat n))) = (2 * (2 * cosh K) ^ Z.to_nat (n - 1))%R.
Proof.
  intros T N pi n H. exists (built N pi (ChainLattice N) [n] false), (table (ChainLattice N) [n] false). split; [now apply lattice_built|].
  assert (EP : prodZ [n] = n) by (cbn; lia). split.
  { rewrite <- EP at 2. now apply nn_table. }
  intros K. assert (pos : 0 < n). { destruct H as (_ & _ & _ & ok & _). pose proof (sizes_pos _ ok) as F. now inversion F. }
  destruct (Z.to_nat n) as [|m] eqn:Em; [lia|]. replace (Z.to_nat (n - 1)) with m by lia.
  assert (E : forall x l, length l = m -> energy Rmult (table (ChainLattice N) [n] false) (value (x :: l)) = around 0 x l).
  { intros x l Ll. apply (open_energy N n H). rewrite Ll. lia. }
  cbn [configurations]. rewrite map_app, sumR_app, !map_map.
  rewrite (sumR_ext (fun x => exp (K * energy Rmult (table (ChainLattice N) [n] false) (value (1%R :: x)))) (fun l => exp (K * around 0 1 l)))
    by (intros l Hl; apply configurations_length in Hl; now rewrite E).
  rewrite (sumR_ext (fun x => exp (K * energy Rmult (table (ChainLattice N) [n] false) (value ((-1)%R :: x)))) (fun l => exp (K * around 0 (-1) l)))
    by (intros l Hl; apply configurations_length in Hl; now rewrite E).
  rewrite !transfer_open by first [left; reflexivity | right; reflexivity]. ring.
Qed.
Print Assumptions C127_open.
Example C127_open_ex : lattice_ok (ChainLattice numF) [6] /\
  (L <- Lattice numF pi_d (ChainLattice numF) [6] false ;; omapl (GetNeighbors L) (upto 6))%out = Ok [[1]; [2; 0]; [3; 1]; [4; 2]; [5; 3]; [4]].
Proof. split; [standard_lattice|vm_compute; reflexivity]. Qed.
