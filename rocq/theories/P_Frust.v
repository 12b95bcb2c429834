(** Property theorems C125 (bounds on energies of bonds, and frustration on triangular
    lattices).  [energy] is that of S_Energy. *)
From Coq Require Import ZArith Reals List Bool Lia Lra Permutation.
From Verif Require Import Base F64 Num S_Math S_Accum M_MathInt L_MathInt M_Grid M_Bravais M_Lattice S_Grid L_Grid S_Bravais S_Lattice S_LatticeN
  L_Bravais L_Lattice L_LatticeN L_Sum L_LatticeK L_Fourier S_Bonds L_Bonds S_Energy L_Energy S_Colour S_Route L_Route S_Diffuse L_Diffuse S_Count L_Count L_Frust P_Colour.
Import ListNotations.
Open Scope Z_scope.

Ltac standard_lattice :=
  split; [lazymatch goal with
    | |- well_formed (ChainLattice ?N) => exact (chain_wf N) | |- well_formed (SquareLattice ?N) => exact (square_wf N)
    | |- well_formed (CubicLattice ?N) => exact (cubic_wf N) | |- well_formed (TriangularLattice ?N) => exact (triangular_wf N) end|
  split; [reflexivity|split; [cbn; lia|split; [split; [repeat constructor; lia|vm_compute; reflexivity]|
  split; [reflexivity|repeat constructor; lia]]]]].

(** * C125 *)
(** Values between -1 and 1: at most the number of bonds either way; equal values reach it. *)
Theorem C125_bounds : forall (T : Type) (N : num T) (pi : T) (B : bravais T) size, lattice_ok B size ->
  exists L nn, Lattice N pi B size true = Ok L /\ omapl (GetNeighbors L) (upto (prodZ size)) = Ok nn /\
  (forall s : Z -> R, (forall a, Rabs (s a) <= 1)%R -> (Rabs (2 * energy Rmult nn s) <= IZR (b_gamma B) * IZR (prodZ size))%R) /\
  (2 * energy Rmult nn (fun _ => 1%R) = IZR (b_gamma B) * IZR (prodZ size))%R.
Proof.
  intros T N pi B size H. exists (built N pi B size true), (table B size true). split; [now apply lattice_built|]. split; [now apply nn_table|].
  assert (Lg : INR (length (upto (b_gamma B))) = IZR (b_gamma B)) by (rewrite upto_length, INR_IZR_INZ, Z2Nat.id by apply H; reflexivity). split.
  - intros s U. rewrite (energy_by_direction B size H). apply Rabs_le. split.
    + replace (- (IZR (b_gamma B) * IZR (prodZ size)))%R with (- IZR (prodZ size) * INR (length (upto (b_gamma B))))%R by (rewrite Lg; ring).
      apply sum_bound. intros j _. apply (correlation_bound B size H s U j).
    + set (C := fun j => sumR (map (fun a => s a * s (dest B size a [j]))%R (upto (prodZ size)))).
      assert (M : (- IZR (prodZ size) * INR (length (upto (b_gamma B))) <= sumR (map (fun j => -1 * C j) (upto (b_gamma B))))%R).
      { apply sum_bound. intros j _. pose proof (correlation_bound B size H s U j) as Q. unfold C. lra. }
      rewrite sumR_scal, Lg in M. change (sumR (map C (upto (b_gamma B))) <= IZR (b_gamma B) * IZR (prodZ size))%R. lra.
  - rewrite (energy_by_direction B size H). rewrite (sumR_ext _ (fun _ => IZR (prodZ size))).
    + rewrite const_sum, Lg. ring.
    + intros j _. rewrite (sumR_ext _ (fun _ => 1%R)) by (intros; ring). rewrite const_sum. rewrite (sites_count B size H). ring.
Qed.
Print Assumptions C125_bounds.
Example C125_bounds_ex : lattice_ok (CubicLattice numF) [2; 3; 1] /\ (forall a : Z, Rabs ((fun a => if Z.even a then 1 else -1) a) <= 1)%R.
Proof. split; [standard_lattice|]. intros a. cbv beta. destruct (Z.even a); unfold Rabs; destruct (Rcase_abs _); lra. Qed.

(** Even extents: opposite values on the two sublattices reach the other bound. *)
Theorem C125_antiferromagnet : forall (T : Type) (N : num T) (pi : T) (B : bravais T) size,
  B = ChainLattice N \/ B = SquareLattice N \/ B = CubicLattice N -> lattice_ok B size -> Forall (fun s => (2 | s)) size ->
  exists L nn s, Lattice N pi B size true = Ok L /\ omapl (GetNeighbors L) (upto (prodZ size)) = Ok nn /\
  (forall a, s a = 1 \/ s a = -1)%R /\ (2 * energy Rmult nn s = - (IZR (b_gamma B) * IZR (prodZ size)))%R.
Proof.
  intros T N pi B size HB H HE. destruct (C115_checkerboard T N pi B size true HB H (or_intror HE)) as (L & EL & Q).
  rewrite lattice_built in EL by exact H. injection EL as <-.
  set (s := fun a => (if Z.even (total (coords_of size a)) then 1 else -1)%R).
  exists (built N pi B size true), (table B size true), s. split; [now apply lattice_built|]. split; [now apply nn_table|].
  split; [intros a; unfold s; destruct (Z.even _); [now left|now right]|].
  assert (Lg : INR (length (upto (b_gamma B))) = IZR (b_gamma B)) by (rewrite upto_length, INR_IZR_INZ, Z2Nat.id by apply H; reflexivity).
  rewrite (energy_by_direction B size H). rewrite (sumR_ext _ (fun _ => - IZR (prodZ size))%R); [rewrite const_sum, Lg; ring|].
  intros j Hj. apply upto_In in Hj. rewrite (sumR_ext _ (fun _ => -1)%R); [rewrite const_sum, (sites_count B size H); ring|].
  intros a Ha. apply upto_In in Ha. set (b := dest B size a [j]). assert (Hb : valid_site size b) by now apply at_valid.
  assert (ok : sizes_ok size) by apply H.
  specialize (Q a b (coords_of size a) (coords_of size b) Ha Hb). change (l_grid (built N pi B size true)) with (HyperCubicGrid size true) in Q.
  rewrite !grid_coords in Q by assumption. specialize (Q eq_refl eq_refl).
  assert (A : AreNeighbors (built N pi B size true) a b = Ok true).
  { rewrite (are_in N pi B size true) by exact Ha. f_equal. apply existsb_exists. exists b. split; [|apply Z.eqb_refl].
    rewrite (hops_of B size H a Ha). unfold b. apply (in_map (fun j => dest B size a [j])). now apply upto_In. }
  specialize (Q A). assert (E : Z.even (total (coords_of size a) + total (coords_of size b)) = false) by (rewrite Zeven_mod, Q; reflexivity).
  rewrite Z.even_add in E. unfold s. destruct (Z.even (total (coords_of size a))), (Z.even (total (coords_of size b))); try discriminate E; ring.
Qed.
Print Assumptions C125_antiferromagnet.
Example C125_antiferromagnet_ex : lattice_ok (SquareLattice numF) [2; 4] /\ Forall (fun s => (2 | s)) [2; 4].
Proof. split; [standard_lattice|]. constructor; [now exists 1|constructor; [now exists 2|constructor]]. Qed.

(** Triangular lattices: a third of that at most. *)
Theorem C125_frustration : forall (T : Type) (N : num T) (pi : T) size, lattice_ok (TriangularLattice N) size ->
  exists L nn, Lattice N pi (TriangularLattice N) size true = Ok L /\ omapl (GetNeighbors L) (upto (prodZ size)) = Ok nn /\
  forall s : Z -> R, (forall a, Rabs (s a) <= 1)%R -> (- IZR (prodZ size) <= energy Rmult nn s <= 3 * IZR (prodZ size))%R.
Proof.
  intros T N pi size H. set (B := TriangularLattice N) in *. exists (built N pi B size true), (table B size true).
  split; [now apply lattice_built|]. split; [now apply nn_table|]. intros s U. pose proof (energy_by_direction B size H s) as E.
  set (C := fun j => sumR (map (fun a => s a * s (dest B size a [j]))%R (upto (prodZ size)))) in *.
  assert (E' : (energy Rmult (table B size true) s = C 0%Z + C 2%Z + C 4%Z)%R).
  { pose proof (partner_correlation B size H s 0 ltac:(cbn; lia)) as P0. pose proof (partner_correlation B size H s 2 ltac:(cbn; lia)) as P2. pose proof (partner_correlation B size H s 4 ltac:(cbn; lia)) as P4.
    change (C 1 = C 0) in P0. change (C 3 = C 2) in P2. change (C 5 = C 4) in P4. change (upto (b_gamma B)) with [0; 1; 2; 3; 4; 5] in E. unfold sumR in E at 1. cbn [map fold_right] in E. lra. }
  rewrite E'. split.
  - assert (S4 : C 4 = sumR (map (fun a => s (dest B size a [2%Z]) * s (dest B size a [0%Z]))%R (upto (prodZ size)))).
    { unfold C. rewrite <- (shifted_sum B size H 2 (fun a => s a * s (dest B size a [4%Z]))%R ltac:(cbn; lia)). apply sumR_ext. intros a Ha. apply upto_In in Ha. do 2 f_equal.
      rewrite <- (dest_app B size H a [2] [4] Ha) by (apply singles; cbn; lia). reflexivity. }
    rewrite S4. unfold C. rewrite <- !sumR_plus. rewrite <- (sites_count B size H). replace (- INR (length (upto (prodZ size))))%R with (-1 * INR (length (upto (prodZ size))))%R by ring.
    apply sum_bound. intros a _. pose proof (triangle_bound (s a) (s (dest B size a [0%Z])) (s (dest B size a [2%Z])) (U _) (U _) (U _)). lra.
  - pose proof (correlation_bound B size H s U 0). pose proof (correlation_bound B size H s U 2). pose proof (correlation_bound B size H s U 4).
    change (- IZR (prodZ size) <= C 0%Z <= IZR (prodZ size))%R in H0. change (- IZR (prodZ size) <= C 2%Z <= IZR (prodZ size))%R in H1. change (- IZR (prodZ size) <= C 4%Z <= IZR (prodZ size))%R in H2. lra.
Qed.
Print Assumptions C125_frustration.
Example C125_frustration_ex : lattice_ok (TriangularLattice numF) [4; 3].
Proof. standard_lattice. Qed.

(** Stripes reach that bound. *)
Theorem C125_stripes : forall (T : Type) (N : num T) (pi : T) m n, lattice_ok (TriangularLattice N) [2 * m; n] ->
  exists L nn s, Lattice N pi (TriangularLattice N) [2 * m; n] true = Ok L /\ omapl (GetNeighbors L) (upto (2 * m * n)) = Ok nn /\
  (forall a c, valid_site [2 * m; n] a -> GetCoordinates (l_grid L) a = Ok c -> s a = (if Z.even (hd 0%Z c) then 1 else -1)%R) /\
  energy Rmult nn s = (- IZR (2 * m * n))%R.
Proof.
  intros T N pi m n H. set (B := TriangularLattice N) in *. set (size := [2 * m; n]) in *.
  assert (EP : prodZ size = 2 * m * n) by (unfold size; cbn [prodZ fold_right]; ring).
  set (s := fun a => (if Z.even (hd 0%Z (coords_of size a)) then 1 else -1)%R).
  exists (built N pi B size true), (table B size true), s. split; [now apply lattice_built|]. rewrite <- EP. split; [now apply nn_table|].
  assert (ok : sizes_ok size) by apply H. split.
  { intros a c Ha Ec. change (l_grid (built N pi B size true)) with (HyperCubicGrid size true) in Ec. rewrite grid_coords in Ec by assumption. injection Ec as <-. reflexivity. }
  pose proof (energy_by_direction B size H s) as E.
  assert (V : forall j d e, 0 <= j < b_gamma B -> displacement B j = [d; e] ->
    sumR (map (fun a => s a * s (dest B size a [j]))%R (upto (prodZ size))) = (if Z.even d then IZR (prodZ size) else - IZR (prodZ size))%R).
  { intros j d e Hj Ed. rewrite (sumR_ext _ (fun _ => if Z.even d then 1 else -1)%R).
    - rewrite const_sum, (sites_count B size H). destruct (Z.even d); ring.
    - intros a Ha. apply upto_In in Ha. destruct (dest_spec B size H a [j] Ha (singles B j Hj)) as [_ Cd]. destruct (coords_of_spec size a ok Ha) as (_ & G & _).
      unfold s. rewrite Cd. unfold overall. cbn [fold_right]. rewrite (dim_length B size H). rewrite shifted_zeros by now apply (disp_length B size H). rewrite Ed.
      assert (X : exists x y, coords_of size a = [x; y] /\ 0 <= x < 2 * m).
      { clear - G. revert G. generalize (coords_of size a). unfold size. intros c G. inversion G as [|? x ? c' Hx G' E1 E2]. inversion G' as [|? y ? c'' Hy G'' E3 E4]. inversion G''. now exists x, y. }
      destruct X as (x & y & Ec & Hx). rewrite Ec. unfold size. rewrite hop_cons. cbn [hd].
      assert (Pr : Z.even ((x + d) mod (2 * m)) = Bool.eqb (Z.even x) (Z.even d)).
      { rewrite <- Z.even_add. rewrite (Z.div_mod (x + d) (2 * m)) at 2 by lia. rewrite Z.even_add, <- Z.mul_assoc, Z.even_mul. cbn [Z.even orb]. destruct (Z.even ((x + d) mod (2 * m))); reflexivity. }
      rewrite Pr. destruct (Z.even x), (Z.even d); cbn [Bool.eqb]; ring. }
  change (upto (b_gamma B)) with [0; 1; 2; 3; 4; 5] in E. unfold sumR in E at 1. cbn [map fold_right] in E.
  rewrite (V 0 1 0), (V 1 (-1) 0), (V 2 0 1), (V 3 0 (-1)), (V 4 1 (-1)), (V 5 (-1) 1) in E by (try reflexivity; cbn; lia). cbn [Z.even] in E. lra.
Qed.
Print Assumptions C125_stripes.
Example C125_stripes_ex : lattice_ok (TriangularLattice numF) [2 * 3; 5].
Proof. standard_lattice. Qed.
