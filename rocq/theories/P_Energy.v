(** Property theorems C120 (energies of bonds change as the neighbours of the
    changed sites say).  [energy], [local_energy], [changed], [exchanged] and
    [independent] are those of S_Energy. *)
From Coq Require Import ZArith Reals List Bool Lia Lra.
From Verif Require Import Base F64 Num S_Math S_Accum M_MathInt M_Grid M_Bravais M_Lattice S_Grid S_Bravais S_Lattice S_LatticeN S_Bonds S_Colour S_Energy
  L_Grid L_Bravais L_Lattice L_LatticeN L_Sum L_Bonds L_Energy P_LatticeN P_Colour.
Import ListNotations.
Open Scope Z_scope.

Ltac standard_lattice :=
  split; [lazymatch goal with
    | |- well_formed (ChainLattice ?N) => exact (chain_wf N) | |- well_formed (SquareLattice ?N) => exact (square_wf N)
    | |- well_formed (CubicLattice ?N) => exact (cubic_wf N) | |- well_formed (TriangularLattice ?N) => exact (triangular_wf N) end|
  split; [reflexivity|split; [cbn; lia|split; [split; [repeat constructor; lia|vm_compute; reflexivity]|
  split; [reflexivity|repeat constructor; lia]]]]].

(** On any lattice: new values at sites of which no two are neighbours change the
    energy by the sum of the single changes, each as seen by the old neighbours. *)
Theorem C120_independent : forall (T : Type) (N : num T) (pi : T) (B : bravais T) size cl, lattice_ok B size ->
  exists L nn, Lattice N pi B size cl = Ok L /\ omapl (GetNeighbors L) (upto (GetNumSites (l_grid L))) = Ok nn /\
  forall (A : Type) (V : A -> A -> R) (W : Z -> bool) (s s' : Z -> A), symmetric V -> independent L size W ->
  (forall a, valid_site size a -> W a = false -> s' a = s a) ->
  let n a := nth (Z.to_nat a) nn [] in
  (energy V nn s' - energy V nn s =
   sumR (map (fun a => local_energy V (n a) s (s' a) - local_energy V (n a) s (s a)) (filter W (upto (GetNumSites (l_grid L))))))%R.
Proof.
  intros T N pi B size cl H. exists (built N pi B size cl), (table B size cl). split; [now apply lattice_built|].
  change (l_grid (built N pi B size cl)) with (HyperCubicGrid size cl). rewrite (proj1 (grid_sites size cl (proj1 (proj2 (proj2 (proj2 H)))))).
  split; [now apply nn_table|]. intros A V W s s' S I F. cbv zeta. now apply (independent_energy N pi B size cl H).
Qed.
Print Assumptions C120_independent.
(** Sites 0 and 4 of an open 3 x 3 square lattice. *)
Example C120_independent_ex :
  lattice_ok (SquareLattice numF) [3; 3] /\ symmetric (fun x y : Z => IZR (x * y)) /\
  exists L, Lattice numF pi_d (SquareLattice numF) [3; 3] false = Ok L /\
  map (fun p => AreNeighbors L (fst p) (snd p)) [(0, 0); (0, 4); (4, 0); (4, 4); (4, 1)] = [Ok false; Ok false; Ok false; Ok false; Ok true].
Proof.
  split; [standard_lattice|]. split; [intros x y; now rewrite Z.mul_comm|]. eexists. split; [apply lattice_built; standard_lattice|]. vm_compute. reflexivity.
Qed.

(** So all sites of one colour can be updated at once. *)
Theorem C120_sublattice : forall (T : Type) (N : num T) (pi : T) (B : bravais T) size cl, lattice_ok B size ->
  exists L nn, Lattice N pi B size cl = Ok L /\ omapl (GetNeighbors L) (upto (GetNumSites (l_grid L))) = Ok nn /\
  forall (A : Type) (V : A -> A -> R) q f k (s s' : Z -> A), symmetric V -> colouring q L size f ->
  (forall a, valid_site size a -> f a <> k -> s' a = s a) ->
  let n a := nth (Z.to_nat a) nn [] in
  (energy V nn s' - energy V nn s =
   sumR (map (fun a => local_energy V (n a) s (s' a) - local_energy V (n a) s (s a)) (filter (fun a => (f a =? k)%Z) (upto (GetNumSites (l_grid L))))))%R.
Proof.
  intros T N pi B size cl H. destruct (C120_independent T N pi B size cl H) as (L & nn & EL & En & Q). exists L, nn. split; [exact EL|]. split; [exact En|].
  intros A V q f k s s' S [_ C] F. apply Q; [exact S| |intros a Ha E; apply F; [exact Ha|now apply Z.eqb_neq in E]].
  intros a b Ha Hb E1 E2. apply Z.eqb_eq in E1, E2.
  rewrite lattice_built in EL by exact H. injection EL as <-. specialize (C a b Ha Hb). rewrite are_in in * by exact Ha.
  destruct (existsb (Z.eqb b) (nbs B size cl a)); [|reflexivity]. exfalso. apply C; [reflexivity|congruence].
Qed.
Print Assumptions C120_sublattice.
Example C120_sublattice_ex : exists L f, Lattice numF pi_d (SquareLattice numF) [4; 2] true = Ok L /\ colouring 2 L [4; 2] f.
Proof.
  destruct (C115_two_colours _ numF pi_d (SquareLattice numF) [4; 2] true) as (L & EL & _ & Q); [tauto|standard_lattice|].
  destruct Q as [f C]; [right; constructor; [exists 2; reflexivity|constructor; [exists 1; reflexivity|constructor]]|]. exists L, f. split; [exact EL|exact C].
Qed.

Local Lemma not_own {T} (N : num T) (pi : T) (B : bravais T) size cl a :
  B = ChainLattice N \/ B = SquareLattice N \/ B = CubicLattice N \/ B = TriangularLattice N -> lattice_ok B size ->
  cl = false \/ Forall (fun s => 2 <= s) size -> valid_site size a -> ~ In a (nbs B size cl a).
Proof.
  intros HB H HE Ha. destruct cl.
  - destruct HE as [HE|HE]; [discriminate|]. destruct (C79_closed_lists T N pi B size HB H) as (L & EL & Q).
    rewrite lattice_built in EL by exact H. injection EL as <-. destruct (Q a Ha) as (n & En & _ & I). rewrite (nn_built N pi B size true) in En by exact Ha. injection En as <-.
    intros J. apply I in J. apply Exists_exists in J as (x & Ix & <-). rewrite Forall_forall in HE. specialize (HE _ Ix). lia.
  - destruct (C79_open_lists T N pi B size HB H) as (L & EL & Q).
    rewrite lattice_built in EL by exact H. injection EL as <-. destruct (Q a Ha) as (n & En & _ & I). rewrite (nn_built N pi B size false) in En by exact Ha. injection En as <-.
    exact I.
Qed.

(** One site changed. *)
Theorem C120_one_site : forall (T : Type) (N : num T) (pi : T) (B : bravais T) size cl,
  B = ChainLattice N \/ B = SquareLattice N \/ B = CubicLattice N \/ B = TriangularLattice N -> lattice_ok B size ->
  cl = false \/ Forall (fun s => 2 <= s) size ->
  exists L nn, Lattice N pi B size cl = Ok L /\ omapl (GetNeighbors L) (upto (GetNumSites (l_grid L))) = Ok nn /\
  forall (A : Type) (V : A -> A -> R) (s : Z -> A) a x na, symmetric V -> valid_site size a -> GetNeighbors L a = Ok na ->
  (energy V nn (changed s a x) - energy V nn s = local_energy V na s x - local_energy V na s (s a))%R.
Proof.
  intros T N pi B size cl HB H HE. exists (built N pi B size cl), (table B size cl). split; [now apply lattice_built|].
  change (l_grid (built N pi B size cl)) with (HyperCubicGrid size cl). rewrite (proj1 (grid_sites size cl (proj1 (proj2 (proj2 (proj2 H)))))).
  split; [now apply nn_table|]. intros A V s a x na S Ha Ea. rewrite (nn_built N pi B size cl) in Ea by exact Ha. injection Ea as <-.
  apply (one_site_energy N pi B size cl H V S); [exact Ha|]. now apply (not_own N pi).
Qed.
Print Assumptions C120_one_site.
(** Two bonds lead from site 0 to site 1 of a closed chain of two. *)
Example C120_one_site_ex :
  lattice_ok (ChainLattice numF) [2] /\ Forall (fun s => 2 <= s) [2] /\
  (L <- Lattice numF pi_d (ChainLattice numF) [2] true ;; omapl (GetNeighbors L) (upto 2)) = Ok [[1; 1]; [0; 0]] /\
  energy (fun x y => IZR (x * y)) [[1; 1]; [0; 0]] (fun i => i + 3) = 24%R /\
  energy (fun x y => IZR (x * y)) [[1; 1]; [0; 0]] (changed (fun i => i + 3) 0 5) = 40%R /\
  local_energy (fun x y => IZR (x * y)) [1; 1] (fun i => i + 3) 5 = 40%R.
Proof.
  split; [standard_lattice|]. split; [repeat constructor; lia|]. split; [vm_compute; reflexivity|].
  unfold energy, local_energy, sumR. change (bonds [[1; 1]; [0; 0]]) with [(0, 1); (0, 1); (1, 0); (1, 0)]. cbn. repeat split; lra.
Qed.

(** Weights exp(-beta E) change by a factor that the neighbours of the site determine. *)
Theorem C120_weight : forall (T : Type) (N : num T) (pi : T) (B : bravais T) size cl,
  B = ChainLattice N \/ B = SquareLattice N \/ B = CubicLattice N \/ B = TriangularLattice N -> lattice_ok B size ->
  cl = false \/ Forall (fun s => 2 <= s) size ->
  exists L nn, Lattice N pi B size cl = Ok L /\ omapl (GetNeighbors L) (upto (GetNumSites (l_grid L))) = Ok nn /\
  forall (A : Type) (V : A -> A -> R) (s : Z -> A) a x na beta, symmetric V -> valid_site size a -> GetNeighbors L a = Ok na ->
  (exp (- beta * energy V nn (changed s a x)) / exp (- beta * energy V nn s) = exp (- beta * (local_energy V na s x - local_energy V na s (s a))))%R.
Proof.
  intros T N pi B size cl HB H HE. destruct (C120_one_site T N pi B size cl HB H HE) as (L & nn & EL & En & Q). exists L, nn.
  split; [exact EL|]. split; [exact En|]. intros A V s a x na beta S Ha Ea. rewrite <- (Q A V s a x na S Ha Ea).
  unfold Rdiv. rewrite <- exp_Ropp, <- exp_plus. f_equal. ring.
Qed.
Print Assumptions C120_weight.

(** Two sites exchange their values; for neighbours the bonds between them do not count. *)
Theorem C120_exchange : forall (T : Type) (N : num T) (pi : T) (B : bravais T) size cl,
  B = ChainLattice N \/ B = SquareLattice N \/ B = CubicLattice N \/ B = TriangularLattice N -> lattice_ok B size ->
  cl = false \/ Forall (fun s => 2 <= s) size ->
  exists L nn, Lattice N pi B size cl = Ok L /\ omapl (GetNeighbors L) (upto (GetNumSites (l_grid L))) = Ok nn /\
  forall (A : Type) (V : A -> A -> R) (s : Z -> A) a b na nb, symmetric V -> valid_site size a -> valid_site size b -> a <> b ->
  GetNeighbors L a = Ok na -> GetNeighbors L b = Ok nb ->
  (energy V nn (exchanged s a b) - energy V nn s =
   (local_energy V na s (s b) - local_energy V na s (s a)) + (local_energy V nb s (s a) - local_energy V nb s (s b))
   - INR (occurrences b na) * (V (s a) (s a) + V (s b) (s b) - 2 * V (s a) (s b)))%R.
Proof.
  intros T N pi B size cl HB H HE. exists (built N pi B size cl), (table B size cl). split; [now apply lattice_built|].
  change (l_grid (built N pi B size cl)) with (HyperCubicGrid size cl). rewrite (proj1 (grid_sites size cl (proj1 (proj2 (proj2 (proj2 H)))))).
  split; [now apply nn_table|]. intros A V s a b na nb S Ha Hb Nab Ea Eb. rewrite (nn_built N pi B size cl) in Ea, Eb by assumption.
  injection Ea as <-. injection Eb as <-.
  apply (exchange_energy N pi B size cl H V S); [exact Ha|exact Hb|exact Nab|now apply (not_own N pi)|now apply (not_own N pi)].
Qed.
Print Assumptions C120_exchange.
Example C120_exchange_ex :
  (L <- Lattice numF pi_d (ChainLattice numF) [3] false ;; omapl (GetNeighbors L) (upto 3)) = Ok [[1]; [2; 0]; [1]] /\
  occurrences 1 [1] = 1%nat /\
  energy (fun x y => IZR (x * y)) [[1]; [2; 0]; [1]] (fun i => 2 ^ i) = 10%R /\
  energy (fun x y => IZR (x * y)) [[1]; [2; 0]; [1]] (exchanged (fun i => 2 ^ i) 0 1) = 6%R.
Proof. split; [vm_compute; reflexivity|]. split; [reflexivity|]. unfold energy, sumR.
  change (bonds [[1]; [2; 0]; [1]]) with [(0, 1); (1, 2); (1, 0); (2, 1)]. cbn. split; lra. Qed.

(** With an extent of one a site is its own neighbour and the rule fails. *)
Theorem C120_extent_one_refuted : exists L nn na, Lattice numF pi_d (ChainLattice numF) [1] true = Ok L /\
  omapl (GetNeighbors L) (upto (GetNumSites (l_grid L))) = Ok nn /\ GetNeighbors L 0 = Ok na /\
  (energy (fun x y => IZR (x * y)) nn (changed (fun _ => 1%Z) 0 2%Z) - energy (fun x y => IZR (x * y)) nn (fun _ => 1%Z) <>
   local_energy (fun x y => IZR (x * y)) na (fun _ => 1%Z) 2%Z - local_energy (fun x y => IZR (x * y)) na (fun _ => 1%Z) 1%Z)%R.
Proof.
  eexists _, [[0; 0]], [0; 0]. split; [apply lattice_built; standard_lattice|]. split; [vm_compute; reflexivity|]. split; [vm_compute; reflexivity|].
  unfold energy, local_energy, sumR. change (bonds [[0; 0]]) with [(0, 0); (0, 0)]. cbn. lra.
Qed.
Print Assumptions C120_extent_one_refuted.
