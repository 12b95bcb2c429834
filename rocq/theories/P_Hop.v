(** C107: walkers that hop to random neighbours.  A word is one output of a 64-bit
    engine; [all_words n] is the number of lists of n words (S_Hop). *)
From Coq Require Import ZArith Reals List Bool Lia Lra.
From Flocq Require Import Core.Core.
From Verif Require Import Base F64 Num S_Math S_Accum M_Grid M_Bravais M_Lattice M_MathF M_Random M_Hop S_Random S_Grid S_Bravais S_Lattice S_Bonds S_Hop
  L_Grid L_Bravais L_Lattice L_Bonds L_Share L_Markov L_Hop P_Lattice.
Import ListNotations.
Open Scope out_scope.
Open Scope R_scope.

Ltac some_neighbors N pi B size cl H Hne :=
  assert (Hne' : forall a, valid_site size a -> nbrs B size cl (coords_of size a) (upto (b_gamma B)) <> [])
  by (intros a Ha E; apply (Hne a Ha); rewrite (nn_built N pi B size cl a Ha); now rewrite E).

(** If every site has a neighbour, every word takes the walker to one, and every
    list of words takes it to some site. *)
Theorem C107_defined : forall (T : Type) (N : num T) (pi : T) (B : bravais T) size cl, lattice_ok B size -> (b_gamma B <= 2 ^ 46)%Z ->
  exists L, Lattice N pi B size cl = Ok L /\ ((forall a, valid_site size a -> GetNeighbors L a <> Ok []) ->
  (forall a w, valid_site size a -> word w -> exists nn b, GetNeighbors L a = Ok nn /\ hop L a w = Ok b /\ In b nn) /\
  (forall a ws, valid_site size a -> Forall word ws -> exists b, hops L a ws = Ok b /\ valid_site size b)).
Proof.
  intros T N pi B size cl H Hg. exists (built N pi B size cl). split; [now apply lattice_built|]. intros Hne.
  some_neighbors N pi B size cl H Hne. split.
  - intros a w Ha Hw. destruct (hop_total N pi B size cl H Hg Hne' a w Ha Hw) as (b & E & I). eexists _, b. split; [now apply nn_built|]. now split.
  - intros a ws Ha Hw. now apply (hops_total N pi B size cl H Hg Hne').
Qed.
Print Assumptions C107_defined.
Example C107_defined_ex :
  (L <- Lattice numF pi_d (SquareLattice numF) [3; 3]%Z false ;; omapl (GetNeighbors L) (upto 9)) =
    Ok [[3; 1]; [4; 2; 0]; [5; 1]; [6; 0; 4]; [7; 1; 5; 3]; [8; 2; 4]; [3; 7]; [4; 8; 6]; [5; 7]]%Z /\
  (L <- Lattice numF pi_d (SquareLattice numF) [3; 3]%Z false ;; hop L 4 (2 ^ 63)) = Ok 5%Z /\
  (L <- Lattice numF pi_d (SquareLattice numF) [3; 3]%Z false ;; hops L 4 [0; 2 ^ 62; 2 ^ 63; 2 ^ 64 - 1])%Z = Ok 4%Z.
Proof. split; [|split]; vm_compute; reflexivity. Qed.

(** From a site without neighbours the same program has no defined behaviour. *)
Theorem C107_isolated : forall (T : Type) (L : @lattice T) a w, GetNeighbors L a = Ok [] -> hop L a w = UB.
Proof. intros T L a w E. unfold hop. now rewrite E. Qed.
Print Assumptions C107_isolated.
Example C107_isolated_ex : (L <- Lattice numF pi_d (SquareLattice numF) [1; 1]%Z false ;; GetNeighbors L 0) = Ok [].
Proof. vm_compute. reflexivity. Qed.

(** One hop: a goes to b for a share of the words that is the share of b among
    the neighbours of a, nearly. *)
Theorem C107_one : forall (T : Type) (N : num T) (pi : T) (B : bravais T) size cl, lattice_ok B size -> (b_gamma B <= 2 ^ 46)%Z ->
  exists L, Lattice N pi B size cl = Ok L /\ ((forall a, valid_site size a -> GetNeighbors L a <> Ok []) ->
  forall a b, valid_site size a -> exists nn x, GetNeighbors L a = Ok nn /\
  counted (fun w => word w /\ hop L a w = Ok b) x /\
  Rabs (x / IZR (2 ^ 64) - INR (occurrences b nn) / INR (length nn)) <=
    INR (occurrences b nn) * ((6 * IZR (b_gamma B) + 7) * bpow radix2 (-53))).
Proof.
  intros T N pi B size cl H Hg. exists (built N pi B size cl). split; [now apply lattice_built|]. intros Hne.
  some_neighbors N pi B size cl H Hne. intros a b Ha. eexists _, _. split; [now apply nn_built|].
  split; [apply count1_counted|]. now apply (pr_near N pi B size cl H Hg Hne').
Qed.
Print Assumptions C107_one.
(** The first of six neighbours is chosen by the words below about 2^64 / 6. *)
Example C107_one_ex :
  (L <- Lattice numF pi_d (TriangularLattice numF) [3; 4]%Z true ;; GetNeighbors L 0) = Ok [4; 8; 1; 3; 7; 9]%Z /\
  (L <- Lattice numF pi_d (TriangularLattice numF) [3; 4]%Z true ;; hop L 0 (2 ^ 64 / 6 - 2048)) = Ok 4%Z /\
  (L <- Lattice numF pi_d (TriangularLattice numF) [3; 4]%Z true ;; hop L 0 (2 ^ 64 / 6 + 2048)) = Ok 8%Z.
Proof. split; [|split]; vm_compute; reflexivity. Qed.

(** Exactly that share it cannot be: six neighbours do not get the same number of
    words each. *)
Theorem C107_exact_refuted :
  exists L, Lattice numF pi_d (TriangularLattice numF) [3; 4]%Z true = Ok L /\ GetNeighbors L 0%Z = Ok [4; 8; 1; 3; 7; 9]%Z /\
  ~ exists x, forall b, In b [4; 8; 1; 3; 7; 9]%Z -> counted (fun w => word w /\ hop L 0%Z w = Ok b) x.
Proof.
  assert (H : lattice_ok (TriangularLattice numF) [3; 4]%Z) by standard_lattice.
  set (B := TriangularLattice numF) in *. set (size := [3; 4]%Z) in *.
  exists (built numF pi_d B size true). split; [now apply lattice_built|]. split; [vm_compute; reflexivity|].
  intros (x & Q).
  assert (Hne : forall a, valid_site size a -> nbrs B size true (coords_of size a) (upto (b_gamma B)) <> []).
  { intros a _ E. apply (f_equal (@length Z)) in E. unfold nbrs in E. rewrite !map_length in E. discriminate E. }
  assert (G : (b_gamma B <= 2 ^ 46)%Z) by (cbn; lia).
  assert (V : valid_site size 0) by (unfold valid_site; cbn; lia).
  assert (C : forall b, In b [4; 8; 1; 3; 7; 9]%Z -> count1 numF pi_d B size true 0 b = x).
  { intros b Ib. exact (counted_unique _ _ _ (count1_counted numF pi_d B size true 0 b) (Q b Ib)). }
  assert (Z0 : forall b, ~ In b [4; 8; 1; 3; 7; 9]%Z -> count1 numF pi_d B size true 0 b = 0).
  { intros b Nb. refine (counted_unique _ _ _ (count1_counted numF pi_d B size true 0 b) _). apply counted_none. intros w (Hw & E).
    destruct (hop_total numF pi_d B size true H G Hne 0%Z w V Hw) as (c & E' & Ic). rewrite E in E'. injection E' as <-. now apply Nb. }
  destruct (p_stochastic numF pi_d B size true H G Hne 0%Z) as [_ S]; [apply upto_In; exact V|].
  change (upto (prodZ size)) with [0; 1; 2; 3; 4; 5; 6; 7; 8; 9; 10; 11]%Z in S. unfold pr, sumR in S. cbn [map fold_right] in S.
  rewrite (C 1%Z), (C 3%Z), (C 4%Z), (C 7%Z), (C 8%Z), (C 9%Z) in S by (cbn; tauto).
  rewrite (Z0 0%Z), (Z0 2%Z), (Z0 5%Z), (Z0 6%Z), (Z0 10%Z), (Z0 11%Z) in S by (cbn; lia).
  destruct (Q 4%Z) as (l & _ & _ & <-); [now left|]. rewrite INR_IZR_INZ in S.
  assert (W0 : IZR (2 ^ 64) <> 0) by (apply IZR_neq; lia).
  assert (E : IZR (6 * Z.of_nat (length l)) = IZR (2 ^ 64)).
  { rewrite mult_IZR. apply Rmult_eq_reg_r with (/ IZR (2 ^ 64)); [|now apply Rinv_neq_0_compat]. rewrite Rinv_r by exact W0. unfold Rdiv in S. rewrite <- S. ring. }
  apply eq_IZR in E. lia.
Qed.
Print Assumptions C107_exact_refuted.

(** n hops: as many words lead from a to b as from b to a, in proportion to the
    numbers of neighbours. *)
Theorem C107_balance : forall (T : Type) (N : num T) (pi : T) (B : bravais T) size cl, lattice_ok B size -> (b_gamma B <= 2 ^ 46)%Z ->
  exists L, Lattice N pi B size cl = Ok L /\ ((forall a, valid_site size a -> GetNeighbors L a <> Ok []) ->
  forall n a b, valid_site size a -> valid_site size b -> exists na nb x y, GetNeighbors L a = Ok na /\ GetNeighbors L b = Ok nb /\
  counted (fun ws => words n ws /\ hops L a ws = Ok b) x /\ counted (fun ws => words n ws /\ hops L b ws = Ok a) y /\
  Rabs (INR (length na) * x - INR (length nb) * y) <= (INR (length na) + INR (length nb)) * (INR n * hop_error (b_gamma B)) * all_words n).
Proof.
  intros T N pi B size cl H Hg. exists (built N pi B size cl). split; [now apply lattice_built|]. intros Hne.
  some_neighbors N pi B size cl H Hne. intros n a b Ha Hb. eexists _, _, _, _. split; [now apply nn_built|]. split; [now apply nn_built|].
  split; [apply countn_counted|]. split; [apply countn_counted|]. now apply (walks_balanced N pi B size cl H Hg Hne').
Qed.
Print Assumptions C107_balance.
(** Open chain: site 0 has one neighbour and site 1 two, so every word leads from
    0 to 1 and half of the words lead back. *)
Example C107_balance_ex :
  (L <- Lattice numF pi_d (ChainLattice numF) [5]%Z false ;; omapl (GetNeighbors L) (upto 5)) = Ok [[1]; [2; 0]; [3; 1]; [4; 2]; [3]]%Z /\
  (L <- Lattice numF pi_d (ChainLattice numF) [5]%Z false ;; hop L 0 (2 ^ 62)) = Ok 1%Z /\
  (L <- Lattice numF pi_d (ChainLattice numF) [5]%Z false ;; hop L 1 (2 ^ 62)) = Ok 2%Z /\
  (L <- Lattice numF pi_d (ChainLattice numF) [5]%Z false ;; hop L 1 (2 ^ 63 + 2 ^ 62)) = Ok 0%Z /\
  hop_error (b_gamma (ChainLattice numF)) = 38 * bpow radix2 (-53).
Proof. split; [|split; [|split; [|split]]]; [vm_compute; reflexivity..|]. unfold hop_error. cbn [b_gamma ChainLattice]. lra. Qed.

(** On a closed lattice simply as many. *)
Theorem C107_closed : forall (T : Type) (N : num T) (pi : T) (B : bravais T) size, lattice_ok B size -> (0 < b_gamma B <= 2 ^ 46)%Z ->
  exists L, Lattice N pi B size true = Ok L /\ forall n a b, valid_site size a -> valid_site size b -> exists x y,
  counted (fun ws => words n ws /\ hops L a ws = Ok b) x /\ counted (fun ws => words n ws /\ hops L b ws = Ok a) y /\
  Rabs (x - y) <= 2 * (INR n * hop_error (b_gamma B)) * all_words n.
Proof.
  intros T N pi B size H [Hg0 Hg]. exists (built N pi B size true). split; [now apply lattice_built|].
  assert (D : forall a, length (nbrs B size true (coords_of size a) (upto (b_gamma B))) = Z.to_nat (b_gamma B)).
  { intros a. unfold nbrs. rewrite !map_length. apply upto_length. }
  assert (Hne : forall a, valid_site size a -> nbrs B size true (coords_of size a) (upto (b_gamma B)) <> []).
  { intros a _ E. pose proof (D a) as Q. rewrite E in Q. cbn in Q. lia. }
  intros n a b Ha Hb. eexists _, _. split; [apply countn_counted|]. split; [apply countn_counted|].
  pose proof (walks_balanced N pi B size true H Hg Hne n a b Ha Hb) as Q. unfold dg in Q. rewrite !D in Q.
  set (g := INR (Z.to_nat (b_gamma B))) in *. assert (G : 0 < g) by (apply lt_0_INR; lia).
  set (x := countn N pi B size true n a b) in *. set (y := countn N pi B size true n b a) in *.
  replace (g * x - g * y) with (g * (x - y)) in Q by ring. rewrite Rabs_mult, (Rabs_pos_eq g) in Q by lra.
  apply Rmult_le_reg_l with g; [exact G|]. eapply Rle_trans; [exact Q|]. apply Req_le. ring.
Qed.
Print Assumptions C107_closed.
Example C107_closed_ex :
  lattice_ok (TriangularLattice numF) [3; 4]%Z /\ (0 < b_gamma (TriangularLattice numF) <= 2 ^ 46)%Z /\
  (L <- Lattice numF pi_d (TriangularLattice numF) [3; 4]%Z true ;; hops L 0 [0; 2 ^ 62; 2 ^ 63; 2 ^ 64 - 1])%Z = Ok 8%Z.
Proof. split; [standard_lattice|]. split; [cbn; lia|]. vm_compute. reflexivity. Qed.

(** A crowd of walkers that starts with as many walkers on every site as it has
    neighbours stays like that, nearly. *)
Theorem C107_stationary : forall (T : Type) (N : num T) (pi : T) (B : bravais T) size cl, lattice_ok B size -> (b_gamma B <= 2 ^ 46)%Z ->
  hop_error (b_gamma B) <= 1 ->
  exists L nn, Lattice N pi B size cl = Ok L /\ omapl (GetNeighbors L) (upto (GetNumSites (l_grid L))) = Ok nn /\ (Forall (fun l => l <> []) nn ->
  forall n b, valid_site size b -> exists xs, Forall2 (fun a x => counted (fun ws => words n ws /\ hops L a ws = Ok b) x) (upto (GetNumSites (l_grid L))) xs /\
  (1 - hop_error (b_gamma B)) ^ n * INR (length (nth (Z.to_nat b) nn [])) * all_words n <=
  sumR (map (fun p => INR (length (fst p)) * snd p) (combine nn xs)) <=
  (1 + hop_error (b_gamma B)) ^ n * INR (length (nth (Z.to_nat b) nn [])) * all_words n).
Proof.
  intros T N pi B size cl H Hg He. eexists (built N pi B size cl), _. split; [now apply lattice_built|].
  change (l_grid (built N pi B size cl)) with (HyperCubicGrid size cl). rewrite (proj1 (grid_sites size cl (proj1 (proj2 (proj2 (proj2 H)))))).
  split; [now apply nn_table|]. intros Hne.
  assert (Hne' : forall a, valid_site size a -> nbrs B size cl (coords_of size a) (upto (b_gamma B)) <> []).
  { intros a Ha. rewrite Forall_map, Forall_forall in Hne. apply Hne. now apply upto_In. }
  intros n b Hb. exists (map (fun a => countn N pi B size cl n a b) (upto (prodZ size))). split.
  { generalize (upto (prodZ size)). intros l. induction l as [|a l IH]; [constructor|]. cbn [map]. constructor; [apply countn_counted|exact IH]. }
  pose proof (walks_stationary N pi B size cl H Hg Hne' n b Hb He) as Q.
  erewrite nth_map_upto by exact Hb.
  replace (map (fun p => INR (length (fst p)) * snd p) _) with (map (fun a => dg B size cl a * countn N pi B size cl n a b) (upto (prodZ size))); [exact Q|].
  generalize (upto (prodZ size)). intros l. induction l as [|a l IH]; [reflexivity|]. cbn [map combine fst snd]. now rewrite <- IH.
Qed.
Print Assumptions C107_stationary.
Example C107_stationary_ex :
  lattice_ok (SquareLattice numF) [3; 3]%Z /\ hop_error (b_gamma (SquareLattice numF)) <= 1 /\
  (L <- Lattice numF pi_d (SquareLattice numF) [3; 3]%Z false ;; omapl (GetNeighbors L) (upto (GetNumSites (l_grid L)))) =
    Ok [[3; 1]; [4; 2; 0]; [5; 1]; [6; 0; 4]; [7; 1; 5; 3]; [8; 2; 4]; [3; 7]; [4; 8; 6]; [5; 7]]%Z.
Proof.
  split; [standard_lattice|]. split; [|vm_compute; reflexivity]. unfold hop_error. cbn [b_gamma SquareLattice].
  apply Rle_trans with (124 * bpow radix2 (-7)); [|cbn; lra]. assert (bpow radix2 (-53) <= bpow radix2 (-7)) by (apply bpow_le; lia). lra.
Qed.
