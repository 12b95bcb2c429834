(** Addition of momenta and plane waves on lattices. *)
From Coq Require Import ZArith Reals List Bool Lia Lra.
From Verif Require Import Base F64 Num S_Math S_Accum M_MathInt M_Grid M_Bravais M_Lattice S_Grid S_Bravais S_Lattice S_Fourier S_Waves
  L_Grid L_Bravais L_Lattice L_Sum L_LatticeK L_Fourier L_Waves.
Import ListNotations.
Open Scope Z_scope.

Ltac standard_lattice :=
  split; [lazymatch goal with
    | |- well_formed (ChainLattice ?N) => exact (chain_wf N) | |- well_formed (SquareLattice ?N) => exact (square_wf N)
    | |- well_formed (CubicLattice ?N) => exact (cubic_wf N) | |- well_formed (TriangularLattice ?N) => exact (triangular_wf N) end|
  split; [reflexivity|split; [cbn; lia|split; [split; [repeat constructor; lia|vm_compute; reflexivity]|
  split; [reflexivity|repeat constructor; lia]]]]].

(** * C119 *)
(** Exactly one lattice momentum is the sum of two given ones. *)
Theorem C119_addition : forall B size, dual_momenta B size -> lattice_ok B size ->
  exists L, Lattice numR PI B size true = Ok L /\
  forall i i' c c' k k', GetCoordinates (l_grid L) i = Ok c -> GetCoordinates (l_grid L) i' = Ok c' -> valid_site size i -> valid_site size i' ->
  GetMomentum L i = Ok k -> GetMomentum L i' = Ok k' ->
  exists l q, GetIndex (l_grid L) (momentum_sum size c c') = Ok l /\ valid_site size l /\ GetMomentum L l = Ok q /\ adds_up B size k k' q /\
  forall l2 q2, valid_site size l2 -> GetMomentum L l2 = Ok q2 -> adds_up B size k k' q2 -> l2 = l.
Proof.
  intros B size D H. pose proof (dual_fourier B size D H) as FB. exists (built numR PI B size true). split; [now apply lattice_built|].
  intros i i' c c' k k' Ec Ec' Hi Hi' Ek Ek'. pose proof (Hok B size H) as K.
  change (l_grid (built numR PI B size true)) with (HyperCubicGrid size true) in *. rewrite grid_coords in Ec, Ec' by assumption.
  injection Ec as <-. injection Ec' as <-. rewrite (kvec_momentum B size H) in Ek, Ek' by assumption. injection Ek as <-. injection Ek' as <-.
  destruct (plus_valid B size H i i' Hi Hi') as [V E].
  exists (plus size i i'), (kvec B size (plus size i i')). split; [|split; [exact V|split; [now apply kvec_momentum|split; [now apply plus_adds|]]]].
  - unfold plus. apply (index_of_coords (HyperCubicGrid size true)); [exact K|].
    apply momentum_sum_on_grid; [apply (Spos B size H)|now apply (c_len B size H)|now apply (c_len B size H)].
  - intros l2 q2 H2 E2 A. rewrite (kvec_momentum B size H) in E2 by assumption. injection E2 as <-. now apply (adds_unique B size H FB).
Qed.
Print Assumptions C119_addition.
Example C119_addition_ex :
  dual_momenta (TriangularLattice numR) [4; 4] /\ lattice_ok (TriangularLattice numR) [4; 4] /\
  GetCoordinates (HyperCubicGrid [4; 4] true) 14 = Ok [3; 2] /\ GetCoordinates (HyperCubicGrid [4; 4] true) 15 = Ok [3; 3] /\
  momentum_sum [4; 4] [3; 2] [3; 3] = [0; 3] /\ GetIndex (HyperCubicGrid [4; 4] true) [0; 3] = Ok 3.
Proof.
  split; [right; split; [apply triangular_inverse|exists 4; repeat constructor]|]. split; [standard_lattice|].
  repeat split; vm_compute; reflexivity.
Qed.

(** Plane waves of different momenta are orthogonal over the sites, and those
    of different sites over the momenta. *)
Theorem C119_orthogonal : forall B size, dual_momenta B size -> lattice_ok B size ->
  exists L k x, Lattice numR PI B size true = Ok L /\
  (forall i, valid_site size i -> GetMomentum L i = Ok (k i) /\ GetVector L 0 i = Ok (x i)) /\
  forall i q, valid_site size i -> valid_site size q ->
  let P := IZR (prodZ size) in let sites := upto (prodZ size) in
  sumR (map (fun j => cos (dot (k q) (x j) - dot (k i) (x j))) sites) = (if i =? q then P else 0%R) /\
  sumR (map (fun j => sin (dot (k q) (x j) - dot (k i) (x j))) sites) = 0%R /\
  sumR (map (fun j => cos (dot (k j) (x q) - dot (k j) (x i))) sites) = (if i =? q then P else 0%R) /\
  sumR (map (fun j => sin (dot (k j) (x q) - dot (k j) (x i))) sites) = 0%R.
Proof.
  intros B size D H. pose proof (dual_fourier B size D H) as FB. exists (built numR PI B size true), (kvec B size), (vec B size).
  split; [now apply lattice_built|]. split; [intros i Hi; split; [now apply kvec_momentum|now apply vector_from_zero]|].
  intros i q Hi Hq P sites.
  pose proof (orthogonal B size H FB 0 i q Hi Hq) as C1. pose proof (orthogonal B size H FB (- (PI / 2)) i q Hi Hq) as S1.
  pose proof (complete B size H FB 0 q i Hq Hi) as C2. pose proof (complete B size H FB (- (PI / 2)) q i Hq Hi) as S2.
  rewrite cos_0 in C1, C2. rewrite cos_neg, cos_PI2 in S1, S2. rewrite (Z.eqb_sym q i) in C2. fold P sites in C1, S1, C2, S2. repeat split.
  - rewrite (sumR_ext _ (fun j => cos (0 + (dot (kvec B size q) (vec B size j) - dot (kvec B size i) (vec B size j))))) by (intros; now rewrite Rplus_0_l).
    rewrite C1. destruct (i =? q); ring.
  - rewrite (sumR_ext _ (fun j => cos (- (PI / 2) + (dot (kvec B size q) (vec B size j) - dot (kvec B size i) (vec B size j))))) by (intros; apply sin_cos_shift).
    rewrite S1. ring.
  - rewrite (sumR_ext _ (fun j => cos (0 + (dot (kvec B size j) (vec B size q) - dot (kvec B size j) (vec B size i))))) by (intros; now rewrite Rplus_0_l).
    rewrite C2. destruct (i =? q); ring.
  - rewrite (sumR_ext _ (fun j => cos (- (PI / 2) + (dot (kvec B size j) (vec B size q) - dot (kvec B size j) (vec B size i))))) by (intros; apply sin_cos_shift).
    rewrite S2. ring.
Qed.
Print Assumptions C119_orthogonal.
Example C119_orthogonal_ex :
  dual_momenta (SquareLattice numR) [3; 5] /\ lattice_ok (SquareLattice numR) [3; 5] /\ valid_site [3; 5] 4 /\ valid_site [3; 5] 14.
Proof. split; [left; apply (square_unit numR)|]. split; [standard_lattice|]. unfold valid_site. cbn. lia. Qed.

(** The occupations from their Fourier sums. *)
Theorem C119_inverse : forall B size occ, dual_momenta B size -> lattice_ok B size -> vsize occ = prodZ size ->
  exists L ks xs, Lattice numR PI B size true = Ok L /\ omapl (GetMomentum L) (upto (prodZ size)) = Ok ks /\ omapl (GetVector L 0) (upto (prodZ size)) = Ok xs /\
  occ = map (fun x => sumR (map (fun k => cos_amplitude occ k xs * cos (dot k x) + sin_amplitude occ k xs * sin (dot k x))%R ks) / IZR (prodZ size))%R xs.
Proof.
  intros B size occ D H Ho. pose proof (dual_fourier B size D H) as FB. set (P := prodZ size) in *.
  exists (built numR PI B size true), (map (kvec B size) (upto P)), (map (vec B size) (upto P)). split; [now apply lattice_built|].
  split; [apply omapl_pure; intros j Hj; apply upto_In in Hj; now apply kvec_momentum|].
  split; [apply omapl_pure; intros j Hj; apply upto_In in Hj; now apply vector_from_zero|].
  assert (Pp : 0 < P) by (apply (proj2 (grid_sites size true (Hok B size H)))). assert (P0 : IZR P <> 0%R) by (apply IZR_neq; lia).
  rewrite map_map. rewrite <- (map_nth_upto occ 0%R) at 1. rewrite Ho. apply map_ext_in. intros j Hj. apply upto_In in Hj.
  rewrite map_map. unfold P. rewrite (inversion_sum B size H FB occ j Ho Hj). fold P. field. exact P0.
Qed.
Print Assumptions C119_inverse.
Example C119_inverse_ex : dual_momenta (ChainLattice numR) [3] /\ lattice_ok (ChainLattice numR) [3] /\ vsize [1; 0; 2]%R = prodZ [3].
Proof. split; [left; apply (chain_unit numR)|]. split; [standard_lattice|]. reflexivity. Qed.

(** So Fourier sums determine the occupations; structure factors do not. *)
Theorem C119_determined : forall B size occ occ', dual_momenta B size -> lattice_ok B size -> vsize occ = prodZ size -> vsize occ' = prodZ size ->
  exists L ks xs, Lattice numR PI B size true = Ok L /\ omapl (GetMomentum L) (upto (prodZ size)) = Ok ks /\ omapl (GetVector L 0) (upto (prodZ size)) = Ok xs /\
  (Forall (fun k => cos_amplitude occ k xs = cos_amplitude occ' k xs /\ sin_amplitude occ k xs = sin_amplitude occ' k xs) ks -> occ = occ').
Proof.
  intros B size occ occ' D H Ho Ho'. destruct (C119_inverse B size occ D H Ho) as (L & ks & xs & EL & Ek & Ex & R).
  destruct (C119_inverse B size occ' D H Ho') as (L' & ks' & xs' & EL' & Ek' & Ex' & R').
  rewrite EL in EL'. injection EL' as <-. rewrite Ek in Ek'. injection Ek' as <-. rewrite Ex in Ex'. injection Ex' as <-.
  exists L, ks, xs. split; [exact EL|]. split; [exact Ek|]. split; [exact Ex|]. intros F. rewrite R, R'. rewrite Forall_forall in F.
  apply map_ext. intros x. do 2 f_equal. apply map_ext_in. intros k Hk. destruct (F k Hk) as [-> ->]. reflexivity.
Qed.
Print Assumptions C119_determined.
Theorem C119_phases_lost_refuted : exists L sk, Lattice numR PI (ChainLattice numR) [3] true = Ok L /\
  AccumulateSk numR sin cos L [1; 0; 0]%R [0; 0; 0]%R 1%R = Ok sk /\ AccumulateSk numR sin cos L [0; 1; 0]%R [0; 0; 0]%R 1%R = Ok sk.
Proof.
  assert (D : dual_momenta (ChainLattice numR) [3]) by (left; apply (chain_unit numR)).
  assert (H : lattice_ok (ChainLattice numR) [3]) by standard_lattice. assert (V : valid_site [3] 1) by (unfold valid_site; cbn; lia).
  destruct (translated_increments (ChainLattice numR) [3] D H [1; 0; 0]%R [0; 1; 0]%R [0; 0; 0]%R 1%R 1 eq_refl eq_refl eq_refl eq_refl V) as (L & sk & EL & E1 & E2).
  exists L, sk. split; [exact EL|]. split; [exact E1|]. apply E2. rewrite lattice_built in EL by exact H. injection EL as <-.
  intros j j' Hj. unfold valid_site in Hj. cbn in Hj. assert (j = 0 \/ j = 1 \/ j = 2) as [-> |[-> | ->]] by lia;
  vm_compute GetUnMappedSite; intros E; injection E as <-; reflexivity.
Qed.
Print Assumptions C119_phases_lost_refuted.

(** A density wave gives peaks at its momentum and the opposite one only. *)
Theorem C119_density_wave : forall B size occ sk mult a b phi q q' c c',
  dual_momenta B size -> lattice_ok B size -> vsize occ = prodZ size -> vsize sk = prodZ size -> prodZ size < 2 ^ 32 ->
  valid_site size q -> valid_site size q' ->
  exists L k sk', Lattice numR PI B size true = Ok L /\ GetMomentum L q = Ok k /\ AccumulateSk numR sin cos L occ sk mult = Ok sk' /\
  (GetCoordinates (l_grid L) q = Ok c -> GetCoordinates (l_grid L) q' = Ok c' -> opposite_points size c c' ->
   (forall j x, valid_site size j -> GetVector L 0 j = Ok x -> nth (Z.to_nat j) occ 0 = b + a * cos (dot k x + phi))%R ->
   forall i, valid_site size i -> (b = 0%R \/ i <> middle size) ->
   let gain := (nth (Z.to_nat i) sk' 0 - nth (Z.to_nat i) sk 0)%R in
   (i <> q -> i <> q' -> gain = 0%R) /\
   (q <> q' -> i = q \/ i = q' -> gain = mult * a ^ 2 / 4)%R /\
   (q = q' -> i = q -> gain = mult * a ^ 2 * cos phi ^ 2)%R).
Proof.
  intros B size occ sk mult a b phi q q' c c' D H Ho Hs Hlt Hq Hq'. pose proof (dual_fourier B size D H) as FB.
  destruct (increments B size H occ sk mult Ho Hs Hlt) as (sk' & E & _ & _ & I).
  exists (built numR PI B size true), (kvec B size q), sk'. split; [now apply lattice_built|]. split; [now apply kvec_momentum|]. split; [exact E|].
  intros Ec Ec' O W i Hi Hb gain. change (l_grid (built numR PI B size true)) with (HyperCubicGrid size true) in *. pose proof (Hok B size H) as K.
  rewrite grid_coords in Ec, Ec' by assumption. injection Ec as <-. injection Ec' as <-.
  assert (Pp : 0 < prodZ size) by (apply (proj2 (grid_sites size true K))). assert (P0 : IZR (prodZ size) <> 0%R) by (apply IZR_neq; lia).
  assert (W' : forall j, valid_site size j -> (nth (Z.to_nat j) occ 0 = b + a * cos (dot (kvec B size q) (vec B size j) + phi))%R)
    by (intros j Hj; apply (W j); [exact Hj|now apply vector_from_zero]).
  assert (G : gain = (mult * a ^ 2 * ((cos phi * ((if i =? q' then 1 else 0) + (if i =? q then 1 else 0)) / 2) ^ 2 +
     (sin phi * ((if i =? q' then 1 else 0) - (if i =? q then 1 else 0)) / 2) ^ 2))%R).
  { unfold gain. rewrite I by exact Hi. rewrite (wave_intensity B size H FB occ a b phi q q' i Ho Hi Hq Hq' O W' Hb).
    rewrite mult_IZR. field. exact P0. }
  pose proof (sin2_cos2 phi) as S2. unfold Rsqr in S2.
  split; [|split].
  - intros N N'. apply Z.eqb_neq in N, N'. rewrite G, N, N'. field.
  - intros Nq [->| ->].
    + rewrite Z.eqb_refl in G. apply Z.eqb_neq in Nq. rewrite Nq in G. rewrite G.
      transitivity (mult * a ^ 2 / 4 * (sin phi * sin phi + cos phi * cos phi))%R; [field|]. rewrite S2. field.
    + rewrite Z.eqb_refl in G. assert (Nq' : q' <> q) by congruence. apply Z.eqb_neq in Nq'. rewrite Nq' in G. rewrite G.
      transitivity (mult * a ^ 2 / 4 * (sin phi * sin phi + cos phi * cos phi))%R; [field|]. rewrite S2. field.
  - intros <- ->. rewrite Z.eqb_refl in G. rewrite G. field.
Qed.
Print Assumptions C119_density_wave.
Example C119_density_wave_ex :
  opposite_points [4; 4] [0; 0] [0; 0] /\ opposite_points [4; 4] [3; 2] [1; 2] /\
  GetCoordinates (HyperCubicGrid [4; 4] true) 14 = Ok [3; 2] /\ GetCoordinates (HyperCubicGrid [4; 4] true) 6 = Ok [1; 2] /\ middle [4; 4] = 10.
Proof.
  split; [constructor; [exists (-1); reflexivity|constructor; [exists (-1); reflexivity|constructor]]|].
  split; [constructor; [exists 0; reflexivity|constructor; [exists 0; reflexivity|constructor]]|]. repeat split; vm_compute; reflexivity.
Qed.
