(** Property theorems C122 (numbers of walks between sites).  [sequences] and [route] are
    those of S_Diffuse and S_Route, [ends], [reaching] and [band] those of S_Count. *)
From Coq Require Import ZArith Reals List Bool Lia Lra.
From Verif Require Import Base F64 Num S_Math S_Accum M_MathInt L_MathInt M_Grid M_Bravais M_Lattice S_Grid L_Grid S_Bravais S_Lattice S_LatticeN S_Fourier
  L_Bravais L_Lattice L_LatticeN L_Sum L_LatticeK L_Fourier S_Route L_Route S_Diffuse L_Diffuse S_Count L_Count.
Import ListNotations.
Open Scope Z_scope.

Ltac standard_lattice :=
  split; [lazymatch goal with
    | |- well_formed (ChainLattice ?N) => exact (chain_wf N) | |- well_formed (SquareLattice ?N) => exact (square_wf N)
    | |- well_formed (CubicLattice ?N) => exact (cubic_wf N) | |- well_formed (TriangularLattice ?N) => exact (triangular_wf N) end|
  split; [reflexivity|split; [cbn; lia|split; [split; [repeat constructor; lia|vm_compute; reflexivity]|
  split; [reflexivity|repeat constructor; lia]]]]].

(** * C122 *)
(** There are as many walks of n hops from a to b as from b to a, on all closed lattices. *)
Theorem C122_symmetric : forall (T : Type) (N : num T) (pi : T) (B : bravais T) size, lattice_ok B size ->
  exists L, Lattice N pi B size true = Ok L /\ forall a b n, valid_site size a -> valid_site size b ->
  exists es fs, ends L (b_gamma B) a n = Ok es /\ ends L (b_gamma B) b n = Ok fs /\ reaching es b = reaching fs a.
Proof.
  intros T N pi B size H. exists (built N pi B size true). split; [now apply lattice_built|]. intros a b n Ha Hb.
  exists (map (dest B size a) (sequences (b_gamma B) n)), (map (dest B size b) (sequences (b_gamma B) n)).
  split; [now apply ends_spec|]. split; [now apply ends_spec|]. now apply reaching_symmetric.
Qed.
Print Assumptions C122_symmetric.
Example C122_symmetric_ex :
  (L <- Lattice numF pi_d (TriangularLattice numF) [3; 4] true ;; es <- ends L 6 1 3 ;; fs <- ends L 6 5 3 ;; Ok (reaching es 5, reaching fs 1, length es)) =
  Ok (21%nat, 21%nat, 216%nat).
Proof. vm_compute. reflexivity. Qed.

(** Their number from the momenta and vectors of the lattice. *)
Theorem C122_walks : forall B size, dual_momenta B size -> lattice_ok B size ->
  exists L ks ds, Lattice numR PI B size true = Ok L /\ omapl (GetMomentum L) (upto (prodZ size)) = Ok ks /\
  omapl (fun j => GetRealSpace numR B (displacement B j)) (upto (b_gamma B)) = Ok ds /\
  forall a b n, valid_site size a -> valid_site size b ->
  exists es xa xb, ends L (b_gamma B) a n = Ok es /\ GetVector L 0 a = Ok xa /\ GetVector L 0 b = Ok xb /\
  INR (reaching es b) = (sumR (map (fun k => band ds k ^ n * cos (dot k xa - dot k xb)) ks) / IZR (prodZ size))%R.
Proof.
  intros B size D H. pose proof (dual_fourier B size D H) as FB. destruct (ok_dims _ _ H) as [Dm DS].
  exists (built numR PI B size true), (map (kvec B size) (upto (prodZ size))), (map (fun j => pv numR B (displacement B j)) (upto (b_gamma B))).
  split; [now apply lattice_built|]. split; [apply omapl_pure; intros j Hj; apply upto_In in Hj; now apply kvec_momentum|]. split.
  { apply omapl_pure. intros j Hj. apply upto_In in Hj. pose proof (disp_length B size H j Hj). rewrite real_space_pure; [reflexivity|apply H|unfold vsize; lia]. }
  intros a b n Ha Hb. exists (map (dest B size a) (sequences (b_gamma B) n)), (vec B size a), (vec B size b).
  split; [now apply ends_spec|]. split; [now apply vector_from_zero|]. split; [now apply vector_from_zero|].
  assert (Pp : 0 < prodZ size) by (apply (proj2 (grid_sites size true (Hok B size H)))). assert (P0 : IZR (prodZ size) <> 0%R) by (apply IZR_neq; lia).
  rewrite map_map, <- (walks_counted B size H FB a b n Ha Hb). field. exact P0.
Qed.
Print Assumptions C122_walks.
Example C122_walks_ex :
  dual_momenta (CubicLattice numR) [2; 3; 4] /\ lattice_ok (CubicLattice numR) [2; 3; 4] /\ valid_site [2; 3; 4] 0 /\ valid_site [2; 3; 4] 23.
Proof. split; [left; apply (cubic_unit numR)|]. split; [standard_lattice|]. unfold valid_site. cbn. lia. Qed.

(** Returns do not depend on the site and are sums of powers; after an even number of hops
    no site is more likely than the first one. *)
Theorem C122_returns : forall B size, dual_momenta B size -> lattice_ok B size ->
  exists L ks ds, Lattice numR PI B size true = Ok L /\ omapl (GetMomentum L) (upto (prodZ size)) = Ok ks /\
  omapl (fun j => GetRealSpace numR B (displacement B j)) (upto (b_gamma B)) = Ok ds /\
  forall a n, valid_site size a -> exists es, ends L (b_gamma B) a n = Ok es /\
  INR (reaching es a) = (sumR (map (fun k => band ds k ^ n) ks) / IZR (prodZ size))%R /\
  (Nat.even n = true -> forall b, valid_site size b -> (reaching es b <= reaching es a)%nat).
Proof.
  intros B size D H. destruct (C122_walks B size D H) as (L & ks & ds & EL & Ek & Ed & Q). exists L, ks, ds.
  split; [exact EL|]. split; [exact Ek|]. split; [exact Ed|]. intros a n Ha. destruct (Q a a n Ha Ha) as (es & xa & xb & Ee & Ea & Eb & E).
  rewrite Ea in Eb. injection Eb as <-. exists es. split; [exact Ee|].
  assert (E' : INR (reaching es a) = (sumR (map (fun k => band ds k ^ n) ks) / IZR (prodZ size))%R).
  { rewrite E. do 2 f_equal. apply map_ext. intros k. rewrite Rminus_diag_eq, cos_0 by reflexivity. ring. }
  split; [exact E'|]. intros Hn b Hb. destruct (Q a b n Ha Hb) as (es' & xa' & xb & Ee' & _ & _ & F). rewrite Ee in Ee'. injection Ee' as <-.
  apply INR_le. rewrite E', F. assert (Pp : 0 < prodZ size) by (apply (proj2 (grid_sites size true (Hok B size H)))).
  unfold Rdiv. apply Rmult_le_compat_r; [left; apply Rinv_0_lt_compat, IZR_lt, Pp|]. clear - Hn.
  apply Nat.even_spec in Hn. destruct Hn as [q ->]. unfold sumR. induction ks as [|k ks IH]; [cbn; lra|]. cbn [map fold_right]. apply Rplus_le_compat; [|exact IH].
  pose proof (COS_bound (dot k xa' - dot k xb)). assert (0 <= band ds k ^ (2 * q))%R by (rewrite pow_mult; apply pow_le; nra). nra.
Qed.
Print Assumptions C122_returns.
Example C122_returns_ex :
  (L <- Lattice numF pi_d (SquareLattice numF) [3; 4] true ;; es <- ends L 4 7 4 ;; Ok (map (reaching es) (upto 12))) = Ok [28; 12; 28; 17; 8; 32; 8; 38; 28; 12; 28; 17]%nat.
Proof. vm_compute. reflexivity. Qed.

(** After an odd number of hops other sites can be more likely. *)
Theorem C122_odd_refuted :
  (L <- Lattice numF pi_d (SquareLattice numF) [4; 4] true ;; es <- ends L 4 5 3 ;; Ok (map (reaching es) [5; 6])) = Ok [0; 10]%nat.
Proof. vm_compute. reflexivity. Qed.
Print Assumptions C122_odd_refuted.

(** All walks of n hops together, and those of m + n hops through the sites they visit
    after m hops. *)
Theorem C122_split : forall (T : Type) (N : num T) (pi : T) (B : bravais T) size, lattice_ok B size ->
  exists L, Lattice N pi B size true = Ok L /\ forall a n, valid_site size a ->
  exists es, ends L (b_gamma B) a n = Ok es /\ Forall (valid_site size) es /\ INR (length es) = (IZR (b_gamma B) ^ n)%R /\
  forall m b, valid_site size b -> exists fs (gs : Z -> list Z), ends L (b_gamma B) a (n + m) = Ok fs /\ (forall c, valid_site size c -> ends L (b_gamma B) c m = Ok (gs c)) /\
  INR (reaching fs b) = sumR (map (fun c => INR (reaching es c) * INR (reaching (gs c) b))%R (upto (prodZ size))).
Proof.
  intros T N pi B size H. exists (built N pi B size true). split; [now apply lattice_built|]. intros a n Ha.
  exists (map (dest B size a) (sequences (b_gamma B) n)). split; [now apply ends_spec|].
  split. { apply Forall_map. eapply Forall_impl; [|apply sequences_spec]. intros js [_ D]. now apply dest_spec. }
  split; [rewrite map_length; apply sequences_length; apply H|]. intros m b Hb.
  exists (map (dest B size a) (sequences (b_gamma B) (n + m))), (fun c => map (dest B size c) (sequences (b_gamma B) m)).
  split; [now apply ends_spec|]. split; [intros c Hc; now apply ends_spec|]. now apply reaching_split.
Qed.
Print Assumptions C122_split.
Example C122_split_ex :
  (L <- Lattice numF pi_d (ChainLattice numF) [4] true ;; es <- ends L 2 0 2 ;; fs <- ends L 2 0 5 ;; gs <- ends L 2 0 3 ;; hs <- ends L 2 2 3 ;;
   Ok (map (reaching es) (upto 4), reaching fs 1, reaching gs 1, reaching hs 1)) = Ok ([2; 0; 2; 0]%nat, 16%nat, 4%nat, 4%nat).
Proof. vm_compute. reflexivity. Qed.
