(** Lemmas about the momenta and the structure factors of lattices. *)
From Coq Require Import ZArith Reals List Bool Lia Lra.
From Verif Require Import Base F64 Num S_Math S_Accum M_MathInt M_MathF M_Pairs M_Grid M_Bravais M_Lattice S_Grid S_Bravais S_Lattice
  L_MathInt L_Grid L_MathF L_Bravais L_Lattice.
Import ListNotations.
Open Scope Z_scope.

Lemma momentum_built {T} (N : num T) pi (B : bravais T) size a : lattice_ok B size -> valid_site size a ->
  GetMomentum (built N pi B size true) a = Ok (mom N pi B size (coords_of size a)).
Proof. intros H Ha. unfold GetMomentum, built. cbn [l_mom]. now apply (vget_sites (fun i => mom N pi B size (coords_of size i))). Qed.

Lemma open_momentum {T} (N : num T) pi (B : bravais T) size : lattice_ok B size ->
  exists L, Lattice N pi B size false = Ok L /\ (forall a, 0 <= a -> GetMomentum L a = UB) /\
  (forall fmt wr fs fname, SaveMomenta fmt wr L fs fname = UB).
Proof.
  intros H. exists (built N pi B size false). split; [now apply lattice_built|]. split; [intros a Ha; unfold GetMomentum, built; cbn [l_mom]; apply vget_oob; cbn; lia|].
  intros. pose proof H as (W & Hs & H40 & Hok & He & Hn). destruct (grid_sites size false Hok) as [En Pn].
  unfold SaveMomenta, site_file, site_lines. change (l_grid (built N pi B size false)) with (HyperCubicGrid size false). rewrite En.
  assert (E : exists l, upto (prodZ size) = 0 :: l).
  { destruct (upto (prodZ size)) as [|z l] eqn:E; [pose proof (upto_length (prodZ size)) as Lu; rewrite E in Lu; cbn in Lu; lia|].
    exists l. f_equal. pose proof (upto_nth (prodZ size) 0%nat 0 ltac:(lia)) as U. rewrite E in U. cbn in U. lia. }
  destruct E as [l ->]. reflexivity.
Qed.

Lemma vsize_zip {A B C} (f : A -> B -> C) a b : vsize b = vsize a -> vsize (zip_with f a b) = vsize a.
Proof. unfold vsize. intros H. rewrite zip_length; lia. Qed.

(** * C39: unit lattices *)
Lemma unit_mom B size c : unit_lattice 0%R 1%R B -> lattice_ok B size -> on_grid size c -> mom numR PI B size c = allowed size c.
Proof.
  intros U H G. destruct (ok_dims _ _ H) as [Dm DS]. pose proof (on_grid_length _ _ G) as Lc. unfold mom, allowed.
  rewrite <- (zip_upto 0 0 (fun x s => 2 * PI * IZR (x - s / 2) / IZR s)%R) by (unfold vsize; now rewrite Lc).
  replace (vsize c) with (b_dim B) by (unfold vsize; lia).
  apply map_ext_in. intros k Hk. apply upto_In in Hk. rewrite rrow_R. cbn [numR n_div n_ofZ]. f_equal.
  assert (Ek : nth (Z.to_nat k) (centred size c) 0 = nth (Z.to_nat k) c 0 - nth (Z.to_nat k) size 0 / 2).
  { rewrite <- centred_upto by exact Lc. rewrite nth_map_upto by (unfold vsize; lia). reflexivity. }
  rewrite <- Ek. unfold sum_upto.
  rewrite <- (sum_delta (b_dim B) k (fun l => 2 * PI * IZR (nth (Z.to_nat l) (centred size c) 0%Z))%R) by exact Hk.
  apply sumR_ext. intros j Hj. apply upto_In in Hj. destruct U as [W U]. destruct (U k j Hk Hj) as [_ ->]. destruct (k =? j); ring.
Qed.

Lemma unit_momenta B size : unit_lattice 0%R 1%R B -> lattice_ok B size ->
  exists L, Lattice numR PI B size true = Ok L /\ forall a c, valid_site size a -> GetCoordinates (l_grid L) a = Ok c ->
  GetMomentum L a = Ok (allowed size c).
Proof.
  intros U H. exists (built numR PI B size true). split; [now apply lattice_built|]. intros a c Ha Ec.
  pose proof H as (W & Hs & H40 & Hok & He & Hn). change (l_grid (built numR PI B size true)) with (HyperCubicGrid size true) in Ec.
  rewrite grid_coords in Ec by assumption. injection Ec as <-. rewrite momentum_built by assumption. f_equal.
  apply unit_mom; [exact U|exact H|]. now apply coords_of_spec.
Qed.

Lemma allowed_period size : Forall (fun s => 0 < s) size -> forall c e, length c = length size -> length e = length size ->
  exists z, dot (allowed size c) (map IZR (zip_with Z.mul e size)) = (2 * PI * IZR z)%R.
Proof.
  unfold dot, allowed. induction 1 as [|s size Hs F IH]; intros [|x c] [|y e] Hc Hd; try discriminate Hc; try discriminate Hd.
  - exists 0. cbn. ring.
  - destruct (IH c e) as [z Ez]; [now injection Hc|now injection Hd|]. exists ((x - s / 2) * y + z).
    cbn [zip_with map]. unfold sumR in *. cbn [fold_right]. rewrite Ez, plus_IZR, !mult_IZR. field. apply IZR_neq. lia.
Qed.

Lemma allowed_inj size : Forall (fun s => 0 < s) size -> forall c d, length c = length size -> length d = length size ->
  allowed size c = allowed size d -> c = d.
Proof.
  unfold allowed. induction 1 as [|s size Hs F IH]; intros [|x c] [|y d] Hc Hd; try discriminate Hc; try discriminate Hd; [reflexivity|].
  cbn [zip_with]. intros E. injection E as E1 E2. f_equal; [|apply IH; [now injection Hc|now injection Hd|exact E2]].
  pose proof PI_RGT_0 as Pp. assert (S0 : IZR s <> 0%R) by (apply IZR_neq; lia).
  assert (E3 : (IZR (x - s / 2) = IZR (y - s / 2))%R).
  { apply (Rmult_eq_reg_l (2 * PI / IZR s)%R).
    - transitivity (2 * PI * IZR (x - s / 2) / IZR s)%R; [field; exact S0|]. rewrite E1. field. exact S0.
    - unfold Rdiv. apply Rmult_integral_contrapositive_currified; [lra|]. now apply Rinv_neq_0_compat. }
  apply eq_IZR in E3. lia.
Qed.

Lemma unit_periods B size : unit_lattice 0%R 1%R B -> lattice_ok B size ->
  exists L, Lattice numR PI B size true = Ok L /\
  (forall a e, valid_site size a -> length e = length size -> exists m p z, GetMomentum L a = Ok m /\
     GetRealSpace numR B (zip_with Z.mul e size) = Ok p /\ dot m p = (2 * PI * IZR z)%R) /\
  (forall a b, valid_site size a -> valid_site size b -> GetMomentum L a = GetMomentum L b -> a = b).
Proof.
  intros U H. exists (built numR PI B size true). split; [now apply lattice_built|].
  pose proof H as (W & Hs & H40 & Hok & He & Hn). destruct (ok_dims _ _ H) as [Dm DS]. split.
  - intros a e Ha Le. destruct (coords_of_spec size a Hok Ha) as (_ & Ga & _).
    destruct (allowed_period size (sizes_pos _ Hok) (coords_of size a) e (on_grid_length _ _ Ga) Le) as [z Ez].
    do 2 eexists. exists z. split; [rewrite momentum_built by assumption; reflexivity|]. split; [apply (unit_R_real B _ U)|].
    + unfold vsize. rewrite zip_length; lia.
    + rewrite unit_mom by assumption. exact Ez.
  - intros a b Ha Hb E. rewrite !momentum_built in E by assumption. injection E as E.
    destruct (coords_of_spec size a Hok Ha) as (_ & Ga & Ra). destruct (coords_of_spec size b Hok Hb) as (_ & Gb & Rb).
    rewrite !unit_mom in E by assumption. apply allowed_inj in E; [congruence|now apply sizes_pos|now apply on_grid_length|now apply on_grid_length].
Qed.

(** Equal extents: every Bravais lattice with dual vectors. *)
Lemma dot_scal s : forall r x, dot (map (fun y => y / s)%R r) x = (dot r x / s)%R.
Proof.
  unfold dot. intros r. induction r as [|y r IH]; intros [|z x]; unfold sumR in *; cbn [map zip_with fold_right]; unfold Rdiv; try ring.
  fold (Rdiv y s). rewrite IH. unfold Rdiv. ring.
Qed.

Lemma equal_periods B size s : inverse_matrices B -> lattice_ok B size -> Forall (eq s) size ->
  exists L, Lattice numR PI B size true = Ok L /\
  forall a e, valid_site size a -> length e = length size -> exists m p z, GetMomentum L a = Ok m /\
     GetRealSpace numR B (zip_with Z.mul e size) = Ok p /\ dot m p = (2 * PI * IZR z)%R.
Proof.
  intros I H Fs. exists (built numR PI B size true). split; [now apply lattice_built|].
  pose proof H as (W & Hs & H40 & Hok & He & Hn). destruct (ok_dims _ _ H) as [Dm DS].
  intros a e Ha Le. destruct (coords_of_spec size a Hok Ha) as (_ & Ga & _). set (c := coords_of size a) in *.
  pose proof (on_grid_length _ _ Ga) as Lc.
  assert (Vc : vsize (centred size c) = b_dim B) by (unfold vsize, centred; rewrite zip_length; lia).
  assert (Ve : vsize (zip_with Z.mul e size) = b_dim B) by (unfold vsize; rewrite zip_length; lia).
  destruct (duality B (centred size c) (zip_with Z.mul e size) W I Vc Ve) as (r & x & Er & Ex & D).
  { unfold centred. eapply (zip_Forall2 (fun x => 0 <= x < 2 ^ 62) (fun s => 0 < s <= 2 ^ 62)); [|now apply (on_grid_62 size)|apply Hok].
    intros u v Hu Hv. Z.to_euclidean_division_equations. lia. }
  assert (Sp : 0 < s).
  { destruct Hok as [F _]. destruct size as [|t size]; [cbn in DS; lia|]. inversion Fs; subst. inversion F; subst. lia. }
  assert (Em : mom numR PI B size c = map (fun y => y / IZR s)%R r).
  { rewrite reciprocal_pure in Er; [|exact W|exact Vc|].
    2:{ unfold centred. eapply (zip_Forall2 (fun x => 0 <= x < 2 ^ 62) (fun s => 0 < s <= 2 ^ 62)); [|now apply (on_grid_62 size)|apply Hok].
      intros u v Hu Hv. Z.to_euclidean_division_equations. lia. }
    injection Er as <-. unfold mom. rewrite map_map. apply map_ext_in. intros k Hk. apply upto_In in Hk. cbn [numR n_div n_ofZ]. do 2 f_equal.
    rewrite Forall_forall in Fs. symmetry. apply Fs. apply nth_In. lia. }
  assert (Ez : exists z, sum_upto (b_dim B) (fun j => IZR (nth (Z.to_nat j) (centred size c) 0%Z) * IZR (nth (Z.to_nat j) (zip_with Z.mul e size) 0%Z))%R = (IZR z * IZR s)%R).
  { unfold sum_upto. assert (G : forall j, In j (upto (b_dim B)) -> nth (Z.to_nat j) (zip_with Z.mul e size) 0 = nth (Z.to_nat j) e 0 * s).
    { intros j Hj. apply upto_In in Hj. destruct (zip_nth Z.mul e size (Z.to_nat j)) as [En _]; [lia|lia|]. rewrite En. f_equal.
      rewrite Forall_forall in Fs. symmetry. apply Fs. apply nth_In. lia. }
    revert G. generalize (upto (b_dim B)) as l. induction l as [|j l IH]; intros G; [exists 0; cbn; ring|].
    destruct IH as [z Ez]; [intros; apply G; now right|]. exists (nth (Z.to_nat j) (centred size c) 0 * nth (Z.to_nat j) e 0 + z).
    unfold sumR in *. cbn [map fold_right]. rewrite Ez, (G j) by now left. rewrite plus_IZR, !mult_IZR. ring. }
  destruct Ez as [z Ez]. exists (mom numR PI B size c), x, z. split; [now apply momentum_built|]. split; [exact Ex|].
  rewrite Em, dot_scal, D, Ez. field. apply IZR_neq. lia.
Qed.

(** Unequal extents of the triangular lattice. *)
Lemma triangular_momentum :
  exists L m p, Lattice numR PI (TriangularLattice numR) [2; 4] true = Ok L /\ GetMomentum L 2 = Ok m /\
  GetRealSpace numR (TriangularLattice numR) (zip_with Z.mul [0; 1] [2; 4]) = Ok p /\ dot m p = (- PI)%R.
Proof.
  assert (H : lattice_ok (TriangularLattice numR) [2; 4]).
  { split; [apply triangular_wf|]. repeat split; try reflexivity; try (repeat constructor; lia). cbn. lia. }
  exists (built numR PI (TriangularLattice numR) [2; 4] true). do 2 eexists. split; [now apply lattice_built|].
  split; [apply momentum_built; [exact H|unfold valid_site; cbn; lia]|]. split; [apply real_space_pure; [apply triangular_wf|reflexivity]|].
  replace (coords_of [2; 4] 2) with [0; 2] by (vm_compute; reflexivity).
  unfold dot, mom. change (b_dim (TriangularLattice numR)) with 2. change (upto 2) with [0; 1].
  change (centred [2; 4] [0; 2]) with [-1; 0]. change (zip_with Z.mul [0; 1] [2; 4]) with [0; 4].
  cbn [map zip_with]. rewrite !rrow_R, !row_R. change (b_dim (TriangularLattice numR)) with 2.
  pose proof sqrt3_pos as S3. eval_sum. field_simplify; lra.
Qed.

(** * C40 *)
Lemma zip_sites {A B C} (d : A) (f : A -> B -> C) (g : Z -> B) a :
  zip_with f a (map g (upto (vsize a))) = map (fun j => f (nth (Z.to_nat j) a d) (g j)) (upto (vsize a)).
Proof.
  transitivity (zip_with f (map (fun j => nth (Z.to_nat j) a d) (upto (vsize a))) (map g (upto (vsize a)))); [now rewrite map_nth_upto|].
  apply zip_map.
Qed.

Lemma ofold_ext {A S} (f g : S -> A -> out S) l : (forall s a, In a l -> f s a = g s a) -> forall s, ofold f l s = ofold g l s.
Proof.
  induction l as [|a l IH]; intros E s; [reflexivity|]. cbn [ofold]. rewrite E by now left. destruct (g s a); cbn [bind]; try reflexivity.
  apply IH. intros. apply E. now right.
Qed.

Section Structure.
Context (B : bravais R) (size : list Z) (H : lattice_ok B size).
Notation L := (built numR PI B size true).
Definition vec (j : Z) : list R := snd (best numR B size (coords_of size j)).

Lemma vector_from_zero j : valid_site size j -> GetVector L 0 j = Ok (vec j).
Proof.
  intros Hj. pose proof H as (W & Hs & H40 & Hok & He & Hn). unfold GetVector. change (l_grid L) with (HyperCubicGrid size true).
  rewrite (mapped_from_origin (HyperCubicGrid size true)) by assumption || reflexivity. cbn [bind].
  destruct (distance_built numR PI B size true j H Hj) as [V _]. exact V.
Qed.

Lemma vec_size j : vsize (vec j) = b_dim B.
Proof.
  destruct (ok_dims _ _ H) as [Dm DS]. unfold vec, best.
  assert (G : forall l st, vsize (snd st) = b_dim B -> vsize (snd (fold_left (closer numR B size (coords_of size j)) l st)) = b_dim B).
  { induction l as [|e l IH]; intros st Hst; [exact Hst|]. cbn [fold_left]. apply IH. unfold closer. destruct (n_lt numR _ _); [|exact Hst].
    cbn [snd]. unfold pv. now apply vsize_map_upto; lia. }
  apply G. cbn [snd]. unfold pv. apply vsize_map_upto. lia.
Qed.

Lemma phase_spec k x : vsize k = b_dim B -> vsize x = b_dim B -> phase numR L k x = Ok (dot k x).
Proof.
  intros Hk Hx. destruct (ok_dims _ _ H) as [Dm DS]. unfold phase. change (dim (l_grid L)) with (vsize size).
  replace (vsize size) with (b_dim B) by (unfold vsize; lia).
  rewrite (ofold_pure _ (fun p q => (p + nth (Z.to_nat q) k 0 * nth (Z.to_nat q) x 0)%R)).
  - rewrite (fold_sum (fun q => (nth (Z.to_nat q) k 0 * nth (Z.to_nat q) x 0)%R)). cbn [numR n_ofZ]. rewrite Rplus_0_l. unfold dot.
    do 2 f_equal. rewrite <- Hk. apply (zip_upto 0%R 0%R Rmult). congruence.
  - intros p q Hq. apply upto_In in Hq. rewrite (vget_at k q 0%R), (vget_at x q 0%R) by lia. reflexivity.
Qed.

Lemma amplitude_spec occ k : vsize occ = prodZ size -> vsize k = b_dim B ->
  amplitude numR sin cos L occ k =
  Ok (sumR (zip_with (fun n x => n * sin (dot k x)) occ (map vec (upto (prodZ size)))),
      sumR (zip_with (fun n x => n * cos (dot k x)) occ (map vec (upto (prodZ size)))))%R.
Proof.
  intros Ho Hk. pose proof H as (W & Hs & H40 & Hok & He & Hn). destruct (grid_sites size true Hok) as [En Pn].
  unfold amplitude. change (l_grid L) with (HyperCubicGrid size true). rewrite En.
  rewrite (ofold_pure _ (fun st j => (fst st + nth (Z.to_nat j) occ 0 * sin (dot k (vec j)), snd st + nth (Z.to_nat j) occ 0 * cos (dot k (vec j))))%R).
  - cbn [numR n_ofZ].
    assert (G : forall l a b, fold_left (fun st j => (fst st + nth (Z.to_nat j) occ 0 * sin (dot k (vec j)), snd st + nth (Z.to_nat j) occ 0 * cos (dot k (vec j))))%R l (a, b) =
      (a + sumR (map (fun j => nth (Z.to_nat j) occ 0 * sin (dot k (vec j))) l), b + sumR (map (fun j => nth (Z.to_nat j) occ 0 * cos (dot k (vec j))) l))%R).
    { induction l as [|j l IH]; intros a b; unfold sumR in *; cbn [fold_left map fold_right fst snd]; [f_equal; ring|]. rewrite IH. f_equal; ring. }
    rewrite G, !Rplus_0_l, <- Ho.
    now rewrite (zip_sites 0%R (fun n x => n * sin (dot k x))%R), (zip_sites 0%R (fun n x => n * cos (dot k x))%R).
  - intros st j Hj. apply upto_In in Hj. rewrite vector_from_zero by exact Hj. cbn [bind].
    rewrite phase_spec by (auto using vec_size). cbn [bind]. rewrite (vget_at occ j 0%R) by lia. cbn [bind numR n_add n_mul].
    do 2 f_equal; ring.
Qed.

Definition kvec (i : Z) : list R := mom numR PI B size (coords_of size i).

Lemma accumulate_spec occ sk mult : vsize occ = prodZ size -> vsize sk = prodZ size -> prodZ size < 2 ^ 32 ->
  AccumulateSk numR sin cos L occ sk mult =
  Ok (map (fun i => nth (Z.to_nat i) sk 0 + mult * intensity occ (kvec i) (map vec (upto (prodZ size))) / IZR (prodZ size * prodZ size))%R (upto (prodZ size))).
Proof.
  intros Ho Hsk Hlt. pose proof H as (W & Hs & H40 & Hok & He & Hn). destruct (grid_sites size true Hok) as [En Pn].
  destruct (ok_dims _ _ H) as [Dm DS].
  unfold AccumulateSk. change (l_grid L) with (HyperCubicGrid size true). change (closed (HyperCubicGrid size true)) with true. cbv iota zeta. rewrite En.
  set (n := prodZ size) in *.
  assert (Sq : square_u n = n * n) by (unfold square_u; apply u64_small; rewrite two64_eq; nia).
  assert (Vk : forall i, vsize (kvec i) = b_dim B) by (intros i; unfold kvec, mom; apply vsize_map_upto; lia).
  rewrite (ofold_ext _ (fun s i => x <- vget s i ;; y <- Ok (x + mult * intensity occ (kvec i) (map vec (upto n)) / IZR (n * n))%R ;; vset s i y)).
  - rewrite <- Hsk.
    rewrite (update_each 0%R (fun i x => Ok (x + mult * intensity occ (kvec i) (map vec (upto (vsize sk))) / IZR (vsize sk * vsize sk))%R)
      (fun i x => (x + mult * intensity occ (kvec i) (map vec (upto (vsize sk))) / IZR (vsize sk * vsize sk))%R) sk); [reflexivity|].
    intros. reflexivity.
  - intros s i Hi. apply upto_In in Hi. unfold built at 1. cbn [l_mom].
    rewrite (vget_sites (fun i => mom numR PI B size (coords_of size i))) by exact Hi. fold (kvec i). cbn [bind].
    rewrite amplitude_spec by auto. cbn [bind fst snd]. destruct (vget s i) as [x| | |]; cbn [bind]; try reflexivity.
    f_equal. rewrite Sq. cbn [numR n_add n_div n_mul n_ofZ]. unfold intensity. fold n. f_equal. f_equal. ring.
Qed.

Lemma kvec_momentum i : valid_site size i -> GetMomentum L i = Ok (kvec i).
Proof. intros Hi. now apply momentum_built. Qed.

Lemma structure_spec occ sk mult : vsize occ = prodZ size -> vsize sk = prodZ size -> prodZ size < 2 ^ 32 ->
  exists sk' xs, AccumulateSk numR sin cos L occ sk mult = Ok sk' /\ vsize sk' = prodZ size /\
  omapl (GetVector L 0) (upto (prodZ size)) = Ok xs /\
  forall i, valid_site size i -> exists k, GetMomentum L i = Ok k /\
  nth (Z.to_nat i) sk' 0%R = (nth (Z.to_nat i) sk 0 + mult * intensity occ k xs / IZR (prodZ size * prodZ size))%R.
Proof.
  intros Ho Hsk Hlt. pose proof H as (W & Hs & H40 & Hok & He & Hn). destruct (grid_sites size true Hok) as [En Pn].
  eexists. exists (map vec (upto (prodZ size))). split; [now apply accumulate_spec|]. split; [apply vsize_map_upto; lia|]. split.
  - apply omapl_pure. intros j Hj. apply upto_In in Hj. now apply vector_from_zero.
  - intros i Hi. exists (kvec i). split; [now apply kvec_momentum|]. rewrite nth_map_upto by exact Hi. reflexivity.
Qed.
End Structure.

Lemma intensity_nonneg occ k xs : (0 <= intensity occ k xs)%R.
Proof. unfold intensity. apply Rplus_le_le_0_compat; apply pow2_ge_0. Qed.

Lemma intensity_bound k : forall occ xs, (intensity occ k xs <= sum_abs occ ^ 2)%R.
Proof.
  unfold intensity, sum_abs. intros occ. induction occ as [|n occ IH]; intros xs; [cbn; lra|]. destruct xs as [|x xs].
  - unfold sumR. cbn [zip_with fold_right map]. fold (sumR (map Rabs occ)). rewrite pow_i by lia. rewrite Rplus_0_l. apply pow2_ge_0.
  - cbn [zip_with map]. unfold sumR at 1 2 3. cbn [fold_right].
    fold (sumR (zip_with (fun n x => n * cos (dot k x))%R occ xs)) (sumR (zip_with (fun n x => n * sin (dot k x))%R occ xs)) (sumR (map Rabs occ)).
    specialize (IH xs). assert (A0 : (0 <= sumR (map Rabs occ))%R).
    { clear. induction occ as [|y occ IH]; unfold sumR in *; cbn [map fold_right]; [lra|]. pose proof (Rabs_pos y). lra. }
    set (C := sumR (zip_with (fun n x => n * cos (dot k x))%R occ xs)) in *. set (S := sumR (zip_with (fun n x => n * sin (dot k x))%R occ xs)) in *.
    set (A := sumR (map Rabs occ)) in *. set (t := dot k x). clearbody C S A t.
    pose proof (sin2_cos2 t) as E. unfold Rsqr in E. set (c := cos t) in *. set (s := sin t) in *. clearbody c s.
    assert (Q : ((C * c + S * s) ^ 2 <= A ^ 2)%R) by (pose proof (pow2_ge_0 (C * s - S * c)); nra).
    assert (P : (n * (C * c + S * s) <= Rabs n * A)%R).
    { eapply Rle_trans; [apply Rle_abs|]. rewrite Rabs_mult. apply Rmult_le_compat_l; [apply Rabs_pos|].
      rewrite <- (Rabs_pos_eq A) by exact A0. apply Rsqr_le_abs_0. unfold Rsqr. lra. }
    pose proof (Rsqr_abs n) as N2. unfold Rsqr in N2. nra.
Qed.

Lemma dot_zeros k x : Forall (eq 0%R) k -> dot k x = 0%R.
Proof.
  unfold dot. intros F. revert x. induction F as [|y k <- F IH]; intros [|z x]; unfold sumR in *; cbn [zip_with fold_right]; try reflexivity.
  rewrite IH. ring.
Qed.

Lemma intensity_zero_momentum k occ xs : Forall (eq 0%R) k -> length xs = length occ -> intensity occ k xs = (sumR occ ^ 2)%R.
Proof.
  intros F Hl. unfold intensity.
  assert (G : forall (f : R -> R), sumR (zip_with (fun n x => n * f (dot k x))%R occ xs) = (f 0 * sumR occ)%R).
  { intros f. revert xs Hl. induction occ as [|n occ IH]; intros [|x xs] Hl; try discriminate Hl; unfold sumR in *; cbn [zip_with fold_right]; [ring|].
    rewrite IH by now injection Hl. rewrite dot_zeros by exact F. ring. }
  rewrite (G cos), (G sin), cos_0, sin_0. ring.
Qed.

Lemma intensity_empty k occ xs : Forall (eq 0%R) occ -> intensity occ k xs = 0%R.
Proof.
  intros F. unfold intensity.
  assert (G : forall (f : R -> R), sumR (zip_with (fun n x => n * f (dot k x))%R occ xs) = 0%R).
  { intros f. revert xs. induction F as [|n occ <- F IH]; intros [|x xs]; unfold sumR in *; cbn [zip_with fold_right]; try reflexivity. rewrite IH. ring. }
  rewrite (G cos), (G sin). ring.
Qed.

(** The site in the middle has zero momentum. *)
Lemma middle_momentum B size : lattice_ok B size ->
  exists L, Lattice numR PI B size true = Ok L /\ valid_site size (middle size) /\
  exists k, GetMomentum L (middle size) = Ok k /\ Forall (eq 0%R) k.
Proof.
  intros H. exists (built numR PI B size true). split; [now apply lattice_built|].
  pose proof H as (W & Hs & H40 & Hok & He & Hn). destruct (ok_dims _ _ H) as [Dm DS].
  assert (G : on_grid size (map (fun s => s / 2) size)).
  { pose proof (sizes_pos _ Hok) as F. clear - F. induction F as [|s size Hs F IH]; constructor; [Z.to_euclidean_division_equations; lia|exact IH]. }
  assert (V : valid_site size (middle size)) by now apply row_major_valid.
  split; [exact V|]. eexists. split; [now apply momentum_built|]. unfold middle. rewrite coords_of_row_major by assumption.
  unfold mom. apply Forall_map, Forall_forall. intros k Hk. apply upto_In in Hk. rewrite rrow_R. cbn [numR n_div n_ofZ].
  assert (Z0 : forall j, nth j (centred size (map (fun s => s / 2) size)) 0 = 0).
  { unfold centred. clear. induction size as [|s size IH]; intros [|j]; cbn [map zip_with nth]; try reflexivity; [lia|]. apply IH. }
  unfold sum_upto. rewrite (sumR_ext _ (fun _ => 0%R)) by (intros; rewrite Z0; ring). rewrite sumR_zero. unfold Rdiv. ring.
Qed.
