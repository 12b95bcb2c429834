(** Lemmas about finite lattices. *)
From Coq Require Import ZArith Reals List Bool Lia Lra.
From Flocq Require Import Core.Core IEEE754.BinarySingleNaN.
From Verif Require Import Base F64 Num S_Math S_Accum M_MathInt M_MathF M_Pairs M_Grid M_Bravais M_Lattice S_Grid S_Bravais S_Lattice
  L_MathInt L_Grid L_Hist L_MathF L_Approx L_Space L_Bravais.
Import ListNotations.
Open Scope Z_scope.

Definition coords_of (size : list Z) (i : Z) : list Z :=
  match index_to_array i size with Ok c => c | _ => [] end.

Lemma coords_of_spec size i : sizes_ok size -> valid_site size i ->
  index_to_array i size = Ok (coords_of size i) /\ on_grid size (coords_of size i) /\ row_major size (coords_of size i) = i.
Proof.
  intros H Hi. unfold coords_of. destruct (site_coords (HyperCubicGrid size true) i H Hi) as (c & E & G & R).
  unfold GetCoordinates in E. cbn [HyperCubicGrid gsize] in *. rewrite E. auto.
Qed.

Lemma coords_of_row_major size c : sizes_ok size -> on_grid size c -> coords_of size (row_major size c) = c.
Proof.
  intros H G. unfold coords_of. pose proof (coords_of_index (HyperCubicGrid size true) c H G) as E.
  unfold GetCoordinates in E. cbn [HyperCubicGrid gsize] in E. now rewrite E.
Qed.

Lemma on_grid_length size c : on_grid size c -> length c = length size.
Proof. induction 1; cbn [length]; congruence. Qed.

Lemma row_major_valid size c : on_grid size c -> valid_site size (row_major size c).
Proof. intros G. apply row_major_range. exact G. Qed.

Lemma inside_spec size : forall c, inside size c = true <-> on_grid size c.
Proof.
  induction size as [|s size IH]; intros [|x c]; cbn [inside].
  - split; [intros; constructor|reflexivity].
  - split; [discriminate|inversion 1].
  - split; [discriminate|inversion 1].
  - rewrite !andb_true_iff, Z.leb_le, Z.ltb_lt, IH. split; [intros [H1 H2]; now constructor|inversion 1; subst; auto].
Qed.

Lemma zeros_origin size : zeros size = origin size.
Proof. reflexivity. Qed.

Section Build.
Context {T : Type} (N : num T) (pi : T).

Lemma ok_dims (B : bravais T) size : lattice_ok B size -> 0 < b_dim B <= 40 /\ Z.of_nat (length size) = b_dim B.
Proof. intros ((Hd & _) & Hs & H40 & _). unfold vsize in Hs. lia. Qed.

Lemma coords_vsize (B : bravais T) size i : lattice_ok B size -> valid_site size i -> vsize (coords_of size i) = b_dim B.
Proof.
  intros H Hi. destruct (ok_dims _ _ H) as [_ D]. destruct H as (_ & _ & _ & Hs & _).
  destruct (coords_of_spec size i Hs Hi) as (_ & G & _). unfold vsize. rewrite (on_grid_length _ _ G). exact D.
Qed.

(** * Neighbours *)
Lemma on_grid_62 size c : sizes_ok size -> on_grid size c -> Forall (fun x => 0 <= x < 2 ^ 62) c.
Proof.
  intros [F _] G. revert F. induction G as [|s x size c Hx G IH]; intros F; [constructor|]. inversion F; subst. constructor; [lia|auto].
Qed.

Lemma direction_Forall (B : bravais T) k (P : Z -> Prop) : Forall P (b_nn B) -> Forall P (direction B k).
Proof.
  intros F. unfold direction. rewrite Forall_forall in *. intros x H. apply F.
  assert (In x (skipn (Z.to_nat (k * b_dim B)) (b_nn B))).
  { revert H. generalize (skipn (Z.to_nat (k * b_dim B)) (b_nn B)) (Z.to_nat (b_dim B)). intros l n.
    revert l. induction n as [|n IH]; intros [|y l]; cbn [firstn In]; try tauto. intros [H|H]; auto. }
  revert H0. generalize (Z.to_nat (k * b_dim B)) (b_nn B). intros n l. revert l. induction n as [|n IH]; intros [|y l]; cbn [skipn In]; try tauto.
  intros H0. right. now apply IH.
Qed.

Lemma zip_Forall2 (P Q R : Z -> Prop) (f : Z -> Z -> Z) a b : (forall x y, P x -> Q y -> R (f x y)) -> Forall P a -> Forall Q b -> Forall R (zip_with f a b).
Proof.
  intros H Fa. revert b. induction Fa as [|x a Hx Fa IH]; intros [|y b] Fb; cbn [zip_with]; try constructor; inversion Fb; subst; auto.
Qed.

Lemma even_split j : j = 2 * (j / 2) + (if Z.even j then 0 else 1).
Proof. rewrite (Z.div_mod j 2) at 1 by lia. rewrite Zmod_even. destruct (Z.even j); lia. Qed.

Lemma half_range (B : bravais T) j : b_gamma B mod 2 = 0 -> 0 <= j < b_gamma B -> 0 <= j / 2 < b_gamma B / 2.
Proof. intros E Hj. Z.to_euclidean_division_equations. lia. Qed.

Lemma displacement_bounds (B : bravais T) size j : lattice_ok B size -> 0 <= j < b_gamma B ->
  vsize (displacement B j) = b_dim B /\ Forall (fun v => - 2 ^ 62 <= v <= 2 ^ 62) (displacement B j).
Proof.
  intros (W & Hs & H40 & Hok & He & Hn) Hj. pose proof (half_range B j He Hj) as Hh. pose proof (direction_length B _ W Hh) as L.
  pose proof (direction_Forall B (j / 2) _ Hn) as F. unfold displacement. destruct (Z.even j); [auto|]. split.
  - unfold vsize in *. now rewrite map_length.
  - apply Forall_map. eapply Forall_impl; [|exact F]. cbn beta. intros v Hv. lia.
Qed.

Lemma neighbor_point (B : bravais T) size c j : lattice_ok B size -> on_grid size c -> 0 <= j < b_gamma B ->
  GetNeighbor B c j = Ok (shifted c (displacement B j)) /\ s64s (shifted c (displacement B j)) /\
  length (shifted c (displacement B j)) = length size.
Proof.
  intros H G Hj. destruct (displacement_bounds B size j H Hj) as [DL DF]. destruct (ok_dims _ _ H) as [Dm DS].
  destruct H as (W & Hs & H40 & Hok & He & Hn). pose proof (half_range B j He Hj) as Hh.
  pose proof (on_grid_62 size c Hok G) as Fc. pose proof (on_grid_length _ _ G) as Lc.
  assert (Vc : vsize c = b_dim B) by (unfold vsize; lia).
  assert (S1 : Forall in_long (shifted c (displacement B j))).
  { unfold shifted. eapply zip_Forall2; [|exact Fc|exact DF]. intros x y. unfold in_long. cbn beta. lia. }
  split; [|split].
  - pose proof (neighbor_spec B c (j / 2) (Z.even j) W Vc Hh) as A. rewrite <- even_split in A.
    assert (Ed : map (fun v => if Z.even j then v else - v) (direction B (j / 2)) = displacement B j).
    { unfold displacement. destruct (Z.even j); [apply map_id|reflexivity]. }
    cbv zeta in A. rewrite Ed in A. apply A; [|exact S1]. eapply Forall_impl; [|exact DF]. intros v. unfold in_long. cbn beta. lia.
  - unfold s64s. eapply Forall_impl; [|exact S1]. intros v. unfold in_long. rewrite two63_eq. lia.
  - unfold shifted. rewrite zip_length. unfold vsize in *. lia.
Qed.

Definition nbrs (B : bravais T) (size : list Z) (cl : bool) (c : list Z) (js : list Z) : list Z :=
  map (row_major size)
    (if cl then map (fun j => reduced_mod size (shifted c (displacement B j))) js
     else filter (inside size) (map (fun j => shifted c (displacement B j)) js)).

Lemma site_neighbors_spec (B : bravais T) size cl c js : lattice_ok B size -> on_grid size c ->
  (forall j, In j js -> 0 <= j < b_gamma B) ->
  site_neighbors (HyperCubicGrid size cl) B c js = Ok (nbrs B size cl c js).
Proof.
  intros H G. pose proof H as (W & Hs & H40 & Hok & He & Hn).
  assert (F63 : Forall (fun s => 0 < s < two63) size) by (apply Forall_lt63, Hok).
  induction js as [|j js IH]; intros Hj; [now destruct cl|].
  destruct (neighbor_point B size c j H G) as (E & S64 & Ln); [apply Hj; now left|].
  specialize (IH ltac:(intros; apply Hj; now right)). cbn [site_neighbors]. rewrite E. cbn [bind].
  assert (En : LatticeEnforceBoundaries (HyperCubicGrid size cl) (shifted c (displacement B j)) = Ok (reduced_mod size (shifted c (displacement B j)))).
  { apply (lenforce_any (HyperCubicGrid size cl)); assumption. }
  assert (Gr : on_grid size (reduced_mod size (shifted c (displacement B j)))) by (apply reduced_on_grid; [now apply sizes_pos|congruence]).
  assert (Ix : GetIndex (HyperCubicGrid size cl) (reduced_mod size (shifted c (displacement B j))) = Ok (row_major size (reduced_mod size (shifted c (displacement B j))))).
  { apply (index_of_coords (HyperCubicGrid size cl)); assumption. }
  cbn [HyperCubicGrid closed]. fold (HyperCubicGrid size cl). destruct cl.
  - cbn [bind]. rewrite En. cbn [bind]. rewrite Ix. cbn [bind]. rewrite IH. reflexivity.
  - unfold IsOnGrid. cbn [HyperCubicGrid gsize]. fold (HyperCubicGrid size false).
    unfold nbrs. cbn [map filter].
    destruct (is_on_grid_spec size (shifted c (displacement B j)) S64 Ln) as [[Eo Go]|[Eo Go]]; rewrite Eo; cbn [bind].
    + rewrite En. cbn [bind]. rewrite Ix. cbn [bind]. rewrite IH. cbn [bind].
      rewrite (proj2 (inside_spec size _) Go). rewrite reduced_fixed by exact Go. reflexivity.
    + rewrite IH. unfold nbrs. destruct (inside size (shifted c (displacement B j))) eqn:Ei; [|reflexivity].
      apply inside_spec in Ei. contradiction.
Qed.

Lemma grid_coords size cl i : sizes_ok size -> valid_site size i -> GetCoordinates (HyperCubicGrid size cl) i = Ok (coords_of size i).
Proof. intros H Hi. apply coords_of_spec; assumption. Qed.

Lemma grid_sites size cl : sizes_ok size -> GetNumSites (HyperCubicGrid size cl) = prodZ size /\ 0 < prodZ size.
Proof. apply numsites_spec. Qed.

Lemma neighbors_built (B : bravais T) size cl : lattice_ok B size ->
  ComputeNeighbors (HyperCubicGrid size cl) B = Ok (map (fun i => nbrs B size cl (coords_of size i) (upto (b_gamma B))) (upto (prodZ size))).
Proof.
  intros H. pose proof H as (W & Hs & H40 & Hok & He & Hn). destruct (grid_sites size cl Hok) as [En Pn].
  unfold ComputeNeighbors. rewrite En. apply omapl_pure. intros i Hi. apply upto_In in Hi.
  rewrite (grid_coords size cl i Hok Hi). cbn [bind]. apply site_neighbors_spec; [exact H| |].
  - now apply coords_of_spec.
  - intros j Hj. now apply upto_In in Hj.
Qed.

(** * Vectors *)
Definition pv (B : bravais T) (c : list Z) : list T := map (row N B c) (upto (b_dim B)).

Lemma zip_sub_zeros size : forall c, length c = length size -> zip_with Z.sub c (zeros size) = c.
Proof.
  induction size as [|s size IH]; intros [|x c] H; try discriminate H; [reflexivity|]. cbn [zeros map zip_with].
  rewrite Z.sub_0_r. f_equal. apply IH. now injection H.
Qed.

Lemma origin_coords size : sizes_ok size -> coords_of size 0 = zeros size.
Proof.
  intros H. rewrite <- (origin_index size). apply coords_of_row_major; [exact H|]. apply origin_on_grid. now apply sizes_pos.
Qed.

Lemma zeros_length size : length (zeros size) = length size. Proof. apply map_length. Qed.

Lemma from_origin (B : bravais T) size c : lattice_ok B size -> length c = length size -> Forall in_long c ->
  BGetVector N B (zeros size) c = Ok (pv B c) /\ BGetDistance N B (zeros size) c = Ok (norm N (pv B c)) /\
  GetDistanceVector N B (zeros size) c = Ok (norm N (pv B c), pv B c).
Proof.
  intros H Lc Fc. destruct (ok_dims _ _ H) as [Dm DS]. destruct H as (W & _).
  assert (Vc : vsize c = b_dim B) by (unfold vsize; lia).
  assert (V0 : vsize (zeros size) = b_dim B) by (unfold vsize; rewrite zeros_length; lia).
  assert (D : diff_ok (zeros size) c) by (unfold diff_ok; now rewrite zip_sub_zeros).
  pose proof (distance_pure N B (zeros size) c W V0 Vc D) as P. cbv zeta in P.
  rewrite (diff_zip (b_dim B)) in P by assumption. rewrite zip_sub_zeros in P by assumption. exact P.
Qed.

Lemma on_grid_long size c : sizes_ok size -> on_grid size c -> Forall in_long c.
Proof. intros H G. eapply Forall_impl; [|exact (on_grid_62 size c H G)]. unfold in_long. intros x. cbn beta. lia. Qed.

Lemma positions_built (B : bravais T) size cl : lattice_ok B size ->
  ComputePositions N (HyperCubicGrid size cl) B = Ok (map (fun i => pv B (coords_of size i)) (upto (prodZ size))).
Proof.
  intros H. pose proof H as (W & Hs & H40 & Hok & He & Hn). destruct (grid_sites size cl Hok) as [En Pn].
  unfold ComputePositions. rewrite En. rewrite grid_coords by (auto; unfold valid_site; lia). cbn [bind]. rewrite origin_coords by exact Hok.
  apply omapl_pure. intros i Hi. apply upto_In in Hi. rewrite (grid_coords size cl i Hok Hi). cbn [bind].
  destruct (coords_of_spec size i Hok Hi) as (_ & G & _). apply from_origin; [exact H|now apply on_grid_length|now apply (on_grid_long size)].
Qed.

(** The images *)
Definition threes (size : list Z) : list Z := map (fun _ => 3) size.
Definition shift_of (size : list Z) (k : Z) : list Z := map (fun x => x - 1) (coords_of (threes size) k).
Definition shifts (size : list Z) : list (list Z) := map (shift_of size) (upto (prodZ (threes size))).

Lemma threes_repeat size : repeat 3 (length size) = threes size.
Proof. induction size as [|s size IH]; [reflexivity|]. cbn [length repeat threes map]. now rewrite IH. Qed.

Lemma threes_prod size : prodZ (threes size) = 3 ^ Z.of_nat (length size).
Proof.
  induction size as [|s size IH]; [reflexivity|]. cbn [threes map prodZ fold_right length].
  change (fold_right Z.mul 1 (map (fun _ => 3) size)) with (prodZ (threes size)). rewrite IH, Nat2Z.inj_succ, Z.pow_succ_r by lia. reflexivity.
Qed.

Lemma threes_ok size : Z.of_nat (length size) <= 40 -> sizes_ok (threes size).
Proof.
  intros H. split.
  - unfold threes. apply Forall_map, Forall_forall. intros. lia.
  - rewrite threes_prod. apply Z.le_lt_trans with (3 ^ 40); [apply Z.pow_le_mono_r; lia|reflexivity].
Qed.

Lemma shell_on_grid size e : shell size e <-> on_grid (threes size) (map (fun x => x + 1) e).
Proof.
  unfold shell. revert e. induction size as [|s size IH]; intros [|x e]; cbn [threes map length].
  - split; [intros; constructor|intros _; split; [reflexivity|constructor]].
  - split; [intros [H _]; discriminate H|inversion 1].
  - split; [intros [H _]; discriminate H|inversion 1].
  - specialize (IH e). fold (threes size). split.
    + intros [H F]. inversion F; subst. constructor; [lia|]. apply IH. split; [now injection H|assumption].
    + inversion 1; subst. destruct IH as [_ IH]. destruct IH as [H1 H2]; [assumption|]. split; [now f_equal|]. constructor; [lia|assumption].
Qed.

Lemma map_shift e : map (fun x => x - 1) (map (fun x => x + 1) e) = e.
Proof. rewrite map_map. rewrite <- (map_id e) at 2. apply map_ext. intros; lia. Qed.
Lemma map_unshift e : map (fun x => x + 1) (map (fun x => x - 1) e) = e.
Proof. rewrite map_map. rewrite <- (map_id e) at 2. apply map_ext. intros; lia. Qed.

Lemma shifts_spec size e : Z.of_nat (length size) <= 40 -> (In e (shifts size) <-> shell size e).
Proof.
  intros H. pose proof (threes_ok size H) as Ht. unfold shifts. rewrite in_map_iff. split.
  - intros (k & <- & Hk). apply upto_In in Hk. apply shell_on_grid. unfold shift_of. rewrite map_unshift.
    now apply coords_of_spec.
  - intros He. apply shell_on_grid in He. exists (row_major (threes size) (map (fun x => x + 1) e)). split.
    + unfold shift_of. rewrite coords_of_row_major by assumption. apply map_shift.
    + apply upto_In. now apply row_major_valid.
Qed.

Lemma image_upto size : forall c e, length c = length size -> length e = length size ->
  map (fun m => nth (Z.to_nat m) c 0 + nth (Z.to_nat m) e 0 * nth (Z.to_nat m) size 0) (upto (vsize size)) = image size c e.
Proof.
  unfold vsize, upto. intros c e. rewrite Nat2Z.id, map_map.
  rewrite (map_ext _ (fun n => nth n c 0 + nth n e 0 * nth n size 0)) by (intros; now rewrite Nat2Z.id).
  revert c e. induction size as [|s size IH]; intros [|x c] [|y e] Hc He; try discriminate; [reflexivity|].
  cbn [length seq map nth image zip_with]. unfold image in IH. f_equal. rewrite <- seq_shift, map_map. apply IH; [now injection Hc|now injection He].
Qed.

Lemma image_long size c e : sizes_ok size -> on_grid size c -> shell size e -> Forall in_long (image size c e).
Proof.
  intros [F _] G. revert e F. unfold image. induction G as [|s x size c Hx G IH]; intros [|y e] F [L S]; cbn [zip_with]; try constructor.
  - inversion S; subst. inversion F; subst. unfold in_long. nia.
  - inversion S; subst. inversion F; subst. apply IH; [assumption|]. split; [now injection L|assumption].
Qed.

Lemma image_length size c e : length c = length size -> length e = length size -> length (image size c e) = length size.
Proof. intros Hc He. unfold image. rewrite !zip_length. lia. Qed.

Lemma shift_image_spec size cl c img : sizes_ok size -> on_grid size c -> shell size (map (fun x => x - 1) img) ->
  shift_image (HyperCubicGrid size cl) c img = Ok (image size c (map (fun x => x - 1) img)).
Proof.
  intros H G S. pose proof (on_grid_length _ _ G) as Lc. pose proof S as [Le Se]. pose proof Le as Li. rewrite map_length in Li.
  unfold shift_image. cbn [HyperCubicGrid dim gsize].
  rewrite <- (image_upto size c (map (fun x => x - 1) img)) by assumption.
  apply omapl_pure. intros m Hm. apply upto_In in Hm. unfold vsize in Hm.
  rewrite (vget_at c m 0), (vget_at img m 0), (vget_at size m 0) by (unfold vsize; lia). cbn [bind].
  assert (Ni : nth (Z.to_nat m) (map (fun x => x - 1) img) 0 = nth (Z.to_nat m) img 0 - 1).
  { rewrite (nth_indep _ 0 ((fun x => x - 1) 0)) by lia. now rewrite (map_nth (fun x => x - 1)). }
  assert (Bi : - 1 <= nth (Z.to_nat m) img 0 - 1 <= 1).
  { rewrite <- Ni. rewrite Forall_forall in Se. apply Se, nth_In. lia. }
  assert (Bc : 0 <= nth (Z.to_nat m) c 0 < nth (Z.to_nat m) size 0).
  { clear - G Hm. assert (Hn : (Z.to_nat m < length size)%nat) by lia. revert Hn. generalize (Z.to_nat m). clear Hm.
    induction G as [|s x size c Hx G IH]; intros [|n] Hn; cbn [length nth] in *; try lia. apply IH. lia. }
  assert (Bs : 0 < nth (Z.to_nat m) size 0 <= 2 ^ 62).
  { destruct H as [F _]. rewrite Forall_forall in F. apply F, nth_In. lia. }
  rewrite s64_ok by (rewrite two63_eq; lia). cbn [bind]. f_equal. rewrite Ni. rewrite to_s64_u64.
  set (d := nth (Z.to_nat m) img 0 - 1) in *. set (x := nth (Z.to_nat m) c 0) in *. set (s := nth (Z.to_nat m) size 0) in *.
  unfold u64. assert (E : to_s64 (x + (d * s) mod two64) = to_s64 (x + d * s)).
  { unfold to_s64. rewrite Zplus_mod_idemp_r. reflexivity. }
  rewrite E. apply to_s64_small. rewrite two63_eq. clearbody d x s. nia.
Qed.

Definition closer (B : bravais T) (size c : list Z) (st : T * list T) (e : list Z) : T * list T :=
  let v := pv B (image size c e) in if n_lt N (norm N v) (fst st) then (norm N v, v) else st.
Definition best (B : bravais T) (size c : list Z) : T * list T :=
  fold_left (closer B size c) (shifts size) (norm N (pv B c), pv B c).

Lemma vectors_built (B : bravais T) size cl : lattice_ok B size ->
  ComputeVectors N (HyperCubicGrid size cl) B =
  Ok (map (fun i => if cl then snd (best B size (coords_of size i)) else pv B (coords_of size i)) (upto (prodZ size))).
Proof.
  intros H. pose proof H as (W & Hs & H40 & Hok & He & Hn). destruct (grid_sites size cl Hok) as [En Pn].
  destruct (ok_dims _ _ H) as [Dm DS].
  unfold ComputeVectors. rewrite En. rewrite grid_coords by (auto; unfold valid_site; lia). cbn [bind]. rewrite origin_coords by exact Hok.
  cbn [HyperCubicGrid dim]. fold (HyperCubicGrid size cl). unfold vsize. rewrite Nat2Z.id, threes_repeat.
  pose proof (threes_ok size ltac:(lia)) as Ht.
  assert (An : accumulate_product_u (threes size) = prodZ (threes size)).
  { pose proof (numsites_spec (threes size) true Ht) as [E _]. exact E. }
  rewrite An.
  apply omapl_pure. intros i Hi. apply upto_In in Hi. rewrite (grid_coords size cl i Hok Hi). cbn [bind].
  destruct (coords_of_spec size i Hok Hi) as (_ & G & _). set (c := coords_of size i) in *. clearbody c.
  destruct (from_origin B size c H (on_grid_length _ _ G) (on_grid_long size c Hok G)) as (_ & _ & E). rewrite E. cbn [bind].
  cbn [HyperCubicGrid closed]. fold (HyperCubicGrid size cl). destruct cl; [|reflexivity].
  rewrite (ofold_pure _ (fun st k => closer B size c st (shift_of size k))).
  - cbn [bind]. f_equal. f_equal. unfold best, shifts. now rewrite fold_left_map.
  - intros st k Hk. apply upto_In in Hk. unfold image_step. destruct (coords_of_spec (threes size) k Ht Hk) as (Ek & Gk & _).
    rewrite Ek. cbn [bind].
    assert (Sh : shell size (shift_of size k)) by (apply shell_on_grid; unfold shift_of; now rewrite map_unshift).
    unfold shift_of in Sh |- *. rewrite shift_image_spec by assumption. cbn [bind].
    destruct (from_origin B size (image size c (map (fun x => x - 1) (coords_of (threes size) k))) H) as (_ & _ & E').
    + apply image_length; [now apply on_grid_length|apply Sh].
    + now apply image_long.
    + rewrite E'. reflexivity.
Qed.

(** * Momenta *)
Definition centred (size c : list Z) : list Z := zip_with (fun x s => x - s / 2) c size.
Definition mom (B : bravais T) (size c : list Z) : list T :=
  map (fun k => n_div N (rrow N pi B (centred size c) k) (n_ofZ N (nth (Z.to_nat k) size 0))) (upto (b_dim B)).

Lemma centred_upto size c : length c = length size ->
  map (fun k => nth (Z.to_nat k) c 0 - nth (Z.to_nat k) size 0 / 2) (upto (vsize c)) = centred size c.
Proof. intros L. unfold centred. apply (zip_upto 0 0 (fun x s => x - s / 2)). unfold vsize. now rewrite L. Qed.

Lemma momentum_spec (B : bravais T) size cl c : lattice_ok B size -> on_grid size c ->
  momentum_of N pi (HyperCubicGrid size cl) B c = Ok (mom B size c).
Proof.
  intros H G. destruct (ok_dims _ _ H) as [Dm DS]. pose proof H as (W & Hs & H40 & Hok & He & Hn).
  pose proof (on_grid_length _ _ G) as Lc. unfold momentum_of. cbn [HyperCubicGrid gsize].
  rewrite (omapl_pure _ (fun k => nth (Z.to_nat k) c 0 - nth (Z.to_nat k) size 0 / 2)).
  2:{ intros m Hm. apply upto_In in Hm. unfold vsize in Hm.
    rewrite (vget_at c m 0), (vget_at size m 0) by (unfold vsize; lia). cbn [bind]. f_equal.
    assert (Bc : 0 <= nth (Z.to_nat m) c 0 < 2 ^ 62).
    { pose proof (on_grid_62 size c Hok G) as F. rewrite Forall_forall in F. apply F, nth_In. lia. }
    assert (Bs : 0 < nth (Z.to_nat m) size 0 <= 2 ^ 62).
    { destruct Hok as [F _]. rewrite Forall_forall in F. apply F, nth_In. lia. }
    rewrite to_s64_u64. apply to_s64_small. rewrite two63_eq. Z.to_euclidean_division_equations. lia. }
  cbn [bind]. rewrite centred_upto by exact Lc.
  assert (Vc : vsize (centred size c) = b_dim B) by (unfold vsize, centred; rewrite zip_length; lia).
  rewrite reciprocal_pure; [|exact W|exact Vc|].
  2:{ unfold centred. eapply (zip_Forall2 (fun x => 0 <= x < 2 ^ 62) (fun s => 0 < s <= 2 ^ 62)); [|now apply (on_grid_62 size)|apply Hok].
    intros x y Hx Hy. Z.to_euclidean_division_equations. lia. }
  cbn [bind]. rewrite vsize_map_upto by lia. apply omapl_pure. intros k Hk. apply upto_In in Hk.
  rewrite (vget_at _ _ (n_ofZ N 0)) by (rewrite vsize_map_upto; lia). rewrite nth_map_upto by lia. cbn [bind].
  rewrite (vget_at size k 0) by (unfold vsize; lia). reflexivity.
Qed.

Lemma momenta_built (B : bravais T) size cl : lattice_ok B size ->
  ComputeMomenta N pi (HyperCubicGrid size cl) B =
  Ok (if cl then map (fun i => mom B size (coords_of size i)) (upto (prodZ size)) else []).
Proof.
  intros H. pose proof H as (W & Hs & H40 & Hok & He & Hn). destruct (grid_sites size cl Hok) as [En Pn].
  unfold ComputeMomenta. rewrite En. cbn [HyperCubicGrid closed]. fold (HyperCubicGrid size cl). destruct cl; [|reflexivity].
  apply omapl_pure. intros i Hi. apply upto_In in Hi. rewrite (grid_coords size true i Hok Hi). cbn [bind].
  apply momentum_spec; [exact H|]. now apply coords_of_spec.
Qed.

Definition built (B : bravais T) (size : list Z) (cl : bool) : lattice :=
  let sites := upto (prodZ size) in
  let vecs := map (fun i => if cl then snd (best B size (coords_of size i)) else pv B (coords_of size i)) sites in
  mkLattice (HyperCubicGrid size cl)
    (map (fun i => pv B (coords_of size i)) sites) vecs
    (map (norm N) vecs)
    (map (fun i => nbrs B size cl (coords_of size i) (upto (b_gamma B))) sites)
    (if cl then map (fun i => mom B size (coords_of size i)) sites else []).

Lemma lattice_built (B : bravais T) size cl : lattice_ok B size -> Lattice N pi B size cl = Ok (built B size cl).
Proof.
  intros H. unfold Lattice. rewrite positions_built, vectors_built, neighbors_built, momenta_built by exact H. reflexivity.
Qed.

Lemma vget_sites {A} (f : Z -> A) n i : 0 <= i < n -> vget (map f (upto n)) i = Ok (f i).
Proof.
  intros H. rewrite (vget_at _ _ (f 0)) by (rewrite vsize_map_upto; lia). now rewrite nth_map_upto.
Qed.
End Build.

(** * C34, C35 *)
Section Neighbours.
Context {T : Type} (N : num T) (pi : T).

Lemma neighbor_lists (B : bravais T) size cl : lattice_ok B size ->
  exists L, Lattice N pi B size cl = Ok L /\ forall i, valid_site size i ->
  exists c nn, GetCoordinates (l_grid L) i = Ok c /\ GetNeighbors L i = Ok nn /\ GetCoordination L i = Ok (vsize nn) /\
  Forall (valid_site size) nn /\
  if cl then nn = map (fun p => row_major size (reduced_mod size p)) (around B c) /\ vsize nn = b_gamma B
  else nn = map (row_major size) (filter (inside size) (around B c)).
Proof.
  intros H. pose proof H as (W & Hs & H40 & Hok & He & Hn).
  exists (built N pi B size cl). split; [now apply lattice_built|]. intros i Hi.
  destruct (coords_of_spec size i Hok Hi) as (Ec & G & R). exists (coords_of size i), (nbrs B size cl (coords_of size i) (upto (b_gamma B))).
  assert (En : GetNeighbors (built N pi B size cl) i = Ok (nbrs B size cl (coords_of size i) (upto (b_gamma B)))).
  { unfold GetNeighbors, built. cbn [l_nn]. now apply (vget_sites (fun i => nbrs B size cl (coords_of size i) (upto (b_gamma B)))). }
  split; [now apply grid_coords|]. split; [exact En|]. split; [unfold GetCoordination; unfold GetNeighbors in En; rewrite En; reflexivity|].
  assert (Gl : forall j, 0 <= j < b_gamma B -> length (shifted (coords_of size i) (displacement B j)) = length size) by (intros j Hj; now apply neighbor_point).
  split.
  - unfold nbrs. destruct cl; apply Forall_map.
    + apply Forall_map, Forall_forall. intros j Hj. apply upto_In in Hj. apply row_major_valid, reduced_on_grid; [now apply sizes_pos|].
      symmetry. now apply Gl.
    + apply Forall_forall. intros p Hp. apply filter_In in Hp as [_ Hp]. apply row_major_valid. now apply inside_spec.
  - unfold nbrs, around. destruct cl; [|reflexivity]. rewrite !map_map. split; [reflexivity|]. apply vsize_map_upto.
    destruct W as (_ & Hg & _). exact Hg.
Qed.

Definition partner (j : Z) : Z := if Z.even j then j + 1 else j - 1.

Lemma partner_spec (B : bravais T) j : b_gamma B mod 2 = 0 -> 0 <= j < b_gamma B ->
  0 <= partner j < b_gamma B /\ displacement B (partner j) = map Z.opp (displacement B j).
Proof.
  intros He Hj. unfold partner, displacement. destruct (Z.even j) eqn:E.
  - apply Z.even_spec in E. destruct E as [k ->]. split; [Z.to_euclidean_division_equations; lia|].
    rewrite Z.even_add, Z.even_mul. cbn [Z.even orb Bool.eqb]. f_equal. f_equal. Z.to_euclidean_division_equations. lia.
  - assert (O : Z.odd j = true) by (rewrite <- Z.negb_even, E; reflexivity). apply Z.odd_spec in O. destruct O as [k ->].
    split; [lia|]. replace (2 * k + 1 - 1) with (2 * k) by lia. rewrite Z.even_mul. cbn [Z.even orb].
    rewrite map_map. replace (2 * k / 2) with ((2 * k + 1) / 2) by (Z.to_euclidean_division_equations; lia).
    rewrite <- (map_id (direction B ((2 * k + 1) / 2))) at 1. apply map_ext. intros; lia.
Qed.

Lemma reduced_back size : forall a d, on_grid size a -> length d = length size ->
  reduced_mod size (shifted (reduced_mod size (shifted a d)) (map Z.opp d)) = a.
Proof.
  unfold reduced_mod, shifted. intros a d G. revert d. induction G as [|s x size a Hx G IH]; intros [|y d] Hl; try discriminate Hl; [reflexivity|].
  cbn [zip_with map map3]. f_equal; [|apply IH; now injection Hl].
  rewrite Zplus_mod_idemp_l. replace (x + y + - y) with x by lia. now apply Z.mod_small.
Qed.

Lemma shifted_opp a : forall d, length d = length a -> shifted (shifted a d) (map Z.opp d) = a.
Proof.
  unfold shifted. induction a as [|x a IH]; intros [|y d] H; try discriminate H; [reflexivity|]. cbn [zip_with map]. f_equal; [lia|].
  apply IH. now injection H.
Qed.

Lemma nbrs_half (B : bravais T) size cl a b : lattice_ok B size -> valid_site size a -> valid_site size b ->
  In b (nbrs B size cl (coords_of size a) (upto (b_gamma B))) -> In a (nbrs B size cl (coords_of size b) (upto (b_gamma B))).
Proof.
  intros H Ha Hb. pose proof H as (W & Hs & H40 & Hok & He & Hn).
  destruct (coords_of_spec size a Hok Ha) as (_ & Ga & Ra). destruct (coords_of_spec size b Hok Hb) as (_ & Gb & Rb).
  unfold nbrs. rewrite !in_map_iff. intros (p & Rp & Hp). destruct cl.
  - apply in_map_iff in Hp as (j & <- & Hj). apply upto_In in Hj. destruct (partner_spec B j He Hj) as [Hj' Ed].
    assert (Ld : length (displacement B j) = length size).
    { destruct (displacement_bounds B size j H Hj) as [L _]. unfold vsize in *. lia. }
    exists (coords_of size a). split; [exact Ra|]. apply in_map_iff. exists (partner j). split; [|now apply upto_In].
    rewrite Ed. rewrite <- Rp. rewrite coords_of_row_major; [|exact Hok|].
    + now apply reduced_back.
    + apply reduced_on_grid; [now apply sizes_pos|]. symmetry. now apply neighbor_point.
  - apply filter_In in Hp as [Hp Ip]. apply in_map_iff in Hp as (j & <- & Hj). apply upto_In in Hj.
    destruct (partner_spec B j He Hj) as [Hj' Ed].
    assert (Ld : length (displacement B j) = length size).
    { destruct (displacement_bounds B size j H Hj) as [L _]. unfold vsize in *. lia. }
    exists (coords_of size a). split; [exact Ra|]. apply filter_In. split; [|now apply inside_spec].
    apply in_map_iff. exists (partner j). split; [|now apply upto_In].
    rewrite Ed. rewrite <- Rp. rewrite coords_of_row_major; [|exact Hok|now apply inside_spec].
    apply shifted_opp. rewrite Ld. symmetry. now apply on_grid_length.
Qed.

Lemma are_neighbors_built (B : bravais T) size cl a b : lattice_ok B size -> valid_site size a ->
  AreNeighbors (built N pi B size cl) a b = Ok (existsb (Z.eqb b) (nbrs B size cl (coords_of size a) (upto (b_gamma B)))).
Proof.
  intros H Ha. unfold AreNeighbors, built. cbn [l_nn].
  rewrite (vget_sites (fun i => nbrs B size cl (coords_of size i) (upto (b_gamma B)))) by exact Ha. reflexivity.
Qed.

Lemma existsb_In b l : existsb (Z.eqb b) l = true <-> In b l.
Proof.
  rewrite existsb_exists. split; [intros (x & Hx & E); apply Z.eqb_eq in E; now subst|intros H; exists b; split; [exact H|apply Z.eqb_refl]].
Qed.

Lemma are_neighbors_sym (B : bravais T) size cl : lattice_ok B size ->
  exists L, Lattice N pi B size cl = Ok L /\ forall a b, valid_site size a -> valid_site size b ->
  exists r nn, AreNeighbors L a b = Ok r /\ AreNeighbors L b a = Ok r /\ GetNeighbors L a = Ok nn /\ (r = true <-> In b nn).
Proof.
  intros H. exists (built N pi B size cl). split; [now apply lattice_built|]. intros a b Ha Hb.
  rewrite !are_neighbors_built by assumption. eexists. exists (nbrs B size cl (coords_of size a) (upto (b_gamma B))). split; [reflexivity|]. split.
  2:{ split; [|apply existsb_In]. unfold GetNeighbors, built. cbn [l_nn]. now apply (vget_sites (fun i => nbrs B size cl (coords_of size i) (upto (b_gamma B)))). }
  f_equal. apply eq_true_iff_eq. rewrite !existsb_In. split; apply nbrs_half; assumption.
Qed.
End Neighbours.

(** * C37 *)
Section Minimum.
Context {T : Type} (N : num T) (pi : T).
Context (lt_trans : forall a b c, n_lt N a b = true -> n_lt N b c = true -> n_lt N a c = true).
Context (lt_irrefl : forall a, n_lt N a a = false).

Lemma image_zero size : forall c, length c = length size -> image size c (zeros size) = c.
Proof.
  unfold image, zeros. induction size as [|s size IH]; intros [|x c] H; try discriminate H; [reflexivity|]. cbn [map zip_with].
  rewrite Z.mul_0_l, Z.add_0_r. f_equal. apply IH. now injection H.
Qed.

Lemma best_spec (B : bravais T) size c : length c = length size -> Z.of_nat (length size) <= 40 ->
  let r := best N B size c in
  fst r = norm N (snd r) /\
  (exists e, shell size e /\ snd r = pv N B (image size c e)) /\
  (forall e, shell size e -> n_lt N (norm N (pv N B (image size c e))) (fst r) = false).
Proof.
  intros Hc H40 r. subst r. unfold best.
  assert (Z0 : shell size (zeros size)).
  { split; [apply zeros_length|]. apply Forall_map, Forall_forall. intros. lia. }
  assert (G : forall l st, (forall e, In e l -> shell size e) ->
    (fst st = norm N (snd st) /\ exists e, shell size e /\ snd st = pv N B (image size c e)) ->
    let r := fold_left (closer N B size c) l st in
    (fst r = norm N (snd r) /\ exists e, shell size e /\ snd r = pv N B (image size c e)) /\
    (fst r = fst st \/ n_lt N (fst r) (fst st) = true) /\
    (forall e, In e l -> n_lt N (norm N (pv N B (image size c e))) (fst r) = false)).
  { induction l as [|e l IH]; intros st Hl Hst; [cbn; intuition auto|]. cbn [fold_left].
    assert (Hst' : fst (closer N B size c st e) = norm N (snd (closer N B size c st e)) /\
      exists e', shell size e' /\ snd (closer N B size c st e) = pv N B (image size c e')).
    { unfold closer. destruct (n_lt N _ (fst st)); [|exact Hst]. split; [reflexivity|]. exists e. split; [apply Hl; now left|reflexivity]. }
    destruct (IH (closer N B size c st e) ltac:(intros; apply Hl; now right) Hst') as (A & M & F). cbv zeta in *.
    set (r := fold_left (closer N B size c) l (closer N B size c st e)) in *.
    assert (Hc1 : n_lt N (norm N (pv N B (image size c e))) (fst (closer N B size c st e)) = false /\
      (fst (closer N B size c st e) = fst st \/ n_lt N (fst (closer N B size c st e)) (fst st) = true)).
    { unfold closer. destruct (n_lt N _ (fst st)) eqn:E; cbn [fst]; [split; [apply lt_irrefl|now right]|split; [exact E|now left]]. }
    destruct Hc1 as [C1 C2]. split; [exact A|]. split.
    - destruct M as [->|M]; [exact C2|]. destruct C2 as [<-|C2]; [now right|]. right. eapply lt_trans; eauto.
    - intros e' [<-|He']; [|now apply F]. destruct M as [->|M]; [exact C1|].
      destruct (n_lt N (norm N (pv N B (image size c e))) (fst r)) eqn:E; [|reflexivity].
      rewrite (lt_trans _ _ _ E M) in C1. discriminate C1. }
  destruct (G (shifts size) (norm N (pv N B c), pv N B c)) as ((A & e & Se & Ee) & _ & F).
  - intros e He. now apply shifts_spec.
  - cbn [fst snd]. split; [reflexivity|]. exists (zeros size). split; [exact Z0|]. now rewrite image_zero.
  - split; [exact A|]. split; [exists e; auto|]. intros e' He'. apply F. now apply shifts_spec.
Qed.

(** GetDistance and GetVector through the mapped site *)
Lemma distance_built (B : bravais T) (size : list Z) (cl : bool) (s : Z) : lattice_ok B size -> valid_site size s ->
  let v := if cl then snd (best N B size (coords_of size s)) else pv N B (coords_of size s) in
  vget (l_vec (built N pi B size cl)) s = Ok v /\ vget (l_dist (built N pi B size cl)) s = Ok (norm N v).
Proof.
  intros H Hs v. unfold built. cbn [l_vec l_dist]. rewrite map_map. split.
  - now rewrite (vget_sites (fun i => if cl then snd (best N B size (coords_of size i)) else pv N B (coords_of size i))).
  - now rewrite (vget_sites (fun i => norm N (if cl then snd (best N B size (coords_of size i)) else pv N B (coords_of size i)))).
Qed.

Lemma closed_distance (B : bravais T) size a b : lattice_ok B size -> valid_site size a -> valid_site size b ->
  let c := seen_from size (coords_of size a) (coords_of size b) in
  on_grid size c /\
  GetVector (built N pi B size true) a b = Ok (snd (best N B size c)) /\
  GetDistance (built N pi B size true) a b = Ok (norm N (snd (best N B size c))).
Proof.
  intros H Ha Hb c. pose proof H as (W & Hs & H40 & Hok & He & Hn).
  destruct (coords_of_spec size a Hok Ha) as (_ & Ga & Ra). destruct (coords_of_spec size b Hok Hb) as (_ & Gb & Rb).
  assert (Gc : on_grid size c) by now apply seen_from_on_grid.
  assert (M : GetMappedSite (HyperCubicGrid size true) a b = Ok (row_major size c)).
  { rewrite <- Ra, <- Rb. apply (mapped_closed (HyperCubicGrid size true)); auto. }
  destruct (distance_built B size true (row_major size c) H (row_major_valid _ _ Gc)) as [V D].
  cbv zeta in V, D. rewrite coords_of_row_major in V, D by assumption.
  split; [exact Gc|]. unfold GetVector, GetDistance. change (l_grid (built N pi B size true)) with (HyperCubicGrid size true).
  rewrite M. cbn [bind]. auto.
Qed.

Lemma minimum_over_shell (B : bravais T) size : lattice_ok B size ->
  exists L, Lattice N pi B size true = Ok L /\ forall a b ca cb, valid_site size a -> valid_site size b ->
  GetCoordinates (l_grid L) a = Ok ca -> GetCoordinates (l_grid L) b = Ok cb ->
  let c := seen_from size ca cb in
  exists d v e0, GetDistance L a b = Ok d /\ GetVector L a b = Ok v /\ shell size e0 /\
  GetDistanceVector N B (zeros size) (image size c e0) = Ok (d, v) /\
  forall e, shell size e -> exists d', BGetDistance N B (zeros size) (image size c e) = Ok d' /\ n_lt N d' d = false.
Proof.
  intros H. exists (built N pi B size true). split; [now apply lattice_built|]. intros a b ca cb Ha Hb Ea Eb c.
  pose proof H as (W & Hs & H40 & Hok & He & Hn). destruct (ok_dims _ _ H) as [Dm DS].
  change (l_grid (built N pi B size true)) with (HyperCubicGrid size true) in Ea, Eb.
  rewrite grid_coords in Ea, Eb by assumption. injection Ea as <-. injection Eb as <-.
  destruct (closed_distance B size a b H Ha Hb) as (Gc & V & D). fold c in Gc, V, D.
  destruct (best_spec B size c (on_grid_length _ _ Gc) ltac:(lia)) as (E1 & (e0 & S0 & E0) & F).
  exists (norm N (snd (best N B size c))), (snd (best N B size c)), e0. split; [exact D|]. split; [exact V|]. split; [exact S0|]. split.
  - rewrite E0. apply from_origin; [exact H|apply image_length; [now apply on_grid_length|apply S0]|now apply image_long].
  - intros e Se. eexists. split.
    + apply from_origin; [exact H|apply image_length; [now apply on_grid_length|apply Se]|now apply image_long].
    + rewrite <- E1. now apply F.
Qed.
End Minimum.

Lemma flt_trans a b c : flt a b = true -> flt b c = true -> flt a c = true.
Proof. intros H1 H2. apply fle_flt_trans with b; [now apply flt_fle|exact H2]. Qed.
