(** Lemmas about the counting of walks. *)
From Coq Require Import ZArith Reals List Bool Lia Lra Permutation.
From Verif Require Import Base F64 Num S_Math S_Accum M_MathInt L_MathInt M_Grid M_Bravais M_Lattice S_Grid L_Grid S_Bravais S_Lattice S_LatticeN
  L_Bravais L_Lattice L_LatticeN L_Sum L_LatticeK L_Fourier L_Bonds S_Jump L_Jump S_Route L_Route S_Diffuse L_Diffuse S_Waves L_Waves S_Count.
Import ListNotations.
Open Scope Z_scope.

Lemma reaching_sum es b : INR (reaching es b) = sumR (map (fun e => if e =? b then 1 else 0)%R es).
Proof.
  unfold reaching, sumR. induction es as [|e es IH]; [reflexivity|]. cbn [count_occ map fold_right]. destruct (Z.eq_dec e b) as [->|N].
  - rewrite Z.eqb_refl, S_INR, IH. ring.
  - apply Z.eqb_neq in N. rewrite N, IH. ring.
Qed.

Lemma wave_moment g (u : Z -> R) : sumR (map (fun j => sin (u j)) (upto g)) = 0%R -> forall n A,
  sumR (map (fun js => cos (A + sumR (map u js))) (sequences g n)) = (sumR (map (fun j => cos (u j)) (upto g)) ^ n * cos A)%R.
Proof.
  intros Z n. induction n as [|n IH]; intros A; [unfold sumR; cbn; rewrite !Rplus_0_r; ring|]. cbn [sequences]. rewrite sumR_flat.
  set (E := sumR (map (fun j => cos (u j)) (upto g))) in *.
  rewrite (sumR_ext _ (fun j => (E ^ n * cos A) * cos (u j) + (- (E ^ n * sin A)) * sin (u j))%R).
  - rewrite sumR_plus, !sumR_scal, Z. fold E. cbn [pow]. ring.
  - intros j _. rewrite map_map. rewrite (sumR_ext _ (fun js => cos ((A + u j) + sumR (map u js)))).
    + rewrite IH, cos_plus. ring.
    + intros js _. cbn [map]. unfold sumR at 1. cbn [fold_right]. fold (sumR (map u js)). f_equal. ring.
Qed.

Lemma sequences_permuted g (f : Z -> Z) : Permutation (map f (upto g)) (upto g) -> forall n, Permutation (map (map f) (sequences g n)) (sequences g n).
Proof.
  intros P n. induction n as [|n IH]; [reflexivity|]. cbn [sequences].
  transitivity (flat_map (fun j => map (cons j) (sequences g n)) (map f (upto g))).
  - generalize (upto g). clear P. intros l. induction l as [|j l IHl]; [reflexivity|]. cbn [flat_map map]. rewrite map_app. apply Permutation_app; [|exact IHl].
    rewrite map_map. rewrite <- IH at 2. rewrite map_map. reflexivity.
  - now apply Permutation_flat_map.
Qed.

Lemma sumR_pick a (f : Z -> R) n : 0 <= a < n -> sumR (map (fun c => (if c =? a then 1 else 0) * f c)%R (upto n)) = f a.
Proof.
  intros Ha. assert (Nd : NoDup (upto n)) by apply upto_NoDup. assert (I : In a (upto n)) by now apply upto_In. revert Nd I. unfold sumR. generalize (upto n). clear.
  induction l as [|x l IH]; intros Nd I; [destruct I|]. inversion Nd as [|? ? Nx Nl]; subst. cbn [map fold_right]. destruct (x =? a) eqn:E.
  - apply Z.eqb_eq in E. subst x. enough (Z0 : fold_right Rplus 0%R (map (fun c => (if c =? a then 1 else 0) * f c)%R l) = 0%R) by (rewrite Z0; ring).
    clear - Nx. induction l as [|y l IH]; [reflexivity|]. cbn [map fold_right]. rewrite IH by (intros I; apply Nx; now right).
    destruct (y =? a) eqn:E; [apply Z.eqb_eq in E; subst y; exfalso; apply Nx; now left|ring].
  - destruct I as [->|I]; [apply Z.eqb_neq in E; congruence|]. rewrite (IH Nl I). ring.
Qed.

Section Dest.
Context {T : Type} (N : num T) (pi : T) (B : bravais T) (size : list Z).
Hypothesis H : lattice_ok B size.
Let ok : sizes_ok size := proj1 (proj2 (proj2 (proj2 H))).
Let pos : Forall (fun s => 0 < s) size := sizes_pos size ok.

Definition dest (a : Z) (js : list Z) : Z := row_major size (hop size (coords_of size a) (overall B js)).

Lemma dest_spec a js : valid_site size a -> directions B js -> valid_site size (dest a js) /\ coords_of size (dest a js) = hop size (coords_of size a) (overall B js).
Proof.
  intros Ha D. destruct (coords_of_spec size a ok Ha) as (_ & G & _). pose proof (overall_length B size H js D) as Lo.
  assert (Gd : on_grid size (hop size (coords_of size a) (overall B js))) by (apply hop_on_grid; [exact pos|now apply on_grid_length|exact Lo]).
  split; [now apply row_major_valid|]. unfold dest. now apply coords_of_row_major.
Qed.

Lemma route_ends js : directions B js -> forall a, valid_site size a ->
  exists w, route (built N pi B size true) a js = Ok w /\ last w a = dest a js.
Proof.
  unfold directions. induction 1 as [|j js Hj F IH]; intros a Ha; destruct (coords_of_spec size a ok Ha) as (_ & G & R); pose proof (on_grid_length _ _ G) as Lg.
  - exists []. split; [reflexivity|]. cbn [last]. unfold dest, overall. cbn [fold_right]. rewrite (dim_length B size H). rewrite hop_zero by exact G. now symmetry.
  - pose proof (disp_length B size H j Hj) as Ld. set (c := coords_of size a) in *. set (d := displacement B j) in *.
    assert (Gd : on_grid size (hop size c d)) by now apply hop_on_grid.
    pose proof (row_major_valid _ _ Gd) as Vb. set (b := row_major size (hop size c d)) in *.
    assert (Cb : coords_of size b = hop size c d) by (unfold b; now apply coords_of_row_major).
    destruct (IH b Vb) as (w & Ew & Lw). exists (b :: w).
    assert (Lo : length (overall B js) = length size) by now apply (overall_length B size H).
    assert (En : GetNeighbors (built N pi B size true) a = Ok (nbrs B size true c (upto (b_gamma B)))) by now apply get_neighbors.
    assert (Ev : vget (nbrs B size true c (upto (b_gamma B))) j = Ok b).
    { unfold nbrs. rewrite map_map. rewrite (vget_sites (fun j => row_major size (reduced_mod size (shifted c (displacement B j))))) by exact Hj. reflexivity. }
    cbn [route]. rewrite En. cbn [bind]. rewrite Ev. cbn [bind]. rewrite Ew. cbn [bind]. split; [reflexivity|]. rewrite last_cons, Lw. unfold dest.
    cbn [overall fold_right]. fold (overall B js). fold d c. rewrite Cb. f_equal. unfold hop. rewrite zip_add_assoc.
    now rewrite (reduced_shift size (shifted c d)) by (try exact pos; try exact Lo; now apply shifted_length).
Qed.

Lemma ends_spec a n : valid_site size a -> ends (built N pi B size true) (b_gamma B) a n = Ok (map (dest a) (sequences (b_gamma B) n)).
Proof.
  intros Ha. unfold ends. apply omapl_pure. intros js Hjs. pose proof (sequences_spec (b_gamma B) n) as F. rewrite Forall_forall in F. destruct (F js Hjs) as [_ D].
  destruct (route_ends js D a Ha) as (w & Ew & Lw). rewrite Ew. cbn [bind]. now rewrite Lw.
Qed.

Lemma overall_opposite js : directions B js -> overall B (map partner js) = map Z.opp (overall B js).
Proof.
  unfold directions, overall. induction 1 as [|j js Hj F IH]; cbn [map fold_right].
  - clear. induction (Z.to_nat (b_dim B)) as [|n IH]; [reflexivity|]. cbn [repeat map]. now rewrite <- IH.
  - pose proof H as (_ & _ & _ & _ & He & _). rewrite IH. destruct (partner_spec B j He Hj) as [_ ->].
    generalize (displacement B j), (fold_right (fun j v => shifted (displacement B j) v) (repeat 0 (Z.to_nat (b_dim B))) js). clear.
    unfold shifted. induction l as [|x l IH]; intros [|y m]; try reflexivity. cbn [map zip_with]. rewrite IH. f_equal. lia.
Qed.

Lemma hop_back sz : Forall (fun s => 0 < s) sz -> forall a b v, on_grid sz a -> on_grid sz b -> length v = length sz ->
  hop sz a v = b -> hop sz b (map Z.opp v) = a.
Proof.
  induction 1 as [|s l Hs SP IH]; intros a b v Ga Gb Lv E.
  - inversion Ga; inversion Gb; subst. destruct v; [reflexivity|discriminate].
  - inversion Ga as [|? x ? a' Hx Ga']; subst. destruct v as [|y v]; [discriminate|]. rewrite hop_cons in *. inversion Gb as [|? ? ? ? Hb Gb']; subst.
    cbn [map]. rewrite hop_cons. f_equal; [|apply (IH a' (hop l a' v) v); try assumption; [now injection Lv|reflexivity]].
    rewrite Zplus_mod_idemp_l. replace (x + y + - y) with x by ring. now apply Z.mod_small.
Qed.

Lemma dest_back a b js : valid_site size a -> valid_site size b -> directions B js -> dest a js = b -> dest b (map partner js) = a.
Proof.
  intros Ha Hb D E. destruct (coords_of_spec size a ok Ha) as (_ & Ga & Ra). destruct (coords_of_spec size b ok Hb) as (_ & Gb & Rb).
  destruct (dest_spec a js Ha D) as [_ C]. rewrite E in C. unfold dest. rewrite overall_opposite by exact D.
  rewrite (hop_back size pos (coords_of size a) (coords_of size b)); [exact Ra|exact Ga|exact Gb|now apply (overall_length B size H)|now symmetry].
Qed.

Lemma partner_directions js : directions B js -> directions B (map partner js).
Proof.
  unfold directions. intros D. apply Forall_map. eapply Forall_impl; [|exact D]. intros j Hj. pose proof H as (_ & _ & _ & _ & He & _). now apply (partner_spec B).
Qed.

Lemma partner_map_involutive js : map partner (map partner js) = js.
Proof. rewrite map_map. rewrite <- (map_id js) at 2. apply map_ext. apply partner_involutive. Qed.

Lemma partners_permuted : Permutation (map partner (upto (b_gamma B))) (upto (b_gamma B)).
Proof.
  pose proof H as (_ & _ & _ & _ & He & _).
  apply injective_upto; [intros j Hj; now apply (partner_spec B)|]. intros j l _ _ E. rewrite <- (partner_involutive j), E. apply partner_involutive.
Qed.

Lemma reaching_symmetric a b n : valid_site size a -> valid_site size b ->
  reaching (map (dest a) (sequences (b_gamma B) n)) b = reaching (map (dest b) (sequences (b_gamma B) n)) a.
Proof.
  intros Ha Hb. apply INR_eq. rewrite !reaching_sum, !map_map.
  rewrite <- (sumR_perm _ _ (Permutation_map (fun js => if dest b js =? a then 1 else 0)%R (sequences_permuted _ _ partners_permuted n))). rewrite map_map.
  apply sumR_ext. intros js Hjs. pose proof (sequences_spec (b_gamma B) n) as F. rewrite Forall_forall in F. destruct (F js Hjs) as [_ D].
  destruct (dest a js =? b) eqn:E1; destruct (dest b (map partner js) =? a) eqn:E2; try reflexivity; exfalso.
  - apply Z.eqb_eq in E1. apply Z.eqb_neq in E2. apply E2. now apply dest_back.
  - apply Z.eqb_eq in E2. apply Z.eqb_neq in E1. apply E1. rewrite <- (partner_map_involutive js). apply dest_back; try assumption. now apply partner_directions.
Qed.

Lemma dest_app a js ks : valid_site size a -> directions B js -> directions B ks -> dest a (js ++ ks) = dest (dest a js) ks.
Proof.
  intros Ha D D'. destruct (dest_spec a js Ha D) as [V C]. unfold dest at 1 2. rewrite C. f_equal. rewrite (overall_app B size H) by assumption.
  destruct (coords_of_spec size a ok Ha) as (_ & G & _). pose proof (on_grid_length _ _ G) as Lg. unfold hop. rewrite zip_add_assoc.
  pose proof (overall_length B size H js D) as L1. pose proof (overall_length B size H ks D') as L2.
  now rewrite (reduced_shift size (shifted (coords_of size a) (overall B js))) by (try exact pos; try exact L2; now apply shifted_length).
Qed.

Lemma reaching_split a b n m : valid_site size a -> valid_site size b ->
  INR (reaching (map (dest a) (sequences (b_gamma B) (n + m))) b) =
  sumR (map (fun c => INR (reaching (map (dest a) (sequences (b_gamma B) n)) c) * INR (reaching (map (dest c) (sequences (b_gamma B) m)) b))%R (upto (prodZ size))).
Proof.
  intros Ha Hb. set (g := b_gamma B).
  assert (Q : forall F : list Z -> R, sumR (map F (sequences g (n + m))) = sumR (map (fun js => sumR (map (fun ks => F (js ++ ks)) (sequences g m))) (sequences g n))).
  { clear. induction n as [|n IH]; intros F; [unfold sumR; cbn; rewrite Rplus_0_r; reflexivity|]. cbn [Nat.add sequences]. rewrite !sumR_flat. apply sumR_ext. intros j _.
    rewrite !map_map. rewrite (IH (fun js => F (j :: js))). reflexivity. }
  pose proof (sequences_spec g n) as Fn. pose proof (sequences_spec g m) as Fm. rewrite Forall_forall in Fn, Fm.
  rewrite reaching_sum, map_map, Q.
  rewrite (sumR_ext (fun c => INR (reaching (map (dest a) (sequences g n)) c) * INR (reaching (map (dest c) (sequences g m)) b))%R
    (fun c => sumR (map (fun js => (if c =? dest a js then 1 else 0) * INR (reaching (map (dest c) (sequences g m)) b))%R (sequences g n)))).
  - symmetry. rewrite sumR_swap. symmetry. apply sumR_ext. intros js Hjs. destruct (Fn js Hjs) as [_ D]. destruct (dest_spec a js Ha D) as [V _].
    rewrite (sumR_pick (dest a js) (fun c => INR (reaching (map (dest c) (sequences g m)) b))) by exact V.
    rewrite reaching_sum, map_map. apply sumR_ext. intros ks Hks. destruct (Fm ks Hks) as [_ D']. now rewrite dest_app.
  - intros c _. rewrite reaching_sum, map_map, Rmult_comm, <- sumR_scal. apply sumR_ext. intros js _. rewrite (Z.eqb_sym c). ring.
Qed.
End Dest.

Lemma frac_shifted size : forall m d e, length m = length size -> length d = length size -> length e = length size ->
  frac size m (shifted d e) = (frac size m d + frac size m e)%R.
Proof.
  unfold shifted. induction size as [|s size IH]; intros [|x m] [|y d] [|z e] Hm Hd He; try discriminate; [cbn; ring|].
  cbn [zip_with frac]. rewrite IH by (cbn [length] in *; lia). rewrite Z.mul_add_distr_l, plus_IZR. unfold Rdiv. ring.
Qed.

Lemma frac_opp size : forall m d, frac size m (map Z.opp d) = (- frac size m d)%R.
Proof.
  induction size as [|s size IH]; intros [|x m] [|y d]; cbn [map frac]; try ring. rewrite IH, Z.mul_opp_r, opp_IZR. unfold Rdiv. ring.
Qed.

Lemma hop_moved size : forall c v, length c = length size -> length v = length size -> hop size c v = moved_by size c v.
Proof.
  induction size as [|s size IH]; intros [|x c] [|y v] Lc Lv; try discriminate; [reflexivity|]. rewrite hop_cons. unfold moved_by. cbn [map3]. f_equal. apply IH; cbn [length] in *; lia.
Qed.

Section Count.
Variables (B : bravais R) (size : list Z).
Hypothesis H : lattice_ok B size.
Hypothesis FB : fourier B size.
Let P := prodZ size.
Let g := b_gamma B.
Let k := kvec B size.
Let x := vec B size.
Let m (i : Z) := centred size (coords_of size i).
Let u (i j : Z) : R := (2 * PI * frac size (m i) (displacement B j))%R.

Lemma centred_length i : valid_site size i -> length (m i) = length size.
Proof. intros Hi. exact (m_len B size H i Hi). Qed.

Lemma frac_overall i js : valid_site size i -> directions B js -> (2 * PI * frac size (m i) (overall B js))%R = sumR (map (u i) js).
Proof.
  intros Hi D. unfold directions in D. induction D as [|j js Hj F IH].
  - cbn [overall fold_right map]. rewrite (dim_length B size H). set (z := repeat 0 (length size)).
    assert (E : map Z.opp z = z) by (unfold z; clear; induction (length size) as [|n IH]; [reflexivity|]; cbn [repeat map]; now rewrite IH).
    pose proof (frac_opp size (m i) z) as E2. rewrite E in E2. replace (frac size (m i) z) with 0%R by lra. unfold sumR. cbn. ring.
  - cbn [overall fold_right map]. fold (overall B js). rewrite frac_shifted; [|now apply centred_length|now apply (disp_length B size H)|now apply (overall_length B size H)].
    unfold sumR. cbn [fold_right]. fold (sumR (map (u i) js)). rewrite <- IH. unfold u. ring.
Qed.

Lemma sines_cancel i : sumR (map (fun j => sin (u i j)) (upto g)) = 0%R.
Proof.
  unfold g. assert (E : sumR (map (fun j => sin (u i j)) (upto (b_gamma B))) = (-1 * sumR (map (fun j => sin (u i j)) (upto (b_gamma B))))%R).
  { rewrite <- (sumR_perm _ _ (Permutation_map (fun j => sin (u i j)) (partners_permuted B size H))) at 1. rewrite map_map, <- sumR_scal.
    apply sumR_ext. intros j Hj. apply upto_In in Hj. pose proof H as (_ & _ & _ & _ & He & _). unfold u. destruct (partner_spec B j He Hj) as [_ ->].
    rewrite frac_opp. replace (2 * PI * - frac size (m i) (displacement B j))%R with (- (2 * PI * frac size (m i) (displacement B j)))%R by ring. rewrite sin_neg. ring. }
  lra.
Qed.

Lemma band_value i : valid_site size i -> band (map (fun j => pv numR B (displacement B j)) (upto g)) (k i) = sumR (map (fun j => cos (u i j)) (upto g)).
Proof.
  intros Hi. unfold band. rewrite map_map. apply sumR_ext. intros j Hj. apply upto_In in Hj. unfold k, kvec.
  rewrite FB; [reflexivity|exact (c_on B size H i Hi)|now apply (disp_length B size H)].
Qed.

Lemma dest_phase i a js b theta : valid_site size i -> valid_site size a -> valid_site size b -> directions B js ->
  cos (theta + (dot (k i) (x (dest B size a js)) - dot (k i) (x b))) = cos ((theta + (dot (k i) (x a) - dot (k i) (x b))) + sumR (map (u i) js)).
Proof.
  intros Hi Ha Hb D. destruct (dest_spec B size H a js Ha D) as [V C]. pose proof (Spos B size H) as SP.
  destruct (site_phase B size H FB i _ Hi V) as [z1 E1]. destruct (site_phase B size H FB i a Hi Ha) as [z2 E2]. unfold k, x. rewrite E1, E2, C.
  pose proof (c_len B size H a Ha) as La. pose proof (overall_length B size H js D) as Lo. rewrite hop_moved by assumption.
  destruct (frac_moved size SP (centred size (coords_of size i)) (coords_of size a) (overall B js)) as [z3 E3]; [exact (m_len B size H i Hi)|exact La|exact Lo|].
  rewrite E3. rewrite <- (frac_overall i js Hi D). unfold m.
  set (f1 := frac size (centred size (coords_of size i)) (coords_of size a)). set (f2 := frac size (centred size (coords_of size i)) (overall B js)). set (y := dot _ (vec B size b)).
  rewrite <- (cos_turns (theta + (2 * PI * f1 + 2 * PI * IZR z2 - y) + 2 * PI * f2) (z1 + z3 - z2)). f_equal. rewrite minus_IZR, plus_IZR. ring.
Qed.

Lemma walks_counted a b n : valid_site size a -> valid_site size b ->
  (INR (reaching (map (dest B size a) (sequences g n)) b) * IZR P)%R =
  sumR (map (fun i => band (map (fun j => pv numR B (displacement B j)) (upto g)) (k i) ^ n * cos (dot (k i) (x a) - dot (k i) (x b)))%R (upto P)).
Proof.
  intros Ha Hb. rewrite reaching_sum, map_map. pose proof (sequences_spec g n) as F. rewrite Forall_forall in F.
  rewrite Rmult_comm, <- sumR_scal.
  rewrite (sumR_ext _ (fun js => sumR (map (fun i => cos ((0 + (dot (k i) (x a) - dot (k i) (x b))) + sumR (map (u i) js))) (upto P)))).
  - rewrite sumR_swap. apply sumR_ext. intros i Hi. apply upto_In in Hi. rewrite wave_moment by apply sines_cancel. rewrite band_value by exact Hi. now rewrite Rplus_0_l.
  - intros js Hjs. destruct (F js Hjs) as [_ D]. destruct (dest_spec B size H a js Ha D) as [V _].
    rewrite (sumR_ext _ (fun i => cos (0 + (dot (k i) (x (dest B size a js)) - dot (k i) (x b))))).
    + unfold k, x, P. rewrite (complete B size H FB) by assumption. rewrite cos_0. ring.
    + intros i Hi. apply upto_In in Hi. symmetry. now apply dest_phase.
Qed.
End Count.
