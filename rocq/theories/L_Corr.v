(** Lemmas about structure factors and pairs of sites. *)
From Coq Require Import ZArith Reals List Bool Lia Lra Permutation.
From Flocq Require Import Core.
From Verif Require Import Base F64 Num S_Math S_Accum M_MathInt M_MathF M_Pairs M_Grid M_Bravais M_Lattice S_Grid S_Bravais S_Lattice
  S_Geom S_Fourier S_Corr L_MathInt L_Grid L_MathF L_Bravais L_Lattice L_Sum L_LatticeK L_Geom L_Fourier L_BravaisAcc.
Import ListNotations.
Open Scope Z_scope.

Lemma seen_congruent size : Forall (fun s => 0 < s) size -> forall x y, length x = length size -> length y = length size ->
  Forall3 (fun s d e => (s | e - d)) size (zip_with Z.sub y x) (seen_from size x y).
Proof.
  unfold seen_from. induction 1 as [|s l Hs SP IH]; intros [|x0 x] [|y0 y] Lx Ly; try discriminate; [constructor|].
  cbn [zip_with map3]. constructor; [|apply IH; cbn [length] in *; lia].
  exists (- ((y0 - x0) / s)). pose proof (Z.div_mod (y0 - x0) s ltac:(lia)). lia.
Qed.

Lemma frac_zeros size : forall m, frac size m (zeros size) = 0%R.
Proof.
  induction size as [|s l IH]; intros [|x m]; try reflexivity. cbn [zeros map frac]. fold (zeros l). rewrite IH, Z.mul_0_r. unfold Rdiv. ring.
Qed.

Section Pairs.
Variables (B : bravais R) (size : list Z).
Hypothesis H : lattice_ok B size.
Hypothesis FB : fourier B size.
Let P := prodZ size.
Let c (j : Z) := coords_of size j.
Let m (i : Z) := centred size (c i).
Let th (i j : Z) := (2 * PI * frac size (m i) (c j))%R.

Lemma pair_phase i a b v : valid_site size i -> valid_site size a -> valid_site size b ->
  GetVector (built numR PI B size true) a b = Ok v ->
  exists z, dot (kvec B size i) v = (th i b - th i a + 2 * PI * IZR z)%R.
Proof.
  intros Hi Ha Hb E. destruct (closed_distance numR PI B size a b H Ha Hb) as (_ & E' & _). rewrite E' in E. injection E as <-.
  pose proof (Hok B size H) as K. pose proof (Spos B size H) as SP.
  pose proof (c_on B size H a Ha) as Ga. pose proof (c_on B size H b Hb) as Gb.
  set (s := seen_from size (coords_of size a) (coords_of size b)).
  assert (Gs : on_grid size s) by now apply seen_from_on_grid.
  assert (Vs : valid_site size (row_major size s)) by now apply row_major_range.
  assert (Cs : c (row_major size s) = s) by (apply coords_of_row_major; assumption).
  destruct (site_phase B size H FB i (row_major size s) Hi Vs) as [z Ez]. unfold vec in Ez. fold (c (row_major size s)) in Ez. rewrite Cs in Ez. rewrite Ez.
  destruct (frac_congruent size SP (m i) (zip_with Z.sub (c b) (c a)) s) as [z' Ez'].
  - apply (m_len B size H); assumption.
  - apply seen_congruent; [exact SP|apply (c_len B size H); assumption..].
  - unfold m, c in Ez'. rewrite Ez'. rewrite frac_sub by (try (apply (m_len B size H); assumption); apply (c_len B size H); assumption).
    exists (z + z'). rewrite plus_IZR. unfold th, m, c. ring.
Qed.

Lemma intensity_pairs occ i (v : Z -> Z -> list R) : vsize occ = P -> valid_site size i ->
  (forall a b, valid_site size a -> valid_site size b -> GetVector (built numR PI B size true) a b = Ok (v a b)) ->
  intensity occ (kvec B size i) (map (vec B size) (upto P)) = pair_transform occ (upto P) (kvec B size i) v.
Proof.
  intros Ho Hi Hv. rewrite (site_intensity B size H FB) by assumption. unfold amp.
  rewrite (modulus_pairs (fun j => nth (Z.to_nat j) occ 0%R)). unfold pair_transform, at_site. fold P.
  apply sumR_ext. intros a Ia. apply upto_In in Ia. apply sumR_ext. intros b Ib. apply upto_In in Ib. f_equal.
  destruct (pair_phase i a b _ Hi Ia Ib (Hv a b Ia Ib)) as [z ->]. rewrite cos_turns.
  rewrite <- cos_neg. f_equal. unfold th, m, c. ring.
Qed.

Lemma intensity_positions occ i (x : Z -> list R) : vsize occ = P -> valid_site size i ->
  (forall a, valid_site size a -> GetPosition (built numR PI B size true) a = Ok (x a)) ->
  intensity occ (kvec B size i) (map (vec B size) (upto P)) = site_transform occ (upto P) (kvec B size i) x.
Proof.
  intros Ho Hi Hx. rewrite (site_intensity B size H FB) by assumption. unfold amp, site_transform, at_site. fold P.
  assert (E : forall a, valid_site size a -> dot (kvec B size i) (x a) = th i a).
  { intros a Ha. specialize (Hx a Ha). rewrite position_built in Hx by assumption. injection Hx as <-.
    unfold kvec. rewrite FB; [reflexivity|apply (c_on B size H); assumption|apply (c_len B size H); assumption]. }
  f_equal; f_equal; apply sumR_ext; intros a Ia; apply upto_In in Ia; now rewrite E.
Qed.

(** The site reached from a by the displacement of site d. *)
Let f (d a : Z) := row_major size (moved_by size (c a) (c d)).
Lemma unmap_f d a : valid_site size d -> valid_site size a -> GetUnMappedSite (HyperCubicGrid size true) d a = Ok (f d a).
Proof.
  intros Hd Ha. pose proof (Hok B size H) as K. destruct (coords_of_spec size d K Hd) as (_ & Gd & Rd). destruct (coords_of_spec size a K Ha) as (_ & Ga & Ra).
  rewrite <- Rd at 1. rewrite <- Ra at 1. apply (unmapped_closed (HyperCubicGrid size true)); try assumption; reflexivity.
Qed.
Lemma f_valid d a : valid_site size d -> valid_site size a -> valid_site size (f d a).
Proof. intros Hd Ha. apply row_major_range, moved_by_on_grid; apply (c_on B size H); assumption. Qed.
Lemma f_phase i d a : valid_site size i -> valid_site size d -> valid_site size a ->
  exists z, th i (f d a) = (th i d + th i a + 2 * PI * IZR z)%R.
Proof.
  intros Hi Hd Ha. unfold th. unfold f at 1. unfold c at 1.
  rewrite coords_of_row_major by (first [apply (Hok B size H)|apply moved_by_on_grid; apply (c_on B size H); assumption]).
  destruct (frac_moved size (Spos B size H) (m i) (c a) (c d) (m_len B size H i Hi) (c_len B size H a Ha) (c_len B size H d Hd)) as [z ->].
  exists z. ring.
Qed.

Lemma transform_back occ d : vsize occ = P -> valid_site size d ->
  sumR (map (fun i => (amp size cos occ i ^ 2 + amp size sin occ i ^ 2) * cos (th i d))%R (upto P)) =
  (IZR P * correlation occ (upto P) (f d))%R.
Proof.
  intros Ho Hd. set (n := fun j => nth (Z.to_nat j) occ 0%R).
  (* one pair of sites *)
  assert (One : forall j l, valid_site size j -> valid_site size l ->
    sumR (map (fun i => cos (th i j - th i l) * cos (th i d))%R (upto P)) =
    (/ 2 * (IZR P * (if f d j =? l then 1 else 0) + IZR P * (if j =? f d l then 1 else 0)))%R).
  { intros j l Hj Hl.
    rewrite (sumR_ext _ (fun i => / 2 * cos (th i (f d j) - th i l) + / 2 * cos (th i j - th i (f d l)))%R).
    - rewrite sumR_plus, !sumR_scal. unfold th, m, c, P.
      pose proof (momenta_sum B size H (f d j) l (f_valid d j Hd Hj) Hl) as M1. pose proof (momenta_sum B size H j (f d l) Hj (f_valid d l Hd Hl)) as M2.
      cbv zeta in M1, M2. rewrite M1, M2. ring.
    - intros i Ii. apply upto_In in Ii. destruct (f_phase i d j Ii Hd Hj) as [z ->]. destruct (f_phase i d l Ii Hd Hl) as [z' ->].
      replace (th i d + th i j + 2 * PI * IZR z - th i l)%R with ((th i j - th i l) + th i d + 2 * PI * IZR z)%R by ring.
      replace (th i j - (th i d + th i l + 2 * PI * IZR z'))%R with ((th i j - th i l) - th i d + 2 * PI * IZR (- z'))%R by (rewrite opp_IZR; ring).
      rewrite !cos_turns. generalize (th i j - th i l)%R (th i d). intros x y. rewrite cos_plus, cos_minus. field. }
  transitivity (sumR (map (fun i => sumR (map (fun j => sumR (map (fun l => n j * n l * (cos (th i j - th i l) * cos (th i d))) (upto P))) (upto P))) (upto P)))%R.
  { apply sumR_ext. intros i _. unfold amp. rewrite (modulus_pairs n (th i)). rewrite Rmult_comm, <- sumR_scal. apply sumR_ext. intros j _.
    rewrite <- sumR_scal. apply sumR_ext. intros l _. ring. }
  rewrite sumR_swap.
  rewrite (sumR_ext _ (fun j => / 2 * IZR P * sumR (map (fun l => (if f d j =? l then 1 else 0) * (n j * n l))%R (upto P)) +
    / 2 * IZR P * sumR (map (fun l => (if j =? f d l then 1 else 0) * (n j * n l))%R (upto P)))%R).
  2:{ intros j Ij. apply upto_In in Ij. rewrite sumR_swap, <- !sumR_scal, <- sumR_plus. apply sumR_ext. intros l Il. apply upto_In in Il.
      rewrite sumR_scal, One by assumption. ring. }
  rewrite sumR_plus, !sumR_scal, (sumR_swap (fun j l => (if j =? f d l then 1 else 0) * (n j * n l))%R).
  assert (E1 : sumR (map (fun j => sumR (map (fun l => (if f d j =? l then 1 else 0) * (n j * n l))%R (upto P))) (upto P)) = correlation occ (upto P) (f d)).
  { unfold correlation, at_site. apply sumR_ext. intros j Ij. apply upto_In in Ij.
    rewrite (sum_delta P (f d j) (fun l => n j * n l)%R) by (apply f_valid; assumption). reflexivity. }
  assert (E2 : sumR (map (fun l => sumR (map (fun j => (if j =? f d l then 1 else 0) * (n j * n l))%R (upto P))) (upto P)) = correlation occ (upto P) (f d)).
  { unfold correlation, at_site. apply sumR_ext. intros l Il. apply upto_In in Il.
    rewrite (sumR_ext _ (fun j => (if f d l =? j then 1 else 0) * (n j * n l))%R) by (intros; now rewrite Z.eqb_sym).
    rewrite (sum_delta P (f d l) (fun j => n j * n l)%R) by (apply f_valid; assumption). unfold n. ring. }
  rewrite E1, E2. field.
Qed.
End Pairs.

(** * Statements about AccumulateSk *)
Section Accumulated.
Variables (B : bravais R) (size : list Z).
Hypothesis D : dual_momenta B size.
Hypothesis H : lattice_ok B size.
Let P := prodZ size.
Let L := built numR PI B size true.

Lemma accumulated occ sk mult : vsize occ = P -> vsize sk = P -> P < 2 ^ 32 ->
  exists sk', AccumulateSk numR sin cos L occ sk mult = Ok sk' /\
  (forall i k v, valid_site size i -> GetMomentum L i = Ok k ->
     (forall a b, valid_site size a -> valid_site size b -> GetVector L a b = Ok (v a b)) ->
     nth (Z.to_nat i) sk' 0 = nth (Z.to_nat i) sk 0 + mult * pair_transform occ (upto P) k v / IZR (P * P))%R /\
  (forall i k x, valid_site size i -> GetMomentum L i = Ok k ->
     (forall a, valid_site size a -> GetPosition L a = Ok (x a)) ->
     nth (Z.to_nat i) sk' 0 = nth (Z.to_nat i) sk 0 + mult * site_transform occ (upto P) k x / IZR (P * P))%R /\
  (forall d v k g, valid_site size d -> GetVector L 0 d = Ok v ->
     (forall i, valid_site size i -> GetMomentum L i = Ok (k i)) ->
     (forall a, valid_site size a -> GetUnMappedSite (l_grid L) d a = Ok (g a)) ->
     sumR (map (fun i => (nth (Z.to_nat i) sk' 0 - nth (Z.to_nat i) sk 0) * cos (dot (k i) v)) (upto P)) =
     mult * correlation occ (upto P) g / IZR P)%R.
Proof.
  intros Ho Hs Hlt. pose proof (dual_fourier B size D H) as FB. pose proof (prod_pos B size H) as Pp. fold P in Pp.
  destruct (increments B size H occ sk mult Ho Hs Hlt) as (sk' & E & _ & _ & I). exists sk'. split; [exact E|].
  assert (P0 : IZR P <> 0%R) by (apply IZR_neq; lia).
  assert (Km : forall i k, valid_site size i -> GetMomentum L i = Ok k -> k = kvec B size i).
  { intros i k Hi Ek. unfold L in Ek. rewrite momentum_built in Ek by assumption. now injection Ek as <-. }
  split; [|split].
  - intros i k v Hi Ek Hv. rewrite (Km i k Hi Ek). pose proof (intensity_pairs B size H FB occ i v Ho Hi Hv) as Q. fold P in Q. rewrite <- Q.
    specialize (I i Hi). fold P in I. lra.
  - intros i k x Hi Ek Hx. rewrite (Km i k Hi Ek). pose proof (intensity_positions B size H FB occ i x Ho Hi Hx) as Q. fold P in Q. rewrite <- Q.
    specialize (I i Hi). fold P in I. lra.
  - intros d v k g Hd Ev Ek Eg.
    assert (V0 : valid_site size 0) by (unfold valid_site; fold P; lia).
    assert (Eg' : correlation occ (upto P) g = correlation occ (upto P) (fun a => row_major size (moved_by size (coords_of size a) (coords_of size d)))).
    { unfold correlation. apply sumR_ext. intros a Ia. apply upto_In in Ia. specialize (Eg a Ia).
      change (l_grid L) with (HyperCubicGrid size true) in Eg. rewrite (unmap_f B size H d a Hd Ia) in Eg. injection Eg as <-. reflexivity. }
    rewrite Eg'. pose proof (transform_back B size H occ d Ho Hd) as T. cbv zeta in T. fold P in T.
    transitivity (mult / IZR (P * P) * (IZR P * correlation occ (upto P) (fun a => row_major size (moved_by size (coords_of size a) (coords_of size d)))))%R;
      [|rewrite mult_IZR; field; exact P0].
    rewrite <- T, <- sumR_scal. apply sumR_ext. intros i Ii. apply upto_In in Ii. rewrite (I i Ii). fold P.
    pose proof (site_intensity B size H FB occ i Ho Ii) as Q. fold P in Q. rewrite Q. rewrite (Km i (k i) Ii (Ek i Ii)).
    destruct (pair_phase B size H FB i 0 d v Ii V0 Hd Ev) as [z ->]. rewrite cos_turns.
    assert (Z0 : frac size (centred size (coords_of size i)) (coords_of size 0) = 0%R).
    { rewrite origin_coords by apply (Hok B size H). apply frac_zeros. }
    rewrite Z0, Rmult_0_r, Rminus_0_r. unfold Rdiv. ring.
Qed.
End Accumulated.
