(** Lemmas about sums of phases over the sites of a lattice. *)
From Coq Require Import ZArith Reals List Bool Lia Lra Permutation.
From Flocq Require Import Core.
From Verif Require Import Base F64 Num S_Math S_Accum M_MathInt M_MathF M_Pairs M_Grid M_Bravais M_Lattice S_Grid S_Bravais S_Lattice
  S_Geom S_Fourier L_MathInt L_Grid L_MathF L_Bravais L_Lattice L_Sum L_LatticeK L_Geom.
Import ListNotations.
Open Scope Z_scope.

(** * Trigonometry *)
Lemma cos_sin_turns x z : cos (x + 2 * PI * IZR z) = cos x /\ sin (x + 2 * PI * IZR z) = sin x.
Proof.
  destruct (Z_le_gt_dec 0 z) as [Hz|Hz].
  - rewrite <- (Z2Nat.id z Hz), <- INR_IZR_INZ. replace (x + 2 * PI * INR (Z.to_nat z))%R with (x + 2 * INR (Z.to_nat z) * PI)%R by ring.
    split; [apply cos_period|apply sin_period].
  - set (y := (x + 2 * PI * IZR z)%R). replace x with (y + 2 * INR (Z.to_nat (- z)) * PI)%R.
    + split; symmetry; [apply cos_period|apply sin_period].
    + unfold y. rewrite INR_IZR_INZ, Z2Nat.id by lia. rewrite opp_IZR. ring.
Qed.
Definition cos_turns x z := proj1 (cos_sin_turns x z).
Definition sin_turns x z := proj2 (cos_sin_turns x z).

(** * Points of a grid *)
Fixpoint points (size : list Z) : list (list Z) :=
  match size with
  | [] => [[]]
  | s :: size' => flat_map (fun x => map (cons x) (points size')) (upto s)
  end.

Lemma sumR_flat {A B} (f : B -> R) (g : A -> list B) l : sumR (map f (flat_map g l)) = sumR (map (fun a => sumR (map f (g a))) l).
Proof.
  induction l as [|a l IH]; [reflexivity|]. cbn [flat_map map]. rewrite map_app, sumR_app, IH. reflexivity.
Qed.

Lemma upto_app a b : 0 <= a -> 0 <= b -> upto (a + b) = upto a ++ map (Z.add a) (upto b).
Proof.
  intros Ha Hb. unfold upto. rewrite Z2Nat.inj_add by lia. rewrite seq_app, map_app. f_equal. cbn [Nat.add].
  assert (G : forall n o, map Z.of_nat (seq (Z.to_nat a + o) n) = map (Z.add a) (map Z.of_nat (seq o n))).
  { induction n as [|n IH]; intros o; [reflexivity|]. cbn [seq map]. f_equal; [lia|]. rewrite <- IH. do 2 f_equal. lia. }
  rewrite <- G. do 2 f_equal. lia.
Qed.

Lemma upto_mul s p : 0 <= s -> 0 <= p -> upto (s * p) = flat_map (fun x => map (fun y => x * p + y) (upto p)) (upto s).
Proof.
  intros Hs Hp. pattern s. apply natlike_ind; [reflexivity| |exact Hs]. intros n Hn IH.
  replace (Z.succ n * p) with (n * p + p) by lia. rewrite upto_app by nia. rewrite IH.
  replace (Z.succ n) with (n + 1) by lia. rewrite upto_app by lia. rewrite flat_map_app. f_equal.
  change (upto 1) with [0]. cbn [map flat_map]. rewrite app_nil_r, Z.add_0_r. reflexivity.
Qed.

Lemma sizes_ok_tail s size : sizes_ok (s :: size) -> sizes_ok size /\ 0 < s /\ 0 < prodZ size.
Proof.
  intros [F P]. inversion F as [|? ? Hs F']; subst. assert (Pp : 0 < prodZ size).
  { clear -F'. induction F' as [|t size Ht F IH]; [cbn; lia|]. change (prodZ (t :: size)) with (t * prodZ size). nia. }
  change (prodZ (s :: size)) with (s * prodZ size) in P. split; [split; [exact F'|nia]|lia].
Qed.

Lemma sites_points size : sizes_ok size -> map (coords_of size) (upto (prodZ size)) = points size.
Proof.
  induction size as [|s size IH]; intros H; [vm_compute; reflexivity|].
  destruct (sizes_ok_tail s size H) as (H' & Hs & Hp). cbn [points]. change (prodZ (s :: size)) with (s * prodZ size).
  rewrite upto_mul by lia. rewrite <- (IH H').
  assert (G : forall l, (forall x, In x l -> 0 <= x < s) ->
    map (coords_of (s :: size)) (flat_map (fun x => map (fun y => x * prodZ size + y) (upto (prodZ size))) l) =
    flat_map (fun x => map (cons x) (map (coords_of size) (upto (prodZ size)))) l).
  { induction l as [|x l IHl]; intros Hl; [reflexivity|]. cbn [flat_map]. rewrite map_app, IHl by (intros; apply Hl; now right). f_equal.
    rewrite !map_map. apply map_ext_in. intros y Hy. apply upto_In in Hy.
    destruct (coords_of_spec size y H' Hy) as (_ & Gy & Ry).
    rewrite <- (coords_of_row_major (s :: size) (x :: coords_of size y) H).
    - cbn [row_major]. now rewrite Ry.
    - constructor; [apply Hl; now left|exact Gy]. }
  apply G. intros x Hx. now apply upto_In in Hx.
Qed.

Lemma sites_sum size (f : list Z -> R) : sizes_ok size ->
  sumR (map (fun i => f (coords_of size i)) (upto (prodZ size))) = sumR (map f (points size)).
Proof. intros H. rewrite <- sites_points by exact H. now rewrite map_map. Qed.

(** * Phases *)
Fixpoint frac (size m d : list Z) : R :=
  match size, m, d with
  | s :: size', x :: m', y :: d' => (IZR (x * y) / IZR s + frac size' m' d')%R
  | _, _, _ => 0%R
  end.

Lemma frac_sub size : forall m d e, length m = length size -> length d = length size -> length e = length size ->
  frac size m (zip_with Z.sub d e) = (frac size m d - frac size m e)%R.
Proof.
  induction size as [|s size IH]; intros [|x m] [|y d] [|z e] Hm Hd He; try discriminate; [cbn; ring|].
  cbn [zip_with frac]. rewrite IH by (cbn [length] in *; lia).
  rewrite Z.mul_sub_distr_l, minus_IZR. unfold Rdiv. ring.
Qed.

(** Congruent components change a phase by full turns only. *)
Lemma frac_congruent size : Forall (fun s => 0 < s) size -> forall m d e, length m = length size ->
  Forall3 (fun s x y => (s | y - x)) size d e -> exists z, frac size m e = (frac size m d + IZR z)%R.
Proof.
  induction 1 as [|s size Hs F IH]; intros [|x m] d e Hm C; try discriminate; inversion C as [|? b c ? lb lc Hq C']; subst.
  - exists 0. cbn. ring.
  - destruct (IH m lb lc) as [z Ez]; [cbn [length] in *; lia|assumption|]. destruct Hq as [q Eq].
    exists (x * q + z). cbn [frac]. rewrite Ez. replace c with (b + q * s) by lia. rewrite Z.mul_add_distr_l, !plus_IZR, !mult_IZR.
    field. apply IZR_neq. lia.
Qed.

(** * Orthogonality *)
Lemma sin_zero_turn a : sin (PI * a) = 0%R -> exists k, a = IZR k.
Proof. intros E. apply sin_eq_0_0 in E as [k Ek]. exists k. apply (Rmult_eq_reg_l PI); [lra|]. pose proof PI_RGT_0. lra. Qed.

(** Telescoping sum on one ring. *)
Lemma ring_telescope theta a n : 0 <= n ->
  (2 * sin (a / 2) * sumR (map (fun x => cos (theta + IZR x * a)) (upto n)) =
   sin (theta + IZR n * a - a / 2) - sin (theta - a / 2))%R.
Proof.
  intros Hn. pattern n. apply natlike_ind; [| |exact Hn].
  - cbn. rewrite Rmult_0_l, Rplus_0_r. ring.
  - clear n Hn. intros n Hn IH. replace (Z.succ n) with (n + 1) by lia. rewrite upto_app by lia. change (upto 1) with [0].
    rewrite map_app, sumR_app. cbn [map]. rewrite Z.add_0_r. rewrite Rmult_plus_distr_l, IH. unfold sumR. cbn [fold_right]. rewrite Rplus_0_r.
    rewrite plus_IZR. replace (theta + (IZR n + 1) * a - a / 2)%R with (theta + IZR n * a + a / 2)%R by lra.
    rewrite (sin_minus (theta + IZR n * a)), (sin_plus (theta + IZR n * a)). ring.
Qed.

Lemma ring_sum theta s d o : 0 < s ->
  sumR (map (fun x => cos (theta + 2 * PI * (IZR ((x - o) * d) / IZR s))) (upto s)) =
  if d mod s =? 0 then (IZR s * cos theta)%R else 0%R.
Proof.
  intros Hs. assert (S0 : IZR s <> 0%R) by (apply IZR_neq; lia). destruct (d mod s =? 0) eqn:E.
  - apply Z.eqb_eq in E. apply Z_div_exact_full_2 in E; [|lia]. set (q := d / s) in *.
    rewrite (sumR_ext _ (fun _ => cos theta)).
    + transitivity (INR (length (upto s)) * cos theta)%R.
      * induction (upto s) as [|x l IH]; [cbn; ring|]. cbn [map length]. rewrite S_INR. unfold sumR in *. cbn [fold_right]. rewrite IH. ring.
      * rewrite upto_length, INR_IZR_INZ, Z2Nat.id by lia. reflexivity.
    + intros x _. rewrite E. replace (IZR ((x - o) * (s * q)) / IZR s)%R with (IZR ((x - o) * q))%R; [apply cos_turns|].
      rewrite !mult_IZR. field. exact S0.
  - apply Z.eqb_neq in E. set (a := (2 * PI * (IZR d / IZR s))%R). set (t := (theta - IZR o * a)%R).
    rewrite (sumR_ext _ (fun x => cos (t + IZR x * a))).
    2:{ intros x _. f_equal. unfold t, a. rewrite mult_IZR, minus_IZR. unfold Rdiv. ring. }
    assert (N : sin (a / 2) <> 0%R).
    { replace (a / 2)%R with (PI * (IZR d / IZR s))%R by (unfold a; field; exact S0). intros F. apply sin_zero_turn in F as [k Ek]. apply E.
      assert (D : d = k * s).
      { apply eq_IZR. rewrite mult_IZR, <- Ek. field. exact S0. }
      rewrite D. apply Z_mod_mult. }
    pose proof (ring_telescope t a s ltac:(lia)) as T.
    replace (t + IZR s * a - a / 2)%R with (t - a / 2 + 2 * PI * IZR d)%R in T by (unfold a; field; exact S0).
    rewrite sin_turns in T. apply (Rmult_eq_reg_l (2 * sin (a / 2))); [lra|]. apply Rmult_integral_contrapositive. split; [lra|exact N].
Qed.

Fixpoint divides_all (size d : list Z) : bool :=
  match size, d with
  | s :: size', x :: d' => (x mod s =? 0) && divides_all size' d'
  | _, _ => true
  end.

Lemma points_sum size : Forall (fun s => 0 < s) size -> forall theta off d, length off = length size -> length d = length size ->
  sumR (map (fun c => cos (theta + 2 * PI * frac size (zip_with Z.sub c off) d)) (points size)) =
  if divides_all size d then (IZR (prodZ size) * cos theta)%R else 0%R.
Proof.
  induction 1 as [|s size Hs F IH]; intros theta off d Ho Hd.
  - destruct d; [|discriminate]. cbn [points map frac divides_all]. change (prodZ []) with 1. unfold sumR. cbn [fold_right]. rewrite Rmult_0_r, !Rplus_0_r. ring.
  - destruct off as [|o off]; [discriminate|]. destruct d as [|y d]; [discriminate|]. cbn [points]. rewrite sumR_flat.
    rewrite (sumR_ext _ (fun x => if divides_all size d then IZR (prodZ size) * cos (theta + 2 * PI * (IZR ((x - o) * y) / IZR s)) else 0)%R).
    + cbn [divides_all]. change (prodZ (s :: size)) with (s * prodZ size). destruct (divides_all size d).
      * rewrite sumR_scal, ring_sum by exact Hs. rewrite andb_true_r. destruct (y mod s =? 0); [rewrite mult_IZR; ring|ring].
      * rewrite sumR_zero, andb_false_r. reflexivity.
    + intros x _. rewrite map_map. rewrite <- (IH (theta + 2 * PI * (IZR ((x - o) * y) / IZR s))%R off d) by (cbn [length] in *; lia).
      apply sumR_ext. intros c _. f_equal. cbn [zip_with frac]. ring.
Qed.

Lemma grid_difference size : forall c d, on_grid size c -> on_grid size d -> (divides_all size (zip_with Z.sub c d) = true <-> c = d).
Proof.
  intros c d G. revert d. induction G as [|s x size c Hx G IH]; intros d Gd; inversion Gd; subst; [cbn; tauto|].
  cbn [zip_with divides_all]. rewrite andb_true_iff, (IH l') by assumption. rewrite Z.eqb_eq. split.
  - intros [E ->]. f_equal. apply Z.mod_divide in E; [|lia]. destruct E as [q Eq]. assert (q = 0); [|subst q; lia]. destruct (Z.lt_trichotomy q 0) as [Q|[Q|Q]]; [nia|exact Q|nia].
  - intros E. injection E as -> ->. rewrite Z.sub_diag, Zmod_0_l. auto.
Qed.

(** * Squared moduli *)
Lemma sumR_mul {A B} (f : A -> R) (g : B -> R) l m : (sumR (map f l) * sumR (map g m) = sumR (map (fun a => sumR (map (fun b => f a * g b) m)) l))%R.
Proof.
  induction l as [|a l IH]; [cbn; ring|]. cbn [map]. unfold sumR at 1 3. cbn [fold_right]. fold (sumR (map f l)).
  rewrite Rmult_plus_distr_r, IH, sumR_scal. reflexivity.
Qed.

Lemma modulus_pairs {A} (n t : A -> R) l :
  (sumR (map (fun a => n a * cos (t a)) l) ^ 2 + sumR (map (fun a => n a * sin (t a)) l) ^ 2 =
   sumR (map (fun a => sumR (map (fun b => n a * n b * cos (t a - t b)) l)) l))%R.
Proof.
  rewrite <- !Rsqr_pow2. unfold Rsqr. rewrite !sumR_mul, <- sumR_plus. apply sumR_ext. intros a _. rewrite <- sumR_plus.
  apply sumR_ext. intros b _. rewrite cos_minus. ring.
Qed.

(** * Lattices whose momenta are dual to their vectors *)
Definition fourier (B : bravais R) (size : list Z) : Prop :=
  forall c d, on_grid size c -> length d = length size ->
  dot (mom numR PI B size c) (pv numR B d) = (2 * PI * frac size (centred size c) d)%R.

Lemma allowed_dot size : forall c d, length c = length size -> length d = length size ->
  dot (allowed size c) (map IZR d) = (2 * PI * frac size (centred size c) d)%R.
Proof.
  unfold dot, allowed, centred. induction size as [|s size IH]; intros [|x c] [|y d] Hc Hd; try discriminate; [cbn; ring|].
  cbn [zip_with map frac]. unfold sumR in *. cbn [fold_right]. rewrite IH by (cbn [length] in *; lia). rewrite mult_IZR. unfold Rdiv. ring.
Qed.

Lemma fourier_unit B size : unit_lattice 0%R 1%R B -> lattice_ok B size -> fourier B size.
Proof.
  intros U H c d G Hd. rewrite unit_mom by assumption. destruct (ok_dims _ _ H) as [Dm DS].
  assert (Vd : vsize d = b_dim B) by (unfold vsize; lia).
  pose proof (unit_R_real B d U Vd) as E. rewrite real_space_pure in E by (auto; apply U). injection E as E.
  unfold pv. rewrite E. apply allowed_dot; [now apply on_grid_length|exact Hd].
Qed.

Lemma frac_equal s : 0 < s -> forall size m d, Forall (eq s) size -> length m = length size -> length d = length size ->
  frac size m d = (sumR (map (fun j => IZR (nth (Z.to_nat j) m 0%Z) * IZR (nth (Z.to_nat j) d 0%Z)) (upto (vsize size))) / IZR s)%R.
Proof.
  intros Hs size m d F Hm Hd. replace (vsize size) with (vsize m) by (unfold vsize; now rewrite Hm).
  rewrite (zip_upto 0 0 (fun x y => IZR x * IZR y)%R) by (unfold vsize; lia).
  revert m d Hm Hd. induction F as [|t size <- F IH]; intros [|x m] [|y d] Hm Hd; try discriminate; [cbn; unfold Rdiv; ring|].
  cbn [frac zip_with]. rewrite IH by (cbn [length] in *; lia). unfold sumR. cbn [fold_right]. rewrite mult_IZR. unfold Rdiv. ring.
Qed.

Lemma fourier_equal B size s : inverse_matrices B -> lattice_ok B size -> Forall (eq s) size -> fourier B size.
Proof.
  intros I H Fs c d Ga Hd. pose proof H as (W & Hs & H40 & Hok & He & Hn). destruct (ok_dims _ _ H) as [Dm DS].
  pose proof (on_grid_length _ _ Ga) as Lc.
  assert (Vc : vsize (centred size c) = b_dim B) by (unfold vsize, centred; rewrite zip_length; lia).
  assert (Vd : vsize d = b_dim B) by (unfold vsize; lia).
  assert (Fc : Forall (fun x => - 2 ^ 62 <= x < 2 ^ 62) (centred size c)).
  { unfold centred. eapply (zip_Forall2 (fun x => 0 <= x < 2 ^ 62) (fun s => 0 < s <= 2 ^ 62)); [|now apply (on_grid_62 size)|apply Hok].
    intros u v Hu Hv. Z.to_euclidean_division_equations. lia. }
  destruct (duality B (centred size c) d W I Vc Vd Fc) as (r & x & Er & Ex & D).
  assert (Sp : 0 < s).
  { destruct Hok as [F _]. destruct size as [|t size]; [cbn in DS; lia|]. inversion Fs; subst. inversion F; subst. lia. }
  assert (Em : mom numR PI B size c = map (fun y => y / IZR s)%R r).
  { rewrite reciprocal_pure in Er; [|exact W|exact Vc|exact Fc].
    injection Er as <-. unfold mom. rewrite map_map. apply map_ext_in. intros k Hk. apply upto_In in Hk. cbn [numR n_div n_ofZ]. do 2 f_equal.
    rewrite Forall_forall in Fs. symmetry. apply Fs. apply nth_In. lia. }
  rewrite real_space_pure in Ex by assumption. injection Ex as <-. unfold pv. rewrite Em, dot_scal, D.
  rewrite (frac_equal s) by (try assumption; unfold vsize in *; lia). unfold sum_upto. rewrite Hs. unfold Rdiv. ring.
Qed.

Lemma Rlt_trans_b a b c : n_lt numR a b = true -> n_lt numR b c = true -> n_lt numR a c = true.
Proof.
  cbn [numR n_lt]. intros A C. destruct (Rlt_bool_spec a b); [|discriminate]. destruct (Rlt_bool_spec b c); [|discriminate]. apply Rlt_bool_true. lra.
Qed.
Lemma Rlt_irrefl_b a : n_lt numR a a = false.
Proof. cbn [numR n_lt]. apply Rlt_bool_false. lra. Qed.

Lemma image_congruent size : forall d e, length d = length size -> length e = length size ->
  Forall3 (fun s x y => (s | y - x)) size d (image size d e).
Proof.
  unfold image. induction size as [|s l IH]; intros [|x d] [|y e] Ld Le; try discriminate; [constructor|]. cbn [zip_with].
  constructor; [exists y; ring|]. apply IH; cbn [length] in *; lia.
Qed.

Definition halves (size : list Z) : list Z := map (fun s => s / 2) size.

Lemma centred_sub size : forall d, length d = length size -> centred size d = zip_with Z.sub d (halves size).
Proof.
  unfold centred, halves. induction size as [|s l IH]; intros [|x d] Hd; try discriminate; [reflexivity|]. cbn [zip_with map]. f_equal.
  apply IH. cbn [length] in *; lia.
Qed.

Lemma frac_opposite size : Forall (fun s => 0 < s) size -> forall x y d, Forall3 (fun s x y => (s | x + y - 2 * (s / 2))) size x y -> length d = length size ->
  exists z, frac size (centred size y) d = (- frac size (centred size x) d + IZR z)%R.
Proof.
  unfold centred. induction 1 as [|s l Hs SP IH]; intros x y [|b d] C Ld; try discriminate; inversion C as [|? x0 y0 ? xs ys [q Hq] C']; subst.
  - exists 0. cbn. ring.
  - destruct (IH xs ys d C') as [z Ez]; [cbn [length] in *; lia|]. cbn [zip_with frac]. rewrite Ez. exists (q * b + z).
    replace (y0 - s / 2) with (- (x0 - s / 2) + q * s) by lia. rewrite Z.mul_add_distr_r, !plus_IZR, !mult_IZR, opp_IZR. field. apply IZR_neq. lia.
Qed.

Lemma frac_moved size : Forall (fun s => 0 < s) size -> forall x y w, length x = length size -> length y = length size -> length w = length size ->
  exists z, frac size x (moved_by size y w) = (frac size x w + frac size x y + IZR z)%R.
Proof.
  unfold moved_by. induction 1 as [|s l Hs SP IH]; intros [|x0 x] [|y0 y] [|w0 w] Lm Lt Lk; try discriminate.
  - exists 0. cbn. ring.
  - destruct (IH x y w) as [z Ez]; [cbn [length] in *; lia..|]. cbn [map3 frac]. rewrite Ez. exists (- x0 * ((y0 + w0) / s) + z).
    replace ((y0 + w0) mod s) with (y0 + w0 - s * ((y0 + w0) / s)) by (pose proof (Z.div_mod (y0 + w0) s ltac:(lia)); lia).
    rewrite plus_IZR, !mult_IZR, minus_IZR, plus_IZR, mult_IZR, opp_IZR. field. apply IZR_neq. lia.
Qed.

Lemma half_on_grid size : Forall (fun s => 0 < s) size -> on_grid size (halves size).
Proof. unfold halves. induction 1; [constructor|]. cbn [map]. constructor; [|assumption]. split; [apply Z.div_pos; lia|apply Z.div_lt; lia]. Qed.

Section Sites.
Variables (B : bravais R) (size : list Z).
Hypothesis H : lattice_ok B size.
Hypothesis FB : fourier B size.
Let L := built numR PI B size true.
Let P := prodZ size.
Let c (j : Z) := coords_of size j.
Let m (i : Z) := centred size (c i).
Let th (i j : Z) := (2 * PI * frac size (m i) (c j))%R.

Lemma Hok : sizes_ok size. Proof. apply H. Qed.
Lemma Spos : Forall (fun s => 0 < s) size. Proof. apply sizes_pos, Hok. Qed.
Lemma c_on j : valid_site size j -> on_grid size (c j).
Proof. intros Hj. now destruct (coords_of_spec size j Hok Hj) as (_ & G & _). Qed.
Lemma c_len j : valid_site size j -> length (c j) = length size.
Proof. intros Hj. apply on_grid_length, c_on, Hj. Qed.
Lemma m_len j : valid_site size j -> length (m j) = length size.
Proof. intros Hj. unfold m, centred. pose proof (c_len j Hj). rewrite zip_length; lia. Qed.
Lemma c_inj i j : valid_site size i -> valid_site size j -> c i = c j -> i = j.
Proof.
  intros Hi Hj E. destruct (coords_of_spec size i Hok Hi) as (_ & _ & <-). destruct (coords_of_spec size j Hok Hj) as (_ & _ & <-).
  unfold c in E. now rewrite E.
Qed.

Lemma site_phase i j : valid_site size i -> valid_site size j ->
  exists z, dot (kvec B size i) (vec B size j) = (th i j + 2 * PI * IZR z)%R.
Proof.
  intros Hi Hj. destruct (ok_dims _ _ H) as [Dm DS]. pose proof H as (_ & Hs & H40 & _).
  destruct (best_spec numR Rlt_trans_b Rlt_irrefl_b B size (c j) (c_len j Hj) ltac:(unfold vsize in Hs; lia)) as (_ & (e & Se & Ee) & _).
  unfold vec. fold (c j). rewrite Ee. unfold kvec. rewrite FB; [|now apply c_on|apply image_length; [now apply c_len|apply Se]].
  destruct (frac_congruent size Spos (m i) (c j) (image size (c j) e)) as [z Ez]; [now apply m_len| |].
  - apply image_congruent; [now apply c_len|apply Se].
  - exists z. unfold m, c in Ez. unfold c. rewrite Ez. unfold th, m, c. ring.
Qed.

(** The intensity at momentum i as a sum over sites. *)
Definition amp (f : R -> R) (occ : list R) (i : Z) : R := sumR (map (fun j => nth (Z.to_nat j) occ 0 * f (th i j))%R (upto P)).

Lemma site_intensity occ i : vsize occ = P -> valid_site size i ->
  intensity occ (kvec B size i) (map (vec B size) (upto P)) = (amp cos occ i ^ 2 + amp sin occ i ^ 2)%R.
Proof.
  intros Ho Hi. unfold intensity, amp. rewrite <- Ho.
  rewrite (zip_sites 0%R (fun n x => n * cos (dot (kvec B size i) x))%R), (zip_sites 0%R (fun n x => n * sin (dot (kvec B size i) x))%R).
  rewrite (sumR_ext _ (fun j => nth (Z.to_nat j) occ 0 * cos (th i j))%R).
  2:{ intros j Hj. apply upto_In in Hj. rewrite Ho in Hj. destruct (site_phase i j Hi Hj) as [z ->]. now rewrite cos_turns. }
  rewrite (sumR_ext (fun j => nth (Z.to_nat j) occ 0 * sin (dot (kvec B size i) (vec B size j)))%R (fun j => nth (Z.to_nat j) occ 0 * sin (th i j))%R).
  2:{ intros j Hj. apply upto_In in Hj. rewrite Ho in Hj. destruct (site_phase i j Hi Hj) as [z ->]. now rewrite sin_turns. }
  reflexivity.
Qed.

Lemma phase_difference i j l : valid_site size i -> valid_site size j -> valid_site size l ->
  (th i j - th i l = 2 * PI * frac size (m i) (zip_with Z.sub (c j) (c l)))%R.
Proof. intros Hi Hj Hl. unfold th. rewrite frac_sub by (try apply m_len; try apply c_len; assumption). ring. Qed.

Lemma momenta_sum j l : valid_site size j -> valid_site size l ->
  sumR (map (fun i => cos (th i j - th i l)) (upto P)) = ((if j =? l then 1 else 0) * IZR P)%R.
Proof.
  intros Hj Hl. set (d := zip_with Z.sub (c j) (c l)).
  assert (Ld : length d = length size) by (unfold d; rewrite zip_length; rewrite ?c_len by assumption; lia).
  transitivity (sumR (map (fun x => cos (0 + 2 * PI * frac size (zip_with Z.sub x (halves size)) d)) (points size)))%R.
  - rewrite <- (sites_sum size (fun x => cos (0 + 2 * PI * frac size (zip_with Z.sub x (halves size)) d))%R Hok).
    apply sumR_ext. intros i Hi. apply upto_In in Hi. rewrite phase_difference by assumption. rewrite Rplus_0_l. fold d.
    unfold m. rewrite centred_sub by now apply c_len. reflexivity.
  - rewrite points_sum by (try apply Spos; try exact Ld; apply map_length). rewrite cos_0, Rmult_1_r.
    destruct (j =? l) eqn:E.
    + apply Z.eqb_eq in E. subst l. destruct (grid_difference size (c j) (c j)) as [_ G]; [now apply c_on|now apply c_on|].
      unfold d. rewrite G by reflexivity. unfold P. ring.
    + destruct (divides_all size d) eqn:D; [|ring]. apply Z.eqb_neq in E. exfalso. apply E. apply c_inj; [assumption|assumption|].
      apply (grid_difference size); [now apply c_on|now apply c_on|exact D].
Qed.

(** Parseval. *)
Lemma intensities_sum occ : vsize occ = P ->
  sumR (map (fun i => intensity occ (kvec B size i) (map (vec B size) (upto P))) (upto P)) = (IZR P * sumR (map (fun n => n * n) occ))%R.
Proof.
  intros Ho. set (n := fun j => nth (Z.to_nat j) occ 0%R).
  rewrite (sumR_ext _ (fun i => sumR (map (fun j => sumR (map (fun l => n j * n l * cos (th i j - th i l)) (upto P))) (upto P)))%R).
  2:{ intros i Hi. apply upto_In in Hi. rewrite site_intensity by assumption. unfold amp. apply (modulus_pairs n (th i)). }
  rewrite sumR_swap.
  rewrite (sumR_ext _ (fun j => n j * n j * IZR P)%R).
  - rewrite <- (map_nth_upto occ 0%R) at 1. rewrite map_map, Ho. rewrite <- sumR_scal. apply sumR_ext. intros j _. fold (n j). ring.
  - intros j Hj. apply upto_In in Hj. rewrite sumR_swap.
    rewrite (sumR_ext _ (fun l => (if j =? l then 1 else 0) * (n j * n l * IZR P))%R).
    + rewrite (sum_delta P j (fun l => n j * n l * IZR P)%R) by exact Hj. reflexivity.
    + intros l Hl. apply upto_In in Hl. rewrite sumR_scal, momenta_sum by assumption. ring.
Qed.

(** Opposite momenta. *)
Lemma opposite i i' occ : valid_site size i -> valid_site size i' -> vsize occ = P ->
  Forall3 (fun s x y => (s | x + y - 2 * (s / 2))) size (c i) (c i') ->
  intensity occ (kvec B size i') (map (vec B size) (upto P)) = intensity occ (kvec B size i) (map (vec B size) (upto P)).
Proof.
  intros Hi Hi' Ho C. rewrite !site_intensity by assumption.
  assert (G : forall j, valid_site size j -> exists z, th i' j = (- th i j + 2 * PI * IZR z)%R).
  { intros j Hj. destruct (frac_opposite size Spos (c i) (c i') (c j) C (c_len j Hj)) as [z Ez]. exists z. unfold th, m. rewrite Ez. ring. }
  assert (A : amp cos occ i' = amp cos occ i).
  { unfold amp. apply sumR_ext. intros j Hj. apply upto_In in Hj. destruct (G j Hj) as [z ->]. now rewrite cos_turns, cos_neg. }
  assert (S : amp sin occ i' = (- 1 * amp sin occ i)%R).
  { unfold amp. rewrite <- sumR_scal. apply sumR_ext. intros j Hj. apply upto_In in Hj. destruct (G j Hj) as [z ->]. rewrite sin_turns, sin_neg. ring. }
  rewrite A, S. ring.
Qed.

(** Constant occupations are seen at zero momentum only. *)
Lemma frac_comm l : forall x y, frac l x y = frac l y x.
Proof. induction l as [|s l IH]; intros [|x a] [|y b]; try reflexivity. cbn [frac]. rewrite IH, Z.mul_comm. reflexivity. Qed.

Lemma constant_sum theta i : valid_site size i ->
  sumR (map (fun j => cos (theta + th i j)) (upto P)) = ((if i =? middle size then 1 else 0) * (IZR P * cos theta))%R.
Proof.
  intros Hi. pose proof (m_len i Hi) as Lm.
  transitivity (sumR (map (fun x => cos (theta + 2 * PI * frac size (zip_with Z.sub x (zeros size)) (m i))) (points size)))%R.
  - rewrite <- (sites_sum size (fun x => cos (theta + 2 * PI * frac size (zip_with Z.sub x (zeros size)) (m i)))%R Hok).
    apply sumR_ext. intros j Hj. apply upto_In in Hj. rewrite zip_sub_zeros by now apply c_len. unfold th. rewrite frac_comm. reflexivity.
  - rewrite points_sum by (try apply Spos; try exact Lm; apply zeros_length). unfold m. rewrite centred_sub by now apply c_len.
    assert (Gm : on_grid size (halves size)).
    { apply half_on_grid, Spos. }
    pose proof (grid_difference size (c i) (halves size) (c_on i Hi) Gm) as D.
    assert (E : i = middle size <-> c i = halves size).
    { unfold middle. split; [intros ->; apply coords_of_row_major; [apply Hok|exact Gm]|]. intros Ec. fold (halves size). rewrite <- Ec. symmetry. now destruct (coords_of_spec size i Hok Hi) as (_ & _ & R). }
    destruct (i =? middle size) eqn:Em.
    + apply Z.eqb_eq in Em. apply E, D in Em. rewrite Em. unfold P. ring.
    + apply Z.eqb_neq in Em. destruct (divides_all _ _) eqn:Q; [|ring]. exfalso. apply Em, E, D. reflexivity.
Qed.

Lemma affine_occupations occ a b i : vsize occ = P -> valid_site size i -> i <> middle size ->
  intensity (map (fun n => a + b * n)%R occ) (kvec B size i) (map (vec B size) (upto P)) =
  (b ^ 2 * intensity occ (kvec B size i) (map (vec B size) (upto P)))%R.
Proof.
  intros Ho Hi Hm. assert (Ho' : vsize (map (fun n => a + b * n)%R occ) = P) by (unfold vsize; rewrite map_length; exact Ho).
  rewrite !site_intensity by assumption. apply Z.eqb_neq in Hm.
  assert (Hn : forall j, valid_site size j -> nth (Z.to_nat j) (map (fun n => a + b * n)%R occ) 0%R = (a + b * nth (Z.to_nat j) occ 0)%R).
  { intros j Hj. rewrite (nth_indep _ 0%R (a + b * 0)%R) by (rewrite map_length; unfold vsize, P, valid_site in *; lia).
    apply (map_nth (fun n => a + b * n)%R). }
  assert (C : amp cos (map (fun n => a + b * n)%R occ) i = (b * amp cos occ i)%R).
  { unfold amp. rewrite (sumR_ext _ (fun j => a * cos (0 + th i j) + b * (nth (Z.to_nat j) occ 0 * cos (th i j)))%R).
    - rewrite sumR_plus, !sumR_scal, constant_sum by exact Hi. rewrite Hm. ring.
    - intros j Hj. apply upto_In in Hj. rewrite Hn by exact Hj. rewrite Rplus_0_l. ring. }
  assert (S : amp sin (map (fun n => a + b * n)%R occ) i = (b * amp sin occ i)%R).
  { unfold amp. rewrite (sumR_ext _ (fun j => a * cos (- (PI / 2) + th i j) + b * (nth (Z.to_nat j) occ 0 * sin (th i j)))%R).
    - rewrite sumR_plus, !sumR_scal, constant_sum by exact Hi. rewrite Hm. ring.
    - intros j Hj. apply upto_In in Hj. rewrite Hn by exact Hj. rewrite cos_plus, cos_neg, sin_neg, cos_PI2, sin_PI2. ring. }
  rewrite C, S. ring.
Qed.

(** Translated occupations. *)
Lemma perm_sites (f : Z -> Z) : (forall j, valid_site size j -> valid_site size (f j)) ->
  (forall j l, valid_site size j -> valid_site size l -> f j = f l -> j = l) -> Permutation (map f (upto P)) (upto P).
Proof.
  intros V I. apply NoDup_Permutation_bis.
  - assert (G : forall l, (forall x, In x l -> valid_site size x) -> NoDup l -> NoDup (map f l)).
    { induction l as [|x l IH]; intros Vl Nl; [constructor|]. inversion Nl; subst. cbn [map]. constructor.
      - intros Q. apply in_map_iff in Q as (y & Ey & Iy). apply I in Ey; [|apply Vl; now right|apply Vl; now left]. subst y. contradiction.
      - apply IH; [intros; apply Vl; now right|assumption]. }
    apply G; [intros x Hx; now apply upto_In in Hx|]. unfold upto. apply FinFun.Injective_map_NoDup; [intros x y; lia|apply seq_NoDup].
  - rewrite map_length. lia.
  - intros x Hx. apply in_map_iff in Hx as (y & <- & Hy). apply upto_In in Hy. apply upto_In. now apply V.
Qed.

Lemma sumR_perm l l' : Permutation l l' -> sumR l = sumR l'.
Proof. unfold sumR. induction 1; cbn [fold_right]; lra. Qed.

Lemma translated occ occ' t i : vsize occ = P -> vsize occ' = P -> valid_site size t -> valid_site size i ->
  (forall j j', valid_site size j -> GetUnMappedSite (HyperCubicGrid size true) j t = Ok j' -> nth (Z.to_nat j') occ' 0%R = nth (Z.to_nat j) occ 0%R) ->
  intensity occ' (kvec B size i) (map (vec B size) (upto P)) = intensity occ (kvec B size i) (map (vec B size) (upto P)).
Proof.
  intros Ho Ho' Ht Hi T. rewrite !site_intensity by assumption. set (f := fun j => row_major size (moved_by size (c t) (c j))).
  assert (Gf : forall j, valid_site size j -> on_grid size (moved_by size (c t) (c j))) by (intros j Hj; apply moved_by_on_grid; now apply c_on).
  assert (Ff : forall j, valid_site size j -> GetUnMappedSite (HyperCubicGrid size true) j t = Ok (f j)).
  { intros j Hj. destruct (coords_of_spec size j Hok Hj) as (_ & Gj & Rj). destruct (coords_of_spec size t Hok Ht) as (_ & Gt & Rt).
    rewrite <- Rj at 1. rewrite <- Rt at 1. apply (unmapped_closed (HyperCubicGrid size true)); try assumption; [reflexivity|apply Hok]. }
  assert (V : forall j, valid_site size j -> valid_site size (f j)) by (intros j Hj; apply row_major_range, Gf, Hj).
  assert (Cf : forall j, valid_site size j -> c (f j) = moved_by size (c t) (c j)) by (intros j Hj; apply coords_of_row_major; [apply Hok|now apply Gf]).
  assert (I : forall j l, valid_site size j -> valid_site size l -> f j = f l -> j = l).
  { intros j l Hj Hl E. destruct (unmapped_valid (HyperCubicGrid size true) j t) as (b & Eb & _ & Mb); try assumption; [reflexivity|apply Hok|].
    destruct (unmapped_valid (HyperCubicGrid size true) l t) as (b' & Eb' & _ & Mb'); try assumption; [reflexivity|apply Hok|].
    rewrite Ff in Eb by exact Hj. rewrite Ff in Eb' by exact Hl. injection Eb as <-. injection Eb' as <-. rewrite E in Mb. congruence. }
  unfold amp. rewrite !(modulus_pairs (fun j => nth (Z.to_nat j) _ 0%R)).
  pose proof (perm_sites f V I) as Pf.
  set (g' := fun j l => (nth (Z.to_nat j) occ' 0 * nth (Z.to_nat l) occ' 0 * cos (th i j - th i l))%R).
  transitivity (sumR (map (fun j => sumR (map (g' j) (map f (upto P)))) (map f (upto P)))).
  - rewrite (sumR_perm _ _ (Permutation_map _ Pf)). apply sumR_ext. intros j _. symmetry. apply (sumR_perm _ _ (Permutation_map (g' j) Pf)).
  - rewrite map_map. apply sumR_ext. intros j Hj. apply upto_In in Hj. rewrite map_map. apply sumR_ext. intros l Hl. apply upto_In in Hl.
    unfold g'. rewrite (T j (f j) Hj (Ff j Hj)), (T l (f l) Hl (Ff l Hl)). do 1 f_equal.
    assert (M : forall j, valid_site size j -> exists z, th i (f j) = (th i j + th i t + 2 * PI * IZR z)%R).
    { intros k Hk. unfold th. rewrite (Cf k Hk).
      destruct (frac_moved size Spos (m i) (c t) (c k) (m_len i Hi) (c_len t Ht) (c_len k Hk)) as [z ->]. exists z. ring. }
    destruct (M j Hj) as [z Ez]. destruct (M l Hl) as [z' Ez']. rewrite Ez, Ez'.
    replace (th i j + th i t + 2 * PI * IZR z - (th i l + th i t + 2 * PI * IZR z'))%R with (th i j - th i l + 2 * PI * IZR (z - z'))%R by (rewrite minus_IZR; ring).
    apply cos_turns.
Qed.
End Sites.

(** * Statements about AccumulateSk *)
Lemma dual_fourier B size : dual_momenta B size -> lattice_ok B size -> fourier B size.
Proof. intros [U|[I [s F]]] H; [now apply fourier_unit|now apply (fourier_equal B size s)]. Qed.

Section Accumulated.
Variables (B : bravais R) (size : list Z).
Hypothesis D : dual_momenta B size.
Hypothesis H : lattice_ok B size.
Let P := prodZ size.

Lemma prod_pos : 0 < P. Proof. apply (proj2 (grid_sites size true (Hok B size H))). Qed.

Lemma increments occ sk mult : vsize occ = P -> vsize sk = P -> P < 2 ^ 32 ->
  exists sk', AccumulateSk numR sin cos (built numR PI B size true) occ sk mult = Ok sk' /\ vsize sk' = P /\
  sk' = map (fun i => nth (Z.to_nat i) sk 0 + mult * intensity occ (kvec B size i) (map (vec B size) (upto P)) / IZR (P * P))%R (upto P) /\
  forall i, valid_site size i -> (nth (Z.to_nat i) sk' 0 - nth (Z.to_nat i) sk 0 = mult * intensity occ (kvec B size i) (map (vec B size) (upto P)) / IZR (P * P))%R.
Proof.
  intros Ho Hs Hlt. eexists. split; [now apply accumulate_spec|]. split; [unfold vsize; rewrite map_length, upto_length; pose proof prod_pos; unfold P in *; lia|].
  split; [reflexivity|]. intros i Hi. rewrite nth_map_upto by exact Hi. fold P. ring.
Qed.

Lemma sum_rule occ sk mult : vsize occ = P -> vsize sk = P -> P < 2 ^ 32 ->
  exists L sk', Lattice numR PI B size true = Ok L /\ AccumulateSk numR sin cos L occ sk mult = Ok sk' /\
  sumR sk' = (sumR sk + mult * sumR (map (fun n => n * n) occ) / IZR P)%R.
Proof.
  intros Ho Hs Hlt. destruct (increments occ sk mult Ho Hs Hlt) as (sk' & E & _ & Es & _). exists (built numR PI B size true), sk'.
  split; [now apply lattice_built|]. split; [exact E|]. pose proof prod_pos as Pp. assert (P0 : IZR P <> 0%R) by (apply IZR_neq; lia). rewrite Es, sumR_plus.
  rewrite <- Hs at 1. rewrite map_nth_upto. f_equal.
  rewrite (sumR_ext _ (fun i => (mult / IZR (P * P)) * intensity occ (kvec B size i) (map (vec B size) (upto P)))%R) by (intros; unfold Rdiv; ring).
  rewrite sumR_scal. unfold P. rewrite intensities_sum by (try assumption; now apply dual_fourier). fold P. rewrite mult_IZR. field. exact P0.
Qed.

Lemma opposite_increments occ sk mult : vsize occ = P -> vsize sk = P -> P < 2 ^ 32 ->
  exists L sk', Lattice numR PI B size true = Ok L /\ AccumulateSk numR sin cos L occ sk mult = Ok sk' /\
  forall i i' c c', valid_site size i -> valid_site size i' -> GetCoordinates (l_grid L) i = Ok c -> GetCoordinates (l_grid L) i' = Ok c' ->
  opposite_points size c c' ->
  (nth (Z.to_nat i') sk' 0 - nth (Z.to_nat i') sk 0 = nth (Z.to_nat i) sk' 0 - nth (Z.to_nat i) sk 0)%R /\
  exists k k', GetMomentum L i = Ok k /\ GetMomentum L i' = Ok k' /\
  forall d p, length d = length size -> GetRealSpace numR B d = Ok p -> exists z, dot k' p = (- dot k p + 2 * PI * IZR z)%R.
Proof.
  intros Ho Hs Hlt. destruct (increments occ sk mult Ho Hs Hlt) as (sk' & E & _ & _ & I). exists (built numR PI B size true), sk'.
  split; [now apply lattice_built|]. split; [exact E|]. intros i i' c c' Hi Hi' Ec Ec' O. pose proof (Hok B size H) as K.
  change (l_grid (built numR PI B size true)) with (HyperCubicGrid size true) in *. rewrite grid_coords in Ec, Ec' by assumption.
  injection Ec as <-. injection Ec' as <-. split.
  - rewrite !I by assumption. unfold P. rewrite (opposite B size H (dual_fourier B size D H) i i' occ) by assumption. reflexivity.
  - do 2 eexists. split; [now apply momentum_built|]. split; [now apply momentum_built|]. intros d p Ld Ep.
    destruct (ok_dims _ _ H) as [Dm DS]. rewrite real_space_pure in Ep; [|apply H|unfold vsize; lia]. injection Ep as <-. fold (pv numR B d).
    rewrite !(dual_fourier B size D H) by (try assumption; now apply coords_of_spec).
    destruct (frac_opposite size (sizes_pos _ K) _ _ d O Ld) as [z ->]. exists z. ring.
Qed.

Lemma affine_increments occ sk mult a b : vsize occ = P -> vsize sk = P -> P < 2 ^ 32 ->
  exists L sk1 sk2, Lattice numR PI B size true = Ok L /\ AccumulateSk numR sin cos L occ sk mult = Ok sk1 /\
  AccumulateSk numR sin cos L (map (fun n => a + b * n)%R occ) sk mult = Ok sk2 /\
  forall i, valid_site size i -> i <> middle size ->
  (nth (Z.to_nat i) sk2 0 - nth (Z.to_nat i) sk 0 = b ^ 2 * (nth (Z.to_nat i) sk1 0 - nth (Z.to_nat i) sk 0))%R.
Proof.
  intros Ho Hs Hlt. destruct (increments occ sk mult Ho Hs Hlt) as (sk1 & E1 & _ & _ & I1).
  destruct (increments (map (fun n => a + b * n)%R occ) sk mult) as (sk2 & E2 & _ & _ & I2); [unfold vsize; now rewrite map_length|assumption|assumption|].
  exists (built numR PI B size true), sk1, sk2. split; [now apply lattice_built|]. split; [exact E1|]. split; [exact E2|]. intros i Hi Hm.
  rewrite I1, I2 by assumption. unfold P. rewrite (affine_occupations B size H (dual_fourier B size D H)) by assumption. unfold Rdiv. ring.
Qed.

Lemma translated_increments occ occ' sk mult t : vsize occ = P -> vsize occ' = P -> vsize sk = P -> P < 2 ^ 32 -> valid_site size t ->
  exists L sk', Lattice numR PI B size true = Ok L /\ AccumulateSk numR sin cos L occ sk mult = Ok sk' /\
  ((forall j j', valid_site size j -> GetUnMappedSite (l_grid L) j t = Ok j' -> nth (Z.to_nat j') occ' 0%R = nth (Z.to_nat j) occ 0%R) ->
   AccumulateSk numR sin cos L occ' sk mult = Ok sk').
Proof.
  intros Ho Ho' Hs Hlt Ht. destruct (increments occ sk mult Ho Hs Hlt) as (sk1 & E1 & _ & S1 & _).
  destruct (increments occ' sk mult Ho' Hs Hlt) as (sk2 & E2 & _ & S2 & _).
  exists (built numR PI B size true), sk1. split; [now apply lattice_built|]. split; [exact E1|]. intros T. rewrite E2. f_equal. rewrite S1, S2.
  apply map_ext_in. intros i Hi. apply upto_In in Hi. do 3 f_equal.
  apply (translated B size H (dual_fourier B size D H) occ occ' t i); assumption.
Qed.
End Accumulated.

(** * Unequal extents of the triangular lattice *)
Lemma tri_norm i j : norm numR (pv numR (TriangularLattice numR) [i; j]) = sqrt (IZR (hex_square [i; j])).
Proof.
  unfold hex_square, norm, pv, row. change (b_dim (TriangularLattice numR)) with 2. change (upto 2) with [0; 1]. cbn [map fold_left].
  unfold entry, TriangularLattice. cbn [numR n_add n_mul n_ofZ n_sqrt n_div b_p b_dim].
  change (Z.to_nat (0 + 0 * 2)) with 0%nat. change (Z.to_nat (1 + 0 * 2)) with 1%nat. change (Z.to_nat (0 + 1 * 2)) with 2%nat. change (Z.to_nat (1 + 1 * 2)) with 3%nat.
  change (Z.to_nat 0) with 0%nat. change (Z.to_nat 1) with 1%nat. cbn [nth]. f_equal. rewrite !plus_IZR, !mult_IZR.
  assert (S : (sqrt 3 * sqrt 3 = 3)%R) by (apply sqrt_sqrt; lra). set (q := sqrt 3) in *. clearbody q.
  transitivity (IZR i * IZR i + IZR i * IZR j + IZR j * IZR j * (1 + q * q) / 4)%R; [field|]. rewrite S. field.
Qed.

Lemma tri_vec size j x y : lattice_ok (TriangularLattice numR) size -> coords_of size j = [x; y] -> valid_site size j ->
  exists u v, - 1 <= u <= 1 /\ - 1 <= v <= 1 /\ vec (TriangularLattice numR) size j = pv numR (TriangularLattice numR) (image size [x; y] [u; v]) /\
  forall u' v', - 1 <= u' <= 1 -> - 1 <= v' <= 1 -> hex_square (image size [x; y] [u; v]) <= hex_square (image size [x; y] [u'; v']).
Proof.
  intros H Ej Hj. destruct (coords_of_spec size j (Hok _ _ H) Hj) as (_ & G & _). rewrite Ej in G. pose proof (on_grid_length _ _ G) as Ls.
  destruct size as [|s [|t [|]]]; try discriminate. clear G.
  destruct (best_spec numR Rlt_trans_b Rlt_irrefl_b (TriangularLattice numR) [s; t] [x; y] eq_refl ltac:(cbn; lia)) as (N & (e & [Le Fe] & Ee) & M).
  destruct e as [|u [|v [|]]]; try discriminate. inversion Fe as [|? ? Hu Fe']; subst. inversion Fe' as [|? ? Hv _]; subst.
  exists u, v. split; [exact Hu|]. split; [exact Hv|]. unfold vec. rewrite Ej. split; [exact Ee|]. intros u' v' Hu' Hv'.
  assert (Sh : shell [s; t] [u'; v']) by (split; [reflexivity|repeat constructor; lia]). specialize (M [u'; v'] Sh). rewrite N, Ee in M.
  unfold image in *. cbn [zip_with] in *. rewrite !tri_norm in M. cbn [numR n_lt] in M.
  destruct (Rlt_bool_spec (sqrt (IZR (hex_square [x + u' * s; y + v' * t]))) (sqrt (IZR (hex_square [x + u * s; y + v * t])))) as [|Q]; [discriminate|].
  apply le_IZR. apply sqrt_le_0; [apply IZR_le, hex_square_pos|apply IZR_le, hex_square_pos|exact Q].
Qed.

Lemma tri_dot i p q :
  dot (mom numR PI (TriangularLattice numR) [4; 1] [i; 0]) (pv numR (TriangularLattice numR) [p; q]) =
  (PI * IZR (i - 2) * (IZR p / 2 + IZR q / 4 - IZR q))%R.
Proof.
  unfold dot, mom, pv. change (b_dim (TriangularLattice numR)) with 2. change (upto 2) with [0; 1].
  change (centred [4; 1] [i; 0]) with [i - 2; 0]. generalize (i - 2) as m. intros m.
  cbn [map zip_with]. rewrite !rrow_R, !row_R. change (b_dim (TriangularLattice numR)) with 2.
  pose proof sqrt3_pos as S3. eval_sum. field. lra.
Qed.

Lemma tri_41_ok : lattice_ok (TriangularLattice numR) [4; 1].
Proof. split; [apply triangular_wf|]. repeat split; try reflexivity; try (repeat constructor; lia). cbn. lia. Qed.

Lemma tri_x0 : vec (TriangularLattice numR) [4; 1] 0 = pv numR (TriangularLattice numR) [0; 0].
Proof.
  destruct (tri_vec [4; 1] 0 0 0 tri_41_ok ltac:(vm_compute; reflexivity) ltac:(unfold valid_site; cbn; lia)) as (u & v & Hu & Hv & -> & M).
  specialize (M 0 0 ltac:(lia) ltac:(lia)). unfold image in *. cbn [zip_with] in *.
  change (hex_square [0 + 0 * 4; 0 + 0 * 1]) with 0 in M. pose proof (hex_square_pos (0 + u * 4) (0 + v * 1)) as Q.
  destruct (hex_square_zero (0 + u * 4) (0 + v * 1) ltac:(lia)) as [-> ->]. reflexivity.
Qed.

Lemma tri_x2 : vec (TriangularLattice numR) [4; 1] 2 = pv numR (TriangularLattice numR) [2; -1] \/
               vec (TriangularLattice numR) [4; 1] 2 = pv numR (TriangularLattice numR) [-2; 1].
Proof.
  destruct (tri_vec [4; 1] 2 2 0 tri_41_ok ltac:(vm_compute; reflexivity) ltac:(unfold valid_site; cbn; lia)) as (u & v & Hu & Hv & -> & M).
  specialize (M 0 (-1) ltac:(lia) ltac:(lia)). unfold image in *. cbn [zip_with] in *.
  change (hex_square [2 + 0 * 4; 0 + -1 * 1]) with 3 in M. unfold hex_square in M.
  assert (u = -1 \/ u = 0 \/ u = 1) as [->|[->| ->]] by lia; assert (v = -1 \/ v = 0 \/ v = 1) as [->|[->| ->]] by lia; cbn in M; try lia; [right|left]; reflexivity.
Qed.

Lemma tri_intensity i : 0 <= i < 4 -> intensity [1; 0; 1; 0]%R (kvec (TriangularLattice numR) [4; 1] i) (map (vec (TriangularLattice numR) [4; 1]) (upto 4)) =
  (2 + 2 * cos (PI * IZR (i - 2) * (7 / 4)))%R.
Proof.
  intros Hi. change (upto 4) with [0; 1; 2; 3]. cbn [map]. unfold intensity. cbn [zip_with]. unfold sumR. cbn [fold_right].
  assert (K : kvec (TriangularLattice numR) [4; 1] i = mom numR PI (TriangularLattice numR) [4; 1] [i; 0]).
  { unfold kvec. f_equal. assert (i = 0 \/ i = 1 \/ i = 2 \/ i = 3) as [->|[->|[->| ->]]] by lia; vm_compute; reflexivity. }
  rewrite K, tri_x0. rewrite tri_dot. replace (PI * IZR (i - 2) * (0 / 2 + 0 / 4 - 0))%R with 0%R by field. rewrite cos_0, sin_0.
  set (x1 := dot _ (vec _ _ 1)). set (x3 := dot _ (vec _ _ 3)). clearbody x1 x3.
  set (t := (PI * IZR (i - 2) * (7 / 4))%R).
  assert (C : cos (dot (mom numR PI (TriangularLattice numR) [4; 1] [i; 0]) (vec (TriangularLattice numR) [4; 1] 2)) = cos t /\
    ((sin (dot (mom numR PI (TriangularLattice numR) [4%Z; 1%Z] [i; 0%Z]) (vec (TriangularLattice numR) [4%Z; 1%Z] 2))) ^ 2 = sin t ^ 2)%R).
  { destruct tri_x2 as [->| ->]; rewrite tri_dot.
    - replace (PI * IZR (i - 2) * (2 / 2 + -1 / 4 - -1))%R with t by (unfold t; field). auto.
    - replace (PI * IZR (i - 2) * (-2 / 2 + 1 / 4 - 1))%R with (- t)%R by (unfold t; field). rewrite cos_neg, sin_neg. split; [reflexivity|ring]. }
  destruct C as [-> C]. set (w := sin (dot _ _)) in *. clearbody w. pose proof (sin2_cos2 t) as T. unfold Rsqr in T.
  transitivity ((1 + cos t) ^ 2 + w ^ 2)%R; [ring|]. rewrite C. clear C. clearbody t. nra.
Qed.

Lemma tri_sum_rule_fails :
  exists size occ sk L sk', lattice_ok (TriangularLattice numR) size /\ vsize occ = prodZ size /\ vsize sk = prodZ size /\
  Lattice numR PI (TriangularLattice numR) size true = Ok L /\ AccumulateSk numR sin cos L occ sk 1%R = Ok sk' /\
  sumR sk' <> (sumR sk + 1 * sumR (map (fun n => n * n) occ) / IZR (prodZ size))%R.
Proof.
  exists [4; 1], [1; 0; 1; 0]%R, [0; 0; 0; 0]%R, (built numR PI (TriangularLattice numR) [4; 1] true).
  eexists. split; [exact tri_41_ok|]. split; [reflexivity|]. split; [reflexivity|]. split; [apply lattice_built, tri_41_ok|].
  split; [apply accumulate_spec; [exact tri_41_ok|reflexivity|reflexivity|cbn; lia]|].
  change (prodZ [4; 1]) with 4. change (upto 4) with [0; 1; 2; 3] at 2. cbn [map]. rewrite !tri_intensity by lia.
  change (Z.to_nat 0) with 0%nat. change (Z.to_nat 1) with 1%nat. change (Z.to_nat 2) with 2%nat. change (Z.to_nat 3) with 3%nat. cbn [nth].
  change (0 - 2) with (-2). change (1 - 2) with (-1). change (2 - 2) with 0. change (3 - 2) with 1. change (4 * 4) with 16.
  unfold sumR. cbn [fold_right].
  assert (C1 : (0 < cos (PI * -1 * (7 / 4)))%R).
  { replace (PI * -1 * (7 / 4))%R with (PI / 4 + 2 * PI * IZR (-1))%R by (change (IZR (-1)) with (-1)%R; field). rewrite cos_turns. apply cos_gt_0; pose proof PI_RGT_0; lra. }
  assert (C2 : cos (PI * -2 * (7 / 4)) = (2 * cos (PI * -1 * (7 / 4)) * cos (PI * -1 * (7 / 4)) - 1)%R).
  { replace (PI * -2 * (7 / 4))%R with (2 * (PI * -1 * (7 / 4)))%R by field. apply cos_2a_cos. }
  assert (C3 : cos (PI * 1 * (7 / 4)) = cos (PI * -1 * (7 / 4))).
  { rewrite <- cos_neg. f_equal. field. }
  assert (C0 : cos (PI * 0 * (7 / 4)) = 1%R) by (replace (PI * 0 * (7 / 4))%R with 0%R by field; apply cos_0).
  rewrite C2, C3, C0. set (C := cos _) in *. clearbody C. nra.
Qed.
