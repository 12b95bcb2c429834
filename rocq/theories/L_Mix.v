(** Lemmas about the spreading of walks over a lattice. *)
From Coq Require Import ZArith Reals List Bool Lia Lra Permutation.
From Verif Require Import Base F64 Num S_Math S_Accum M_MathInt L_MathInt M_Grid M_Bravais M_Lattice S_Grid L_Grid S_Bravais S_Lattice S_LatticeN S_Fourier
  L_Bravais L_Lattice L_LatticeN L_Sum L_LatticeK L_Fourier L_Bonds S_Route L_Route S_Diffuse L_Diffuse S_Waves L_Waves S_Count L_Count.
Import ListNotations.
Open Scope Z_scope.

Lemma sum_limit {A} (f : A -> nat -> R) (l : A -> R) xs : (forall i, In i xs -> Un_cv (f i) (l i)) ->
  Un_cv (fun n => sumR (map (fun i => f i n) xs)) (sumR (map l xs)).
Proof.
  unfold sumR. induction xs as [|i xs IH]; intros F.
  - intros e He. exists 0%nat. intros n _. cbn. unfold R_dist. rewrite Rminus_0_r, Rabs_R0. exact He.
  - cbn [map fold_right]. apply (CV_plus (f i) (fun n => fold_right Rplus 0%R (map (fun i => f i n) xs))); [apply F; now left|]. apply IH. intros j Hj. apply F. now right.
Qed.

Lemma limit_const c : Un_cv (fun _ => c) c.
Proof. intros e He. exists 0%nat. intros n _. unfold R_dist. rewrite Rminus_diag_eq, Rabs_R0 by reflexivity. exact He. Qed.

Lemma limit_ext f h l : (forall n, f n = h n) -> Un_cv f l -> Un_cv h l.
Proof. intros E C e He. destruct (C e He) as [n0 Q]. exists n0. intros n Hn. rewrite <- E. now apply Q. Qed.

Lemma power_vanishes q c : (Rabs q < 1)%R -> Un_cv (fun n => q ^ n * c)%R 0%R.
Proof.
  intros Hq e He. assert (P : (0 < Rabs c + 1)%R) by (pose proof (Rabs_pos c); lra).
  destruct (pow_lt_1_zero q Hq (e / (Rabs c + 1))%R) as [n0 Q]; [now apply Rdiv_lt_0_compat|]. exists n0. intros n Hn. specialize (Q n Hn).
  unfold R_dist. rewrite Rminus_0_r, Rabs_mult. pose proof (Rabs_pos c). pose proof (Rabs_pos (q ^ n)).
  assert (E : (e = e / (Rabs c + 1) * (Rabs c + 1))%R) by (field; lra). rewrite E at 1. apply Rle_lt_trans with (Rabs (q ^ n) * (Rabs c + 1))%R; [nra|]. now apply Rmult_lt_compat_r.
Qed.

Lemma cos_one x s : 0 < s -> cos (2 * PI * (IZR x / IZR s)) = 1%R -> (s | x).
Proof.
  intros Hs E. assert (S0 : (0 < IZR s)%R) by (now apply IZR_lt). pose proof PI_RGT_0 as Pi.
  replace (2 * PI * (IZR x / IZR s))%R with (2 * (PI * (IZR x / IZR s)))%R in E by ring. rewrite cos_2a_sin in E.
  assert (Z0 : sin (PI * (IZR x / IZR s)) = 0%R) by nra. apply sin_eq_0_0 in Z0 as [k Ek]. exists k. apply eq_IZR. rewrite mult_IZR.
  assert (D : (IZR x / IZR s = IZR k)%R) by (apply (Rmult_eq_reg_l PI); [rewrite Ek; ring|lra]). rewrite <- D. field. lra.
Qed.

Lemma cos_below x s : 0 < s -> - s < x < s -> x <> 0 -> (cos (2 * PI * (IZR x / IZR s)) < 1)%R.
Proof.
  intros Hs Hx Nx. destruct (COS_bound (2 * PI * (IZR x / IZR s))) as [_ [C|C]]; [exact C|]. exfalso. destruct (cos_one x s Hs C) as [k Hk]. subst x. assert (k <= -1 \/ k = 0 \/ 1 <= k) as [?|[?|?]] by lia; nia.
Qed.

Lemma cos_above x s : 0 < s -> Z.odd s = true -> (-1 < cos (2 * PI * (IZR x / IZR s)))%R.
Proof.
  intros Hs Ho. destruct (COS_bound (2 * PI * (IZR x / IZR s))) as [[C|C] _]; [exact C|]. exfalso. symmetry in C.
  assert (E : cos (2 * PI * (IZR (2 * x) / IZR s)) = 1%R).
  { replace (2 * PI * (IZR (2 * x) / IZR s))%R with (2 * (2 * PI * (IZR x / IZR s)))%R by (rewrite mult_IZR; unfold Rdiv; ring). rewrite cos_2a_cos, C. ring. }
  apply cos_one in E; [|exact Hs]. assert (D : (s | x)).
  { apply (Z.gauss _ 2); [exact E|]. apply Z.odd_spec in Ho. destruct Ho as [q ->]. apply Z.bezout_1_gcd. exists 1, (- q). lia. }
  destruct D as [k Hk]. assert (X : (2 * PI * (IZR x / IZR s) = 0 + 2 * PI * IZR k)%R).
  { rewrite Hk, mult_IZR. field. apply IZR_neq. lia. }
  rewrite X, cos_turns, cos_0 in C. lra.
Qed.

(** Sums of cosines which are not all one and not all minus one. *)
Lemma cosines_inside (u : Z -> R) g j j' : 0 <= j < g -> 0 <= j' < g -> (cos (u j) < 1)%R -> (-1 < cos (u j'))%R ->
  (Rabs (sumR (map (fun j => cos (u j)) (upto g))) < IZR g)%R.
Proof.
  intros Hj Hj' C C'. assert (Q : forall (h : Z -> R) l i, (forall i, h i <= 1)%R -> In i l -> (h i < 1)%R -> (sumR (map h l) < INR (length l))%R).
  { clear. intros h l i Hh. assert (B : forall l, (sumR (map h l) <= INR (length l))%R).
    { unfold sumR. induction l0 as [|y l0 IH]; [cbn; lra|]. cbn [map fold_right length]. rewrite S_INR. specialize (Hh y). lra. }
    induction l as [|y l IH]; intros I C; [destruct I|]. unfold sumR. cbn [map fold_right length]. fold (sumR (map h l)). rewrite S_INR. destruct I as [->|I].
    - specialize (B l). lra.
    - specialize (IH I C). specialize (Hh y). lra. }
  assert (Lg : INR (length (upto g)) = IZR g) by (rewrite upto_length, INR_IZR_INZ, Z2Nat.id by lia; reflexivity). apply Rabs_def1.
  - rewrite <- Lg. apply (Q _ _ j); [intros i; apply COS_bound|now apply upto_In|exact C].
  - assert (N : (sumR (map (fun j => - cos (u j)) (upto g)) < IZR g)%R).
    { rewrite <- Lg. apply (Q _ _ j'); [intros i; pose proof (COS_bound (u i)); lra|now apply upto_In|lra]. }
    rewrite (sumR_ext _ (fun j => -1 * cos (u j))%R) in N by (intros; ring). rewrite sumR_scal in N. lra.
Qed.

Section Mix.
Variables (B : bravais R) (size : list Z).
Hypothesis H : lattice_ok B size.
Hypothesis Hg : 0 < b_gamma B.
Let P := prodZ size.
Let g := b_gamma B.
Let th (i j : Z) : R := (2 * PI * frac size (centred size (coords_of size i)) (coords_of size j))%R.
Let u (i j : Z) : R := (2 * PI * frac size (centred size (coords_of size i)) (displacement B j))%R.

(** At every momentum but zero, some hop has a phase other than 0 and some one other than pi. *)
Definition gap : Prop := forall i, valid_site size i -> i <> middle size ->
  exists j j', 0 <= j < b_gamma B /\ 0 <= j' < b_gamma B /\
  (cos (2 * PI * frac size (centred size (coords_of size i)) (displacement B j)) < 1)%R /\
  (-1 < cos (2 * PI * frac size (centred size (coords_of size i)) (displacement B j')))%R.
Hypothesis G : gap.

Lemma middle_coords : valid_site size (middle size) /\ coords_of size (middle size) = halves size.
Proof.
  pose proof (half_on_grid size (Spos B size H)) as Gh. change (map (fun s => s / 2) size) with (halves size) in Gh. unfold middle. change (map (fun s => s / 2) size) with (halves size).
  split; [now apply row_major_valid|]. apply coords_of_row_major; [apply (Hok B size H)|exact Gh].
Qed.

Lemma frac_middle d : frac size (centred size (halves size)) d = 0%R.
Proof.
  clear. unfold centred, halves. revert d. induction size as [|s l IH]; intros [|y d]; try reflexivity. cbn [map zip_with frac]. rewrite IH, Z.sub_diag, Z.mul_0_l. unfold Rdiv. ring.
Qed.

(** As [walks_counted], with phases in place of the vectors and momenta of the lattice, and
    so for any extents. *)
Lemma dest_angle i a js : valid_site size i -> valid_site size a -> directions B js ->
  exists z, th i (dest B size a js) = (th i a + sumR (map (u i) js) + 2 * PI * IZR z)%R.
Proof.
  intros Hi Ha D. destruct (dest_spec B size H a js Ha D) as [_ C]. pose proof (Spos B size H) as SP.
  pose proof (c_len B size H a Ha) as La. pose proof (overall_length B size H js D) as Lo.
  destruct (frac_moved size SP (centred size (coords_of size i)) (coords_of size a) (overall B js)) as [z E]; [exact (m_len B size H i Hi)|exact La|exact Lo|].
  exists z. unfold th. rewrite C, hop_moved by assumption. rewrite E. unfold u. rewrite <- (frac_overall B size H i js Hi D). ring.
Qed.

Lemma phases_counted a b n : valid_site size a -> valid_site size b ->
  (INR (reaching (map (dest B size a) (sequences g n)) b) * IZR P)%R = sumR (map (fun i => sumR (map (fun j => cos (u i j)) (upto g)) ^ n * cos (th i a - th i b))%R (upto P)).
Proof.
  intros Ha Hb. rewrite reaching_sum, map_map. pose proof (sequences_spec g n) as F. rewrite Forall_forall in F.
  rewrite Rmult_comm, <- sumR_scal.
  rewrite (sumR_ext _ (fun js => sumR (map (fun i => cos ((th i a - th i b) + sumR (map (u i) js))) (upto P)))).
  - rewrite sumR_swap. apply sumR_ext. intros i _. apply wave_moment. exact (sines_cancel B size H i).
  - intros js Hjs. destruct (F js Hjs) as [_ D]. destruct (dest_spec B size H a js Ha D) as [V _].
    rewrite (sumR_ext _ (fun i => cos (0 + (th i (dest B size a js) - th i b)))).
    + unfold th, P. rewrite (sum_over_momenta B size H) by assumption. rewrite cos_0. ring.
    + intros i Hi. apply upto_In in Hi. destruct (dest_angle i a js Hi Ha D) as [z ->]. rewrite <- (cos_turns (th i a - th i b + sumR (map (u i) js)) z). f_equal. ring.
Qed.

Lemma walks_spread a b : valid_site size a -> valid_site size b ->
  Un_cv (fun n => INR (reaching (map (dest B size a) (sequences g n)) b) / IZR g ^ n)%R (1 / IZR P)%R.
Proof.
  intros Ha Hb. assert (Pp : 0 < P) by (apply (proj2 (grid_sites size true (Hok B size H)))). assert (P0 : IZR P <> 0%R) by (apply IZR_neq; lia).
  assert (G0 : (0 < IZR g)%R) by (apply IZR_lt; exact Hg).
  set (c i := cos (th i a - th i b)). set (e i := sumR (map (fun j => cos (u i j)) (upto g))).
  destruct middle_coords as [Vm Cm].
  apply (limit_ext (fun n => sumR (map (fun i => (e i / IZR g) ^ n * (c i / IZR P))%R (upto P)))).
  { intros n. assert (Gn : (IZR g ^ n)%R <> 0%R) by (apply pow_nonzero; lra).
    transitivity (/ (IZR P * IZR g ^ n) * (INR (reaching (map (dest B size a) (sequences g n)) b) * IZR P))%R; [|field; split; assumption].
    rewrite (phases_counted a b n Ha Hb), <- sumR_scal. apply sumR_ext. intros i _. fold (c i). fold (e i).
    unfold Rdiv at 1. rewrite Rpow_mult_distr, pow_inv. field. split; assumption. }
  assert (L1 : (1 / IZR P)%R = sumR (map (fun i => (if i =? middle size then 1 else 0) * (1 / IZR P))%R (upto P))) by (symmetry; apply (sumR_pick (middle size) (fun _ => 1 / IZR P)%R); exact Vm).
  rewrite L1. apply sum_limit. intros i Hi. apply upto_In in Hi. destruct (i =? middle size) eqn:E.
  - apply Z.eqb_eq in E. subst i. apply (limit_ext (fun _ => 1 * (1 / IZR P))%R); [|apply limit_const]. intros n.
    assert (Ee : e (middle size) = IZR g).
    { unfold e. rewrite (sumR_ext _ (fun _ => 1%R)).
      - rewrite const_sum, upto_length, INR_IZR_INZ, Z2Nat.id by (unfold g; lia). ring.
      - intros j _. unfold u. rewrite Cm, frac_middle, Rmult_0_r. apply cos_0. }
    assert (Ec : c (middle size) = 1%R) by (unfold c, th; rewrite Cm, !frac_middle, Rmult_0_r, Rminus_0_r; apply cos_0).
    rewrite Ee, Ec. unfold Rdiv at 2. rewrite Rinv_r by lra. rewrite pow1. reflexivity.
  - apply Z.eqb_neq in E. rewrite Rmult_0_l. apply power_vanishes. destruct (G i Hi E) as (j & j' & Hj & Hj' & C & C').
    unfold e, g. pose proof (cosines_inside (u i) (b_gamma B) j j' Hj Hj' C C') as Q.
    unfold Rdiv. rewrite Rabs_mult, (Rabs_pos_eq (/ IZR (b_gamma B))) by (left; now apply Rinv_0_lt_compat). fold g in Q |- *.
    apply (Rmult_lt_reg_r (IZR g)); [exact G0|]. rewrite Rmult_assoc, Rinv_l, Rmult_1_r, Rmult_1_l by lra. exact Q.
Qed.
End Mix.

Lemma centred_bounds s x : 0 < s -> 0 <= x < s -> - s < x - s / 2 < s.
Proof. intros. Z.to_euclidean_division_equations. lia. Qed.

Lemma off_middle (B : bravais R) size i : lattice_ok B size -> valid_site size i -> i <> middle size -> coords_of size i <> halves size.
Proof.
  intros H Hi N E. apply N. destruct (middle_coords B size H) as [V C]. apply (c_inj B size H); [exact Hi|exact V|]. now rewrite C.
Qed.

Ltac at_direction j :=
  match goal with |- context [displacement ?B j] => let d := eval cbv in (displacement B j) in change (displacement B j) with d end.
Ltac phase x s := lazymatch goal with |- context [cos ?y] => replace y with (2 * PI * (IZR x / IZR s))%R by (rewrite ?mult_IZR; cbn [frac]; unfold Rdiv; rewrite ?Z.mul_0_r, ?Z.mul_1_r; ring) end.

Lemma chain_gap size : lattice_ok (ChainLattice numR) size -> Forall (fun s => Z.odd s = true) size -> gap (ChainLattice numR) size.
Proof.
  intros H O i Hi N. pose proof (off_middle _ _ _ H Hi N) as E. pose proof (c_on _ _ H i Hi) as Gc. pose proof (Spos _ _ H) as SP. pose proof (dim_length _ _ H) as Dl.
  cbn in Dl. destruct size as [|s [|]]; try discriminate Dl. inversion O; subst. inversion SP; subst. remember (coords_of [s] i) as c eqn:Ec. clear Ec.
  inversion Gc as [|? x ? c' Hx Gc']; subst. inversion Gc'; subst. cbn [halves map] in E. unfold centred. cbn [zip_with].
  exists 0, 0. split; [cbn; lia|]. split; [cbn; lia|]. at_direction 0. set (y := x - s / 2). assert (y <> 0) by (unfold y; intros Z0; apply E; f_equal; lia).
  assert (- s < y < s) by now apply centred_bounds. split; phase y s; [now apply cos_below|now apply cos_above].
Qed.

Ltac above_below := first [now apply cos_below | now apply cos_above].

Lemma square_gap size : lattice_ok (SquareLattice numR) size -> Forall (fun s => Z.odd s = true) size -> gap (SquareLattice numR) size.
Proof.
  intros H O i Hi N. pose proof (off_middle _ _ _ H Hi N) as E. pose proof (c_on _ _ H i Hi) as Gc. pose proof (Spos _ _ H) as SP. pose proof (dim_length _ _ H) as Dl.
  cbn in Dl. destruct size as [|s [|t [|]]]; try discriminate Dl. inversion O as [|? ? Os O']; subst. inversion O'; subst. inversion SP as [|? ? Ss SP']; subst. inversion SP'; subst.
  remember (coords_of [s; t] i) as c eqn:Ec. clear Ec.
  inversion Gc as [|? x ? c' Hx Gc']; subst. inversion Gc' as [|? x' ? c'' Hx' Gc'']; subst. inversion Gc''; subst. cbn [halves map] in E. unfold centred. cbn [zip_with].
  set (y := x - s / 2). set (z := x' - t / 2). assert (- s < y < s) by now apply centred_bounds. assert (- t < z < t) by now apply centred_bounds.
  assert (D : y <> 0 \/ z <> 0) by (destruct (Z.eq_dec y 0); [right; intros Z0; apply E; unfold y, z in *; do 2 (f_equal; try lia)|now left]).
  destruct D as [D|D].
  - exists 0, 0. split; [cbn; lia|]. split; [cbn; lia|]. at_direction 0. split; phase y s; above_below.
  - exists 2, 0. split; [cbn; lia|]. split; [cbn; lia|]. split; [at_direction 2; phase z t|at_direction 0; phase y s]; above_below.
Qed.

Lemma cubic_gap size : lattice_ok (CubicLattice numR) size -> Forall (fun s => Z.odd s = true) size -> gap (CubicLattice numR) size.
Proof.
  intros H O i Hi N. pose proof (off_middle _ _ _ H Hi N) as E. pose proof (c_on _ _ H i Hi) as Gc. pose proof (Spos _ _ H) as SP. pose proof (dim_length _ _ H) as Dl.
  cbn in Dl. destruct size as [|s [|t [|r [|]]]]; try discriminate Dl.
  inversion O as [|? ? Os O']; subst. inversion O' as [|? ? Ot O'']; subst. inversion O''; subst. inversion SP as [|? ? Ss SP']; subst. inversion SP' as [|? ? St SP'']; subst. inversion SP''; subst.
  remember (coords_of [s; t; r] i) as c eqn:Ec. clear Ec.
  inversion Gc as [|? x ? c' Hx Gc']; subst. inversion Gc' as [|? x' ? c'' Hx' Gc'']; subst. inversion Gc'' as [|? x'' ? c3 Hx'' Gc3]; subst. inversion Gc3; subst. cbn [halves map] in E. unfold centred. cbn [zip_with].
  set (y := x - s / 2). set (z := x' - t / 2). set (w := x'' - r / 2).
  assert (- s < y < s) by now apply centred_bounds. assert (- t < z < t) by now apply centred_bounds. assert (- r < w < r) by now apply centred_bounds.
  assert (D : y <> 0 \/ z <> 0 \/ w <> 0).
  { destruct (Z.eq_dec y 0) as [Ey|Ny]; [|now left]. destruct (Z.eq_dec z 0) as [Ez|Nz]; [|now right; left]. right. right. intros Z0. apply E. unfold y, z, w in *. do 3 (f_equal; try lia). }
  destruct D as [D|[D|D]].
  - exists 0, 0. split; [cbn; lia|]. split; [cbn; lia|]. at_direction 0. split; phase y s; above_below.
  - exists 2, 0. split; [cbn; lia|]. split; [cbn; lia|]. split; [at_direction 2; phase z t|at_direction 0; phase y s]; above_below.
  - exists 4, 0. split; [cbn; lia|]. split; [cbn; lia|]. split; [at_direction 4; phase w r|at_direction 0; phase y s]; above_below.
Qed.

(** On triangular lattices three hops lead back, whatever the extents. *)
Lemma triangular_gap size : lattice_ok (TriangularLattice numR) size -> gap (TriangularLattice numR) size.
Proof.
  intros H i Hi N. pose proof (off_middle _ _ _ H Hi N) as E. pose proof (c_on _ _ H i Hi) as Gc. pose proof (Spos _ _ H) as SP. pose proof (dim_length _ _ H) as Dl.
  cbn in Dl. destruct size as [|s [|t [|]]]; try discriminate Dl. inversion SP as [|? ? Ss SP']; subst. inversion SP'; subst.
  remember (coords_of [s; t] i) as c eqn:Ec. clear Ec.
  inversion Gc as [|? x ? c' Hx Gc']; subst. inversion Gc' as [|? x' ? c'' Hx' Gc'']; subst. inversion Gc''; subst. cbn [halves map] in E. unfold centred. cbn [zip_with].
  set (y := x - s / 2). set (z := x' - t / 2). assert (- s < y < s) by now apply centred_bounds. assert (- t < z < t) by now apply centred_bounds.
  assert (D : y <> 0 \/ z <> 0) by (destruct (Z.eq_dec y 0); [right; intros Z0; apply E; unfold y, z in *; do 2 (f_equal; try lia)|now left]).
  set (p := (2 * PI * (IZR y / IZR s))%R). set (q := (2 * PI * (IZR z / IZR t))%R).
  assert (U : exists j', 0 <= j' < 6 /\ (-1 < cos (2 * PI * frac [s; t] [y; z] (displacement (TriangularLattice numR) j')))%R).
  { destruct (COS_bound p) as [[C|C] _].
    - exists 0. split; [lia|]. at_direction 0. phase y s. exact C.
    - destruct (COS_bound q) as [[D'|D'] _].
      + exists 2. split; [lia|]. at_direction 2. phase z t. exact D'.
      + exists 4. split; [lia|]. at_direction 4. assert (Sp : sin p = 0%R) by (pose proof (sin2_cos2 p) as Q; unfold Rsqr in Q; rewrite <- C in Q; nra).
        lazymatch goal with |- context [cos ?e] => replace e with (p - q)%R by (unfold p, q; cbn [frac]; unfold Rdiv; rewrite ?mult_IZR; ring) end.
        rewrite cos_minus, Sp, <- C, <- D'. lra. }
  destruct U as (j' & Hj' & C'). destruct D as [D|D].
  - exists 0, j'. split; [cbn; lia|]. split; [exact Hj'|]. split; [at_direction 0; phase y s; now apply cos_below|exact C'].
  - exists 2, j'. split; [cbn; lia|]. split; [exact Hj'|]. split; [at_direction 2; phase z t; now apply cos_below|exact C'].
Qed.
