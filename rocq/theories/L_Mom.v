(** Lemmas about momenta computed in doubles. *)
From Coq Require Import ZArith Reals List Bool Lia Lra.
From Flocq Require Import Core.
From Flocq Require Import IEEE754.BinarySingleNaN.
From Verif Require Import Base F64 Num S_Math S_Accum M_MathInt M_MathF M_Pairs M_Grid M_Bravais M_Lattice S_Grid S_Bravais S_Lattice
  L_MathInt L_Grid L_Hist L_MathF L_Bravais L_Lattice L_LatticeK L_Space L_Pi.
Import ListNotations.
Open Scope Z_scope.

Lemma pi_d_range : (3 <= RR pi_d <= 4)%R /\ (3 <= PI <= 4)%R.
Proof.
  pose proof (proj1 RR_pi_d) as E. pose proof pi_d_near as Nr. pose proof uro_small. pose proof uro_pos.
  assert (B : (3.1 <= RR pi_d <= 3.2)%R) by (rewrite E; lra).
  apply Rabs_le_inv in Nr. lra.
Qed.

Lemma fadd_R0 x y : fin x -> fin y -> RR y = 0%R -> fin (fadd x y) /\ RR (fadd x y) = RR x.
Proof.
  intros Fx Fy E. assert (Er : rnd (RR x + RR y) = RR x) by (rewrite E, Rplus_0_r; apply rnd_fmt, fmt_RR).
  destruct (fadd_ok x y Fx Fy) as [A B]; [rewrite Er; apply RR_lt_fmax|]. split; [exact B|]. now rewrite A.
Qed.
Lemma fadd_0R x y : fin x -> fin y -> RR x = 0%R -> fin (fadd x y) /\ RR (fadd x y) = RR y.
Proof.
  intros Fx Fy E. assert (Er : rnd (RR x + RR y) = RR y) by (rewrite E, Rplus_0_l; apply rnd_fmt, fmt_RR).
  destruct (fadd_ok x y Fx Fy) as [A B]; [rewrite Er; apply RR_lt_fmax|]. split; [exact B|]. now rewrite A.
Qed.
Lemma fmul_R0 x y : fin x -> fin y -> RR y = 0%R -> fin (fmul x y) /\ RR (fmul x y) = 0%R.
Proof.
  intros Fx Fy E. assert (Er : rnd (RR x * RR y) = 0%R) by (rewrite E, Rmult_0_r; apply rnd_0).
  destruct (fmul_ok x y Fx Fy) as [A B]; [rewrite Er, Rabs_R0; unfold fmax; apply bpow_gt_0|]. split; [exact B|]. now rewrite A.
Qed.
Lemma fmul_R1 x y : fin x -> fin y -> RR y = 1%R -> fin (fmul x y) /\ RR (fmul x y) = RR x.
Proof.
  intros Fx Fy E. assert (Er : rnd (RR x * RR y) = RR x) by (rewrite E, Rmult_1_r; apply rnd_fmt, fmt_RR).
  destruct (fmul_ok x y Fx Fy) as [A B]; [rewrite Er; apply RR_lt_fmax|]. split; [exact B|]. now rewrite A.
Qed.

(** Twice an integer times M_PI. *)
Lemma two_c_pi c : Z.abs c <= 2 ^ 52 -> let x := fmul (of_Z (c * 2)) pi_d in
  fin x /\ RR x = rnd (IZR (c * 2) * RR pi_d).
Proof.
  intros H x. destruct (of_Z_exact (c * 2)) as [E F]; [lia|]. destruct pi_d_range as [[P1 P2] _].
  destruct (fmul_ok (of_Z (c * 2)) pi_d F (proj2 RR_pi_d)) as [A B].
  - rewrite E. apply (no_overflow _ 55); [lia|]. rewrite Rabs_mult. replace (bpow radix2 55) with (bpow radix2 53 * 4)%R.
    + apply Rmult_le_compat; try apply Rabs_pos; [apply IZR_bpow; lia|]. rewrite Rabs_pos_eq; lra.
    + change 4%R with (bpow radix2 2). now rewrite <- bpow_plus.
  - split; [exact B|]. unfold x. now rewrite A, E.
Qed.

Lemma unit_rrow_double B c i : unit_lattice f0 f1 B -> Forall (fun z => Z.abs z <= 2 ^ 52) c -> 0 <= i < b_dim B ->
  let x := rrow numF pi_d B c i in fin x /\ RR x = rnd (IZR (nth (Z.to_nat i) c 0%Z * 2) * RR pi_d).
Proof.
  intros (W & U) F Hi x.
  assert (Fn : forall j, Z.abs (nth j c 0) <= 2 ^ 52).
  { intros j. destruct (Nat.lt_ge_cases j (length c)) as [L|L]; [|rewrite nth_overflow by exact L; cbn; lia].
    rewrite Forall_forall in F. apply F, nth_In, L. }
  assert (G : forall n, 0 <= n -> n <= b_dim B ->
    let y := fold_left (fun p j => fadd p (fmul (fmul (of_Z (nth (Z.to_nat j) c 0 * 2)) pi_d) (entry (of_Z 0) (b_pi B) (b_dim B) i j))) (upto n) (of_Z 0) in
    fin y /\ RR y = if i <? n then rnd (IZR (nth (Z.to_nat i) c 0%Z * 2) * RR pi_d) else 0%R).
  { refine (natlike_ind _ _ _).
    - intros _. destruct (Z.ltb_spec i 0); [lia|]. split; reflexivity.
    - intros n Hn IH Hle y. unfold y, Z.succ. rewrite upto_S by exact Hn. rewrite fold_left_app. cbn [fold_left].
      destruct (IH ltac:(lia)) as [Fy Ey]. clear y. set (y := fold_left _ (upto n) _) in *. clearbody y.
      change (entry (of_Z 0)) with (entry f0). destruct (U i n Hi ltac:(lia)) as [_ ->].
      destruct (two_c_pi _ (Fn (Z.to_nat n))) as [Ft Et].
      destruct (Z.eqb_spec i n) as [->|Ne].
      + replace (n <? n) with false in Ey by (symmetry; apply Z.ltb_irrefl). replace (n <? n + 1) with true by (symmetry; apply Z.ltb_lt; lia).
        destruct (fmul_R1 _ f1 Ft fin_f1 RR_f1) as [Fm Em]. destruct (fadd_0R y _ Fy Fm Ey) as [Fa Ea].
        split; [exact Fa|]. now rewrite Ea, Em, Et.
      + replace (i <? n + 1) with (i <? n) by (destruct (Z.ltb_spec i n), (Z.ltb_spec i (n + 1)); lia).
        destruct (fmul_R0 _ f0 Ft fin_f0 RR_f0) as [Fm Em]. destruct (fadd_R0 y _ Fy Fm Em) as [Fa Ea].
        split; [exact Fa|]. now rewrite Ea. }
  destruct (G (b_dim B)) as [Fy Ey]; [lia|lia|]. replace (i <? b_dim B) with true in Ey by (symmetry; apply Z.ltb_lt; lia).
  split; assumption.
Qed.

(** Doubling, multiplying by M_PI and dividing loses at most 3 units. *)
Lemma two_pi_over c s : Z.abs c * 2 <= s <= 2 ^ 53 -> 0 < s -> forall x, fin x -> RR x = rnd (IZR (c * 2) * RR pi_d) ->
  let y := fdiv x (of_Z s) in
  let k := (2 * PI * IZR c / IZR s)%R in fin y /\ (Rabs (RR y - k) <= 3 * uro * Rabs k)%R /\ RR y = rnd (RR x / IZR s).
Proof.
  intros Hc Hs x Fx Ex y k. destruct (of_Z_exact s) as [Es Fs]; [lia|]. pose proof pi_d_range as [[P1 P2] [P3 P4]].
  assert (S0 : (1 <= IZR s)%R) by (apply IZR_le; lia).
  assert (C2 : (Rabs (IZR c) * 2 <= IZR s)%R) by (rewrite <- abs_IZR, <- mult_IZR; apply IZR_le; lia).
  destruct (Z.eq_dec c 0) as [->|Nc].
  - assert (E0 : RR x = 0%R) by (rewrite Ex; change (IZR (0 * 2)) with 0%R; rewrite Rmult_0_l; apply rnd_0).
    assert (Er : rnd (RR x / RR (of_Z s)) = 0%R) by (rewrite E0; unfold Rdiv; rewrite Rmult_0_l; apply rnd_0).
    destruct (fdiv_ok x (of_Z s) Fx) as [A B]; [rewrite Es; lra|rewrite Er, Rabs_R0; unfold fmax; apply bpow_gt_0|].
    split; [exact B|]. split; [|unfold y; now rewrite A, Es]. unfold y, k. rewrite A, Er. unfold Rdiv. rewrite Rmult_0_r, Rmult_0_l, Rminus_0_r, Rabs_R0. lra.
  - assert (C1 : (1 <= Rabs (IZR c))%R) by (rewrite <- abs_IZR; apply IZR_le; lia).
    pose proof uro_small as U1. pose proof uro_pos as U0. pose proof pi_d_near as Nr.
    set (t := (IZR (c * 2) * RR pi_d)%R) in *. set (a := Rabs (IZR c)) in *.
    assert (Et : Rabs t = (a * 2 * RR pi_d)%R) by (unfold t; rewrite mult_IZR, !Rabs_mult, (Rabs_pos_eq (RR pi_d)), (Rabs_pos_eq 2) by lra; reflexivity).
    assert (R1 : (Rabs (rnd t - t) <= uro * Rabs t)%R).
    { apply rnd_rel. apply Rle_trans with 1%R; [change 1%R with (bpow radix2 0); apply bpow_le; lia|]. rewrite Et. nra. }
    set (w := rnd t) in *. assert (Wb : ((1 - uro) * Rabs t <= Rabs w <= (1 + uro) * Rabs t)%R).
    { pose proof (Rabs_triang_inv t w) as T1. pose proof (Rabs_triang_inv w t) as T2. rewrite (Rabs_minus_sym t w) in T1. lra. }
    assert (Iv : (0 < / IZR s <= 1)%R) by (split; [apply Rinv_0_lt_compat; lra|rewrite <- Rinv_1; apply Rinv_le_contravar; lra]).
    assert (Si : (IZR s * / IZR s = 1)%R) by (apply Rinv_r; lra). set (v := (/ IZR s)%R) in *.
    assert (Ew : Rabs (w / IZR s) = (Rabs w * v)%R) by (unfold Rdiv; fold v; rewrite Rabs_mult, (Rabs_pos_eq v) by lra; reflexivity).
    assert (V1 : (uro <= v)%R).
    { unfold v. rewrite uro_val. apply Rinv_le_contravar; [lra|apply IZR_le; lia]. }
    assert (R2 : (Rabs (rnd (w / IZR s) - w / IZR s) <= uro * Rabs (w / IZR s))%R).
    { apply rnd_rel. rewrite Ew. apply Rle_trans with uro; [unfold uro; apply bpow_le; lia|].
      assert (1 <= Rabs w)%R by (rewrite Et in Wb; nra). nra. }
    assert (Wm : (Rabs (w / IZR s) <= 8)%R).
    { rewrite Ew. apply Rle_trans with ((1 + uro) * (a * 2 * RR pi_d) * v)%R; [apply Rmult_le_compat_r; [lra|rewrite <- Et; apply Wb]|].
      assert (a * 2 * v <= 1)%R by (rewrite <- Si; apply Rmult_le_compat_r; lra).
      assert (0 <= a * 2 * v)%R by (apply Rmult_le_pos; lra).
      replace ((1 + uro) * (a * 2 * RR pi_d) * v)%R with ((1 + uro) * RR pi_d * (a * 2 * v))%R by ring.
      assert (Q : (0 <= (1 + uro) * RR pi_d <= 8)%R) by nra. set (q := ((1 + uro) * RR pi_d)%R) in *. clearbody q. nra. }
    destruct (fdiv_ok x (of_Z s) Fx) as [A B]; [rewrite Es; lra|rewrite Ex, Es; apply (no_overflow _ 3); [lia|exact Wm]|].
    split; [exact B|]. split; [|unfold y; now rewrite A, Es]. unfold y. rewrite A, Ex, Es.
    assert (Ek : Rabs k = (a * 2 * PI * v)%R).
    { unfold k, Rdiv. fold v. rewrite !Rabs_mult, (Rabs_pos_eq 2), (Rabs_pos_eq PI), (Rabs_pos_eq v) by lra. fold a. ring. }
    assert (Tk : (Rabs (t * v - k) <= 0.42 * uro * Rabs k)%R).
    { rewrite Ek. unfold t, k, Rdiv. fold v. rewrite mult_IZR. replace (IZR c * 2 * RR pi_d * v - 2 * PI * IZR c * v)%R with (2 * IZR c * v * (RR pi_d - PI))%R by ring.
      rewrite !Rabs_mult, (Rabs_pos_eq 2), (Rabs_pos_eq v) by lra. fold a.
      replace (0.42 * uro * (a * 2 * PI * v))%R with (2 * a * v * (0.42 * PI * uro))%R by ring.
      apply Rmult_le_compat_l; [apply Rmult_le_pos; lra|]. nra. }
    assert (Tw : (Rabs (w * v - t * v) <= uro * (Rabs t * v))%R).
    { replace (w * v - t * v)%R with ((w - t) * v)%R by ring. rewrite Rabs_mult, (Rabs_pos_eq v) by lra. nra. }
    assert (Tv : (Rabs t * v <= (1 + 0.42 * uro) * Rabs k)%R).
    { replace (Rabs t * v)%R with (Rabs (t * v)) by (rewrite Rabs_mult, (Rabs_pos_eq v) by lra; reflexivity).
      pose proof (Rabs_triang_inv (t * v) k). lra. }
    unfold Rdiv in R2, Ew |- *. fold v in R2, Ew |- *. rewrite Ew in R2.
    assert (Wv : (Rabs w * v <= (1 + uro) * (Rabs t * v))%R) by nra.
    pose proof (Rabs_pos k) as K0. set (K := Rabs k) in *. set (tv := (Rabs t * v)%R) in *. set (wv := (Rabs w * v)%R) in *.
    assert (T3 : (Rabs (rnd (w * v) - k) <= uro * wv + uro * tv + 0.42 * uro * K)%R).
    { replace (rnd (w * v) - k)%R with ((rnd (w * v) - w * v) + (w * v - t * v) + (t * v - k))%R by ring.
      eapply Rle_trans; [apply Rabs_triang|]. apply Rplus_le_compat; [|exact Tk].
      eapply Rle_trans; [apply Rabs_triang|]. now apply Rplus_le_compat. }
    apply Rle_trans with (1 := T3). clearbody K tv wv. clear - U0 U1 K0 Tv Wv.
    replace (3 * uro * K)%R with (uro * (3 * K))%R by ring. replace (uro * wv + uro * tv + 0.42 * uro * K)%R with (uro * (wv + tv + 0.42 * K))%R by ring.
    apply Rmult_le_compat_l; [lra|].
    assert (tv <= 1.01 * K)%R by nra. assert (tv * uro <= 0.01 * K)%R by nra. nra.
Qed.

Lemma centred_small : forall size c, on_grid size c -> Forall (fun s => s <= 2 ^ 53) size ->
  Forall (fun z => Z.abs z <= 2 ^ 52) (centred size c) /\ Forall2 (fun z s => Z.abs z * 2 <= s /\ 0 < s) (centred size c) size.
Proof.
  intros size c G F. unfold on_grid in G. unfold centred. revert c G. induction F as [|s size Hs F IH]; intros c G; inversion G as [|s' x size' c' Hx G']; subst; cbn [zip_with]; [repeat constructor|].
  destruct (IH _ G') as [I1 I2].
  assert (Q : Z.abs (x - s / 2) * 2 <= s /\ 0 < s) by (Z.to_euclidean_division_equations; lia).
  split; constructor; auto. lia.
Qed.

Lemma Forall2_nth {A B} (P : A -> B -> Prop) a b : forall l m, Forall2 P l m -> forall n, (n < length l)%nat -> P (nth n l a) (nth n m b).
Proof. induction 1 as [|x y l m H F IH]; intros [|n] L; cbn [length nth] in *; try lia; [exact H|apply IH; lia]. Qed.
Lemma nth_Forall2 {A B} (P : A -> B -> Prop) a b : forall l m, length l = length m -> (forall n, (n < length l)%nat -> P (nth n l a) (nth n m b)) -> Forall2 P l m.
Proof.
  induction l as [|x l IH]; intros [|y m] L H; try discriminate L; constructor; [apply (H 0%nat); cbn; lia|].
  apply IH; [now injection L|]. intros n Hn. apply (H (S n)). cbn. lia.
Qed.
Lemma allowed_length size c : length c = length size -> length (allowed size c) = length size.
Proof. intros H. unfold allowed. rewrite zip_length; lia. Qed.
Lemma allowed_nth : forall size c n, length c = length size -> (n < length size)%nat ->
  nth n (allowed size c) 0%R = (2 * PI * IZR (nth n (centred size c) 0%Z) / IZR (nth n size 0%Z))%R.
Proof.
  unfold allowed, centred. induction size as [|s size IH]; intros [|x c] [|n] L H; try discriminate L; cbn [length] in *; try lia; [reflexivity|].
  cbn [zip_with nth]. apply IH; [now injection L|lia].
Qed.

Definition close3 (x : f64) (k : R) : Prop := fin x /\ (Rabs (RR x - k) <= 3 * uro * Rabs k)%R.

Lemma unit_mom_nth B size c n : unit_lattice f0 f1 B -> lattice_ok B size -> Forall (fun s => s <= 2 ^ 53) size -> on_grid size c ->
  (n < length size)%nat -> let x := nth n (mom numF pi_d B size c) f0 in
  close3 x (nth n (allowed size c) 0%R) /\
  RR x = rnd (rnd (IZR (nth n (centred size c) 0%Z * 2) * RR pi_d) / IZR (nth n size 0%Z)).
Proof.
  intros U H Hs G Hn x. destruct (ok_dims _ _ H) as [Dm DS]. pose proof (on_grid_length _ _ G) as Lc.
  destruct (centred_small size c G Hs) as [C1 C2].
  assert (Ll : length (centred size c) = length size) by (unfold centred; rewrite zip_length; lia).
  rewrite allowed_nth by lia. unfold x.
  replace n with (Z.to_nat (Z.of_nat n)) at 1 4 by lia. unfold mom. rewrite nth_map_upto by (unfold vsize in DS; lia).
  destruct (Forall2_nth _ 0 0 _ _ C2 n) as [Q1 Q2]; [lia|].
  assert (Q3 : nth n size 0 <= 2 ^ 53) by (rewrite Forall_forall in Hs; apply Hs, nth_In; lia).
  destruct (unit_rrow_double B (centred size c) (Z.of_nat n) U C1) as [Fx Ex]; [unfold vsize in DS; lia|].
  rewrite Nat2Z.id in *. cbn [numF n_div n_ofZ].
  destruct (two_pi_over (nth n (centred size c) 0) (nth n size 0) ltac:(lia) Q2 _ Fx Ex) as (R1 & R2 & R3).
  split; [split; assumption|]. now rewrite R3, Ex.
Qed.
Lemma mom_length {T} (N : num T) pi B size c : lattice_ok B size -> length (mom N pi B size c) = length size.
Proof. intros H. destruct (ok_dims _ _ H) as [Dm DS]. unfold mom. rewrite map_length, upto_length. unfold vsize in DS. lia. Qed.

Lemma unit_mom_double B size c : unit_lattice f0 f1 B -> lattice_ok B size -> Forall (fun s => s <= 2 ^ 53) size -> on_grid size c ->
  Forall2 close3 (mom numF pi_d B size c) (allowed size c).
Proof.
  intros U H Hs G. pose proof (on_grid_length _ _ G) as Lc. pose proof (mom_length numF pi_d B size c H) as Lm.
  apply (nth_Forall2 _ f0 0%R); [rewrite allowed_length; lia|]. intros n Hn. apply unit_mom_nth; auto. lia.
Qed.

Lemma unit_momenta_double B size : unit_lattice f0 f1 B -> lattice_ok B size -> Forall (fun s => s <= 2 ^ 53) size ->
  exists L, Lattice numF pi_d B size true = Ok L /\ forall a c, valid_site size a -> GetCoordinates (l_grid L) a = Ok c ->
  exists k, GetMomentum L a = Ok k /\ Forall2 close3 k (allowed size c).
Proof.
  intros U H Hs. exists (built numF pi_d B size true). split; [now apply lattice_built|]. intros a c Ha Ec.
  pose proof H as (W & Hz & H40 & Hok & He & Hn). change (l_grid (built numF pi_d B size true)) with (HyperCubicGrid size true) in Ec.
  rewrite grid_coords in Ec by assumption. injection Ec as <-. eexists. split; [now apply momentum_built|].
  apply unit_mom_double; auto. now apply coords_of_spec.
Qed.

(** Errors of 3 units leave the momenta of a ring of length at most 2^51 apart. *)
Lemma apart c c' s x x' : Z.abs c * 2 <= s <= 2 ^ 51 -> Z.abs c' * 2 <= s -> 0 < s -> c < c' ->
  close3 x (2 * PI * IZR c / IZR s) -> close3 x' (2 * PI * IZR c' / IZR s) -> (RR x < RR x')%R.
Proof.
  intros H H' Hs Lt [_ E] [_ E']. pose proof pi_d_range as [_ [P3 P4]]. pose proof uro_pos as U0.
  assert (S0 : (1 <= IZR s)%R) by (apply IZR_le; lia).
  assert (Iv : (0 < / IZR s)%R) by (apply Rinv_0_lt_compat; lra). assert (Si : (IZR s * / IZR s = 1)%R) by (apply Rinv_r; lra).
  assert (V1 : (4 * uro <= / IZR s)%R).
  { replace (4 * uro)%R with (/ IZR (2 ^ 51))%R; [apply Rinv_le_contravar; [lra|apply IZR_le; lia]|]. rewrite uro_val.
    change (IZR (2 ^ 53)) with (IZR (4 * 2 ^ 51)). rewrite mult_IZR. field. apply IZR_neq. lia. }
  unfold Rdiv in *. set (v := (/ IZR s)%R) in *. clearbody v.
  assert (K : forall z, Z.abs z * 2 <= s -> (Rabs (2 * PI * IZR z * v) <= PI)%R).
  { intros z Hz. assert (C2 : (Rabs (IZR z) * 2 <= IZR s)%R) by (rewrite <- abs_IZR, <- mult_IZR; apply IZR_le; lia).
    rewrite !Rabs_mult, (Rabs_pos_eq 2), (Rabs_pos_eq PI), (Rabs_pos_eq v) by lra.
    assert (Rabs (IZR z) * 2 * v <= 1)%R by (rewrite <- Si; apply Rmult_le_compat_r; lra). nra. }
  pose proof (K c ltac:(lia)) as Kc. pose proof (K c' ltac:(lia)) as Kc'.
  assert (G : (2 * PI * IZR c * v + 2 * PI * v <= 2 * PI * IZR c' * v)%R).
  { assert (IZR c + 1 <= IZR c')%R by (rewrite <- plus_IZR; apply IZR_le; lia).
    assert (0 <= 2 * PI * v)%R by (apply Rmult_le_pos; lra). nra. }
  assert (G2 : (8 * PI * uro <= 2 * PI * v)%R) by nra.
  assert (B : (3 * uro * Rabs (2 * PI * IZR c * v) <= 3 * uro * PI)%R) by (apply Rmult_le_compat_l; lra).
  assert (B' : (3 * uro * Rabs (2 * PI * IZR c' * v) <= 3 * uro * PI)%R) by (apply Rmult_le_compat_l; lra).
  pose proof (Rle_trans _ _ _ E B) as E2. pose proof (Rle_trans _ _ _ E' B') as E2'. apply Rabs_le_inv in E2, E2'.
  assert (0 < PI * uro)%R by (apply Rmult_lt_0_compat; lra).
  set (k := (2 * PI * IZR c * v)%R) in *. set (k' := (2 * PI * IZR c' * v)%R) in *. nra.
Qed.

(** Components of momenta are in the order of the coordinates. *)
Lemma momenta_order_double B size : unit_lattice f0 f1 B -> lattice_ok B size -> Forall (fun s => s <= 2 ^ 51) size ->
  exists L, Lattice numF pi_d B size true = Ok L /\ forall a b ca cb, valid_site size a -> valid_site size b ->
  GetCoordinates (l_grid L) a = Ok ca -> GetCoordinates (l_grid L) b = Ok cb ->
  exists ka kb, GetMomentum L a = Ok ka /\ GetMomentum L b = Ok kb /\
  forall n, (n < length size)%nat -> flt (nth n ka f0) (nth n kb f0) = (nth n ca 0 <? nth n cb 0).
Proof.
  intros U H Hs. exists (built numF pi_d B size true). split; [now apply lattice_built|]. intros a b ca cb Ha Hb Ea Eb.
  pose proof H as (W & Hz & H40 & Hok & He & Hn). change (l_grid (built numF pi_d B size true)) with (HyperCubicGrid size true) in Ea, Eb.
  rewrite grid_coords in Ea, Eb by assumption. injection Ea as <-. injection Eb as <-.
  eexists. eexists. split; [now apply momentum_built|]. split; [now apply momentum_built|]. intros n Ln.
  assert (Hs' : Forall (fun s => s <= 2 ^ 53) size) by (eapply Forall_impl; [|exact Hs]; cbv beta; intros; lia).
  destruct (coords_of_spec size a Hok Ha) as (_ & Ga & _). destruct (coords_of_spec size b Hok Hb) as (_ & Gb & _).
  destruct (unit_mom_nth B size _ n U H Hs' Ga Ln) as [Xa Ya]. destruct (unit_mom_nth B size _ n U H Hs' Gb Ln) as [Xb Yb].
  pose proof (on_grid_length _ _ Ga) as La. pose proof (on_grid_length _ _ Gb) as Lb.
  destruct (centred_small size _ Ga Hs') as [_ Ca]. destruct (centred_small size _ Gb Hs') as [_ Cb].
  rewrite allowed_nth in Xa, Xb by lia.
  assert (Lc : forall c, length c = length size -> length (centred size c) = length size) by (intros; unfold centred; rewrite zip_length; lia).
  pose proof (Forall2_nth _ 0 0 _ _ Ca n ltac:(rewrite Lc; lia)) as [Qa Q0]. pose proof (Forall2_nth _ 0 0 _ _ Cb n ltac:(rewrite Lc; lia)) as [Qb _].
  assert (Q3 : nth n size 0 <= 2 ^ 51) by (rewrite Forall_forall in Hs; apply Hs, nth_In; lia).
  assert (Ec : forall c, length c = length size -> nth n (centred size c) 0 = nth n c 0 - nth n size 0 / 2).
  { intros c L. rewrite <- centred_upto by exact L. replace n with (Z.to_nat (Z.of_nat n)) at 1 by lia. rewrite nth_map_upto by (unfold vsize; lia).
    now rewrite Nat2Z.id. }
  rewrite Ec in Xa, Xb, Qa, Qb, Ya, Yb by lia.
  set (xa := nth n (mom numF pi_d B size (coords_of size a)) f0) in *. set (xb := nth n (mom numF pi_d B size (coords_of size b)) f0) in *.
  set (za := nth n (coords_of size a) 0) in *. set (zb := nth n (coords_of size b) 0) in *. set (s := nth n size 0) in *.
  destruct (Z.ltb_spec za zb) as [Lt|Ge].
  - apply flt_R; [apply Xa|apply Xb|]. apply (apart (za - s / 2) (zb - s / 2) s); auto; lia.
  - apply flt_R_false; [apply Xa|apply Xb|]. destruct (Z.eq_dec za zb) as [Eq|Ne].
    + rewrite Ya, Yb, Eq. apply Rle_refl.
    + apply Rlt_le. apply (apart (zb - s / 2) (za - s / 2) s); auto; lia.
Qed.

Lemma momenta_distinct_double B size : unit_lattice f0 f1 B -> lattice_ok B size -> Forall (fun s => s <= 2 ^ 51) size ->
  exists L, Lattice numF pi_d B size true = Ok L /\ forall a b, valid_site size a -> valid_site size b -> a <> b ->
  exists ka kb n, GetMomentum L a = Ok ka /\ GetMomentum L b = Ok kb /\ (n < length size)%nat /\ feq (nth n ka f0) (nth n kb f0) = false.
Proof.
  intros U H Hs. destruct (momenta_order_double B size U H Hs) as (L & EL & P). exists L. split; [exact EL|]. intros a b Ha Hb Ne.
  pose proof H as (W & Hz & H40 & Hok & He & Hn). rewrite lattice_built in EL by exact H. injection EL as <-.
  assert (Hs' : Forall (fun s => s <= 2 ^ 53) size) by (eapply Forall_impl; [|exact Hs]; cbv beta; intros; lia).
  destruct (coords_of_spec size a Hok Ha) as (_ & Ga & Ra). destruct (coords_of_spec size b Hok Hb) as (_ & Gb & Rb).
  pose proof (on_grid_length _ _ Ga) as La. pose proof (on_grid_length _ _ Gb) as Lb.
  assert (D : exists n, (n < length size)%nat /\ nth n (coords_of size a) 0 <> nth n (coords_of size b) 0).
  { destruct (list_eq_dec Z.eq_dec (coords_of size a) (coords_of size b)) as [Eq|Nq]; [exfalso; apply Ne; congruence|].
    destruct (Forall_Exists_dec (fun n => nth n (coords_of size a) 0 = nth n (coords_of size b) 0) (fun n => Z.eq_dec _ _) (seq 0 (length size))) as [A|E].
    - exfalso. apply Nq. apply (nth_ext _ _ 0 0); [lia|]. intros n Ln. rewrite Forall_forall in A. apply A, in_seq. lia.
    - apply Exists_exists in E. destruct E as (n & In & Hn'). apply in_seq in In. exists n. split; [lia|exact Hn']. }
  destruct D as (n & Ln & Dn).
  specialize (P a b _ _ Ha Hb (grid_coords size true a Hok Ha) (grid_coords size true b Hok Hb)).
  pose proof (P) as (ka & kb & Ea & Eb & O). exists ka, kb, n. split; [exact Ea|]. split; [exact Eb|]. split; [exact Ln|]. specialize (O n Ln).
  rewrite momentum_built in Ea, Eb by assumption. injection Ea as <-. injection Eb as <-.
  destruct (unit_mom_nth B size _ n U H Hs' Ga Ln) as [[Fa _] Ya]. destruct (unit_mom_nth B size _ n U H Hs' Gb Ln) as [[Fb _] Yb].
  apply not_true_is_false. intros E. apply feq_R in E; [|exact Fa|exact Fb].
  destruct (Z.ltb_spec (nth n (coords_of size a) 0) (nth n (coords_of size b) 0)) as [Lt|Ge].
  - apply flt_R in O; [|exact Fa|exact Fb]. lra.
  - pose proof P as _. destruct (momenta_order_double B size U H Hs) as (L' & EL' & P'). rewrite lattice_built in EL' by exact H. injection EL' as <-.
    destruct (P' b a _ _ Hb Ha (grid_coords size true b Hok Hb) (grid_coords size true a Hok Ha)) as (kb & ka & Eb & Ea & O'). specialize (O' n Ln).
    rewrite momentum_built in Ea, Eb by assumption. injection Ea as <-. injection Eb as <-.
    replace (nth n (coords_of size b) 0 <? nth n (coords_of size a) 0) with true in O' by (symmetry; apply Z.ltb_lt; lia).
    apply flt_R in O'; [|exact Fb|exact Fa]. lra.
Qed.
