(** Lemmas for C89: how many engine words lead to each random choice. *)
From Coq Require Import ZArith Reals List Bool Lia Lra Psatz.
From Flocq Require Import Core.Core Mult_error IEEE754.BinarySingleNaN.
From Verif Require Import Base F64 Num S_MathF S_Random M_MathF M_Random L_MathF.
Import ListNotations.
Open Scope R_scope.

(** * generate_canonical *)

Definition W64 : R := IZR (2 ^ 64).
Lemma W64_bpow : W64 = bpow radix2 64. Proof. unfold W64. now rewrite <- IZR_Zpower. Qed.
Lemma W64_pos : 0 < W64. Proof. apply IZR_lt. reflexivity. Qed.
Lemma W64_uro : uro * W64 = 2048.
Proof. rewrite W64_bpow. unfold uro. rewrite <- bpow_plus. reflexivity. Qed.

Lemma rnd_word_err w : word w -> Rabs (rnd (IZR w) - IZR w) <= uro * IZR w.
Proof.
  intros [A B]. pose proof (Z.div_mod w (2 ^ 32)) as E.
  assert (H1 : (0 <= w mod 2 ^ 32 < 2 ^ 32)%Z) by (apply Z.mod_pos_bound; lia).
  assert (H2 : (0 <= w / 2 ^ 32 < 2 ^ 32)%Z).
  { split; [apply Z.div_pos; lia|]. apply Z.div_lt_upper_bound; lia. }
  assert (Ew : IZR w = F2R (Float radix2 (w / 2 ^ 32) 32) + IZR (w mod 2 ^ 32)).
  { unfold F2R. cbn [Fnum Fexp]. rewrite <- IZR_Zpower by lia. rewrite <- mult_IZR, <- plus_IZR.
    f_equal. change (radix2 ^ 32)%Z with (2 ^ 32)%Z. lia. }
  assert (P : 0 <= IZR w) by (apply IZR_le; lia).
  rewrite <- (Rabs_pos_eq (IZR w) P) at 3. rewrite Ew.
  apply plus_err; [apply fmt_F2R|apply fmt_IZR]; lia.
Qed.

Lemma rnd_word_range w : word w -> 0 <= rnd (IZR w) <= W64 /\ (rnd (IZR w) = 0 \/ 1 <= rnd (IZR w)).
Proof.
  intros [A B]. split; [split|].
  - apply rnd_pos. now apply IZR_le.
  - apply rnd_le_fmt; [rewrite W64_bpow; apply fmt_bpow; lia|]. apply IZR_le. lia.
  - destruct (Z.eq_dec w 0) as [->|N]; [left; apply rnd_0|right].
    apply rnd_ge_fmt; [apply (fmt_IZR 1); cbn; lia|]. apply IZR_le. lia.
Qed.

Lemma fmt_scaled x : fmt x -> x = 0 \/ 1 <= x -> fmt (x / W64).
Proof.
  intros F [->|H].
  - unfold Rdiv. rewrite Rmult_0_l. apply fmt_0.
  - unfold Rdiv. rewrite W64_bpow, <- bpow_opp. apply mult_bpow_exact_FLT; [exact F|].
    assert (1 <= mag radix2 x)%Z; [|lia]. apply mag_ge_bpow. rewrite Rabs_pos_eq by lra. exact H.
Qed.

Lemma canonical_R w : word w ->
  fin (canonical w) /\ RR (canonical w) = Rmin (rnd (IZR w) / W64) (1 - uro).
Proof.
  intros Hw. destruct (rnd_word_range w Hw) as [[R0 R1] R2].
  assert (Hf : fmt (rnd (IZR w))) by apply fmt_rnd.
  pose proof W64_pos as WP.
  assert (NO : Rabs (rnd (rnd (IZR w))) < fmax).
  { apply no_overflow with 64%Z; [lia|]. rewrite <- W64_bpow, Rabs_pos_eq; auto. }
  destruct (of_Z_ok w) as [A1 F1]; [destruct Hw; lia|].
  unfold canonical.
  destruct (fmul_ok (of_Z w) f1 F1 fin_f1) as [A2 F2]; [rewrite A1, RR_f1, Rmult_1_r; exact NO|].
  rewrite A1, RR_f1, Rmult_1_r, (rnd_fmt _ Hf) in A2.
  destruct (fadd_ok f0 (fmul (of_Z w) f1) fin_f0 F2) as [A3 F3];
    [rewrite A2, RR_f0, Rplus_0_l; exact NO|].
  rewrite A2, RR_f0, Rplus_0_l, (rnd_fmt _ Hf) in A3.
  destruct (RR_dyad 1 64) as [B1 B2]; [lia|lia|].
  assert (B3 : RR (dyad 1 64) = W64) by (rewrite B1, W64_bpow; unfold F2R; cbn [Fnum Fexp]; ring).
  assert (FS : fmt (rnd (IZR w) / W64)) by now apply fmt_scaled.
  assert (Q0 : 0 <= rnd (IZR w) / W64) by (apply Rmult_le_pos; [lra|left; now apply Rinv_0_lt_compat]).
  assert (Q1 : rnd (IZR w) / W64 <= 1).
  { apply Rmult_le_reg_r with W64; auto. unfold Rdiv. rewrite Rmult_assoc, Rinv_l; lra. }
  destruct (fdiv_ok (fadd f0 (fmul (of_Z w) f1)) (dyad 1 64) F3) as [A4 F4].
  { rewrite B3. lra. }
  { rewrite A3, B3. apply no_overflow with 0%Z; [lia|]. rewrite Rabs_pos_eq by auto. exact Q1. }
  rewrite A3, B3, (rnd_fmt _ FS) in A4.
  destruct (RR_dyad (2 ^ 53 - 1) (-53)) as [C1 C2]; [lia|lia|].
  assert (C3 : RR (dyad (2 ^ 53 - 1) (-53)) = 1 - uro).
  { rewrite C1. unfold F2R. cbn [Fnum Fexp]. fold uro. rewrite minus_IZR, Rmult_minus_distr_r.
    f_equal; [|ring]. rewrite uro_val. apply Rinv_r. apply IZR_neq. discriminate. }
  cbv zeta. pose proof uro_pos as UP. unfold fge. destruct (fle f1 _) eqn:E.
  - apply fle_R in E; auto using fin_f1. rewrite RR_f1, A4 in E. split; [exact C2|].
    rewrite C3, Rmin_right; lra.
  - apply fle_R_false in E; auto using fin_f1. rewrite RR_f1, A4 in E. split; [exact F4|].
    rewrite A4, Rmin_left; [easy|]. now apply below_one.
Qed.

Lemma canonical_range w : word w -> fin (canonical w) /\ 0 <= RR (canonical w) < 1.
Proof.
  intros Hw. destruct (canonical_R w Hw) as [F E]. split; [exact F|]. rewrite E.
  destruct (rnd_word_range w Hw) as [[R0 R1] _]. pose proof W64_pos as WP. pose proof uro_pos. pose proof uro_small.
  split.
  - apply Rmin_glb; [|lra]. apply Rmult_le_pos; [lra|left; now apply Rinv_0_lt_compat].
  - apply Rle_lt_trans with (1 := Rmin_r _ _). lra.
Qed.

Lemma canonical_mono w w' : word w -> word w' -> (w <= w')%Z -> RR (canonical w) <= RR (canonical w').
Proof.
  intros H H' L. rewrite (proj2 (canonical_R w H)), (proj2 (canonical_R w' H')).
  apply Rle_min_compat_r. apply Rmult_le_compat_r; [left; apply Rinv_0_lt_compat, W64_pos|].
  apply rnd_le. now apply IZR_le.
Qed.

Lemma word_ratio w : word w -> 0 <= IZR w / W64 < 1.
Proof.
  intros [A B]. pose proof W64_pos as WP. split.
  - apply Rmult_le_pos; [now apply IZR_le|left; now apply Rinv_0_lt_compat].
  - apply Rmult_lt_reg_r with W64; auto. unfold Rdiv. rewrite Rmult_assoc, Rinv_l by lra.
    rewrite Rmult_1_r, Rmult_1_l. now apply IZR_lt.
Qed.

Lemma canonical_err w : word w -> Rabs (RR (canonical w) - IZR w / W64) <= uro.
Proof.
  intros Hw. destruct (canonical_R w Hw) as [F E]. rewrite E. clear E F.
  pose proof (rnd_word_err w Hw) as H. pose proof (word_ratio w Hw) as Q. pose proof W64_pos as WP.
  pose proof uro_pos as UP.
  assert (H' : Rabs (rnd (IZR w) / W64 - IZR w / W64) <= uro * (IZR w / W64)).
  { replace (rnd (IZR w) / W64 - IZR w / W64) with ((rnd (IZR w) - IZR w) * / W64) by (unfold Rdiv; ring).
    rewrite Rabs_mult, (Rabs_pos_eq (/ W64)) by (left; now apply Rinv_0_lt_compat).
    unfold Rdiv. rewrite <- Rmult_assoc. apply Rmult_le_compat_r; [left; now apply Rinv_0_lt_compat|exact H]. }
  assert (L : uro * (IZR w / W64) <= uro) by (rewrite <- (Rmult_1_r uro) at 2; apply Rmult_le_compat_l; lra).
  apply Rabs_le_inv in H'. apply Rabs_le. unfold Rmin. destruct (Rle_dec _ _); lra.
Qed.

(** * Counting *)

(** A property of numbers below M that is lost for good once it is lost holds
    below some threshold. *)
Lemma threshold (P : Z -> Prop) (M : Z) : (0 <= M)%Z ->
  (forall w, {P w} + {~ P w}) ->
  (forall w w', (0 <= w <= w')%Z -> (w' < M)%Z -> P w' -> P w) ->
  exists N, (0 <= N <= M)%Z /\ forall w, (0 <= w < M)%Z -> (P w <-> (w < N)%Z).
Proof.
  intros HM D. pattern M. apply natlike_ind; [| |exact HM].
  - intros _. exists 0%Z. split; lia.
  - intros x Hx IH Hm. destruct IH as (N & HN & IH).
    { intros w w' H1 H2. apply Hm; lia. }
    destruct (D x) as [Y|Y].
    + exists (Z.succ x). split; [lia|]. intros w Hw. split; [lia|]. intros _. apply (Hm w x); auto; lia.
    + exists N. split; [lia|]. intros w Hw. destruct (Z.eq_dec w x) as [->|Nx]; [|apply IH; lia].
      split; [contradiction|]. lia.
Qed.

(** The draw from [0, top). *)
Definition drawn (top : f64) (w : Z) : R := RR (uniform_real (canonical w) f0 top).

Lemma drawn_R top w : word w -> fin top -> 0 <= RR top ->
  drawn top w = rnd (RR (canonical w) * RR top) /\ fin (uniform_real (canonical w) f0 top).
Proof.
  intros Hw Ft Ht. destruct (canonical_range w Hw) as [F C]. apply uniform_real_R; auto; lra.
Qed.

Lemma drawn_mono top w w' : fin top -> 0 <= RR top -> word w -> word w' -> (w <= w')%Z ->
  drawn top w <= drawn top w'.
Proof.
  intros Ft Ht H H' L. rewrite (proj1 (drawn_R top w H Ft Ht)), (proj1 (drawn_R top w' H' Ft Ht)).
  apply rnd_le. apply Rmult_le_compat_r; auto. now apply canonical_mono.
Qed.

Lemma drawn_err top w : word w -> fin top -> bpow radix2 (-1000) <= RR top ->
  Rabs (drawn top w - IZR w / W64 * RR top) <= 3 * uro * RR top.
Proof.
  intros Hw Ft Ht. pose proof (bpow_gt_0 radix2 (-1000)) as BP.
  rewrite (proj1 (drawn_R top w Hw Ft ltac:(lra))).
  pose proof (canonical_err w Hw) as E. destruct (canonical_range w Hw) as [_ C].
  pose proof (rnd_err (RR (canonical w) * RR top)) as R. pose proof uro_pos as UP.
  assert (H1 : Rabs (RR (canonical w) * RR top) <= RR top).
  { rewrite Rabs_pos_eq by (apply Rmult_le_pos; lra). rewrite <- (Rmult_1_l (RR top)) at 2.
    apply Rmult_le_compat_r; lra. }
  assert (H2 : uro * Rabs (RR (canonical w) * RR top) <= uro * RR top) by (apply Rmult_le_compat_l; lra).
  assert (H3 : eta <= uro * RR top).
  { apply Rle_trans with (uro * bpow radix2 (-1000)); [|apply Rmult_le_compat_l; lra].
    unfold eta, uro. rewrite <- bpow_plus. apply bpow_le. lia. }
  assert (H4 : Rabs (RR (canonical w) * RR top - IZR w / W64 * RR top) <= uro * RR top).
  { rewrite <- Rmult_minus_distr_r, Rabs_mult, (Rabs_pos_eq (RR top)) by lra.
    apply Rmult_le_compat_r; lra. }
  apply Rabs_le_inv in R, H4. apply Rabs_le. lra.
Qed.

(** Words below a threshold, given how far the drawn value d(w) can be from
    w / 2^64 of the range T. *)
Lemma count_below (d : Z -> R) T e t : 0 < T -> 0 <= t <= T -> 0 <= e ->
  (forall w w', word w -> word w' -> (w <= w')%Z -> d w <= d w') ->
  (forall w, word w -> Rabs (d w - IZR w / W64 * T) <= e * T) ->
  exists N, (0 <= N <= 2 ^ 64)%Z /\ (forall w, word w -> (d w < t <-> (w < N)%Z)) /\
    Rabs (IZR N / W64 - t / T) <= e + / W64.
Proof.
  intros HT Ht He Hm Hd. pose proof W64_pos as WP.
  destruct (threshold (fun w => d w < t) (2 ^ 64)) as (N & HN & H); [lia|intros w; apply Rlt_dec| |].
  { intros w w' A B L. apply Rle_lt_trans with (2 := L). apply Hm; unfold word; lia. }
  exists N. split; [exact HN|]. split; [exact H|].
  assert (IW : 0 < / W64) by now apply Rinv_0_lt_compat.
  assert (Tt : t = t / T * T) by (field; lra).
  assert (Q : 0 <= t / T <= 1).
  { split; [apply Rmult_le_pos; [lra|left; now apply Rinv_0_lt_compat]|].
    apply Rmult_le_reg_r with T; auto. rewrite <- Tt. lra. }
  apply Rabs_le. split.
  - destruct (Z.eq_dec N (2 ^ 64)) as [->|NE].
    + unfold Rdiv at 1. fold W64. rewrite Rinv_r by lra. lra.
    + assert (Wn : word N) by (unfold word; lia).
      assert (L : t <= d N) by (apply Rnot_lt_le; intros L; apply (H N Wn) in L; lia).
      specialize (Hd N Wn). apply Rabs_le_inv in Hd.
      assert (t / T <= IZR N / W64 + e); [|lra].
      apply Rmult_le_reg_r with T; auto. rewrite <- Tt, Rmult_plus_distr_r. lra.
  - destruct (Z.eq_dec N 0) as [->|NE].
    + unfold Rdiv at 1. rewrite Rmult_0_l. lra.
    + assert (Wn : word (N - 1)) by (unfold word; lia).
      assert (L : d (N - 1)%Z < t) by (apply (H _ Wn); lia).
      specialize (Hd _ Wn). apply Rabs_le_inv in Hd.
      replace (IZR (N - 1) / W64) with (IZR N / W64 - / W64) in Hd by (rewrite minus_IZR; unfold Rdiv; ring).
      assert (IZR N / W64 - / W64 - e <= t / T); [|lra].
      apply Rmult_le_reg_r with T; auto. rewrite <- Tt, Rmult_minus_distr_r. lra.
Qed.

(** * choose_with_probability *)

Lemma draw_unit w : word w -> fin (uniform_real (canonical w) f0 f1) /\ drawn f1 w = RR (canonical w).
Proof.
  intros Hw. destruct (drawn_R f1 w Hw fin_f1) as [A F]; [rewrite RR_f1; lra|].
  split; [exact F|]. rewrite A, RR_f1, Rmult_1_r. apply rnd_fmt, fmt_RR.
Qed.

Lemma W64_inv_uro : / W64 <= uro / 2048.
Proof. rewrite <- W64_uro. pose proof W64_pos. pose proof uro_pos. right. field. lra. Qed.

Lemma with_probability_share p : fin p -> 0 <= RR p <= 1 ->
  exists N, happens_between (fun w => choose_with_probability_rng p w = true) 0 N /\
    Rabs (share 0 N - RR p) <= 2 * uro.
Proof.
  intros Fp Hp.
  destruct (count_below (fun w => RR (canonical w)) 1 uro (RR p)) as (N & HN & H & E).
  - lra.
  - lra.
  - pose proof uro_pos. lra.
  - apply canonical_mono.
  - intros w Hw. rewrite !Rmult_1_r. now apply canonical_err.
  - exists N. split.
    + split; [lia|]. split; [lia|]. intros w Hw. destruct (draw_unit w Hw) as [F D].
      unfold choose_with_probability_rng, choose_with_probability.
      rewrite (flt_R _ _ F Fp). fold (drawn f1 w). rewrite D, (H w Hw). destruct Hw. lia.
    + unfold share. rewrite Z.sub_0_r. fold W64. unfold Rdiv at 2 in E. rewrite Rinv_1, Rmult_1_r in E.
      pose proof W64_inv_uro. pose proof uro_pos. lra.
Qed.

(** * choose_between_psums *)

Section Psums.
Variable comul : list f64.
Hypothesis Hne : comul <> [].
Hypothesis Hfin : Forall fin comul.
Hypothesis Hinc : nondecreasing comul.
Hypothesis Hpos : 0 <= RR (nth 0 comul f0).
Hypothesis Hsize : (vsize comul < two63)%Z.
Let top := nth (length comul - 1) comul f0.

Lemma psum_fin i : (i < length comul)%nat -> fin (nth i comul f0).
Proof. intros Hi. rewrite Forall_forall in Hfin. apply Hfin. now apply nth_In. Qed.

Lemma psum_mono i j : (i <= j)%nat -> (j < length comul)%nat ->
  RR (nth i comul f0) <= RR (nth j comul f0).
Proof.
  intros H Hj. apply fle_R; try (apply psum_fin; lia).
  apply (Hinc i j); auto; apply nth_error_nth'; lia.
Qed.

Lemma psum_len : (0 < length comul)%nat.
Proof. destruct comul; [easy|simpl; lia]. Qed.

Lemma psums_index draw : fin (draw top) -> RR (draw top) < RR top ->
  exists i, (i < length comul)%nat /\ choose_between_psums draw comul = Ok (Z.of_nat i) /\
    RR (draw top) < RR (nth i comul f0) /\
    (forall j, (j < i)%nat -> RR (nth j comul f0) <= RR (draw top)).
Proof.
  intros Fr Hr. unfold choose_between_psums. rewrite (vback_last comul f0 Hne), last_nth. fold top. cbn [bind].
  set (r := draw top) in *. pose proof psum_len as HL.
  destruct (std_upper_bound_splits flt comul r 0 (vsize comul)) as (p & -> & (Hp & HA & HB)).
  - unfold vsize. lia.
  - lia.
  - lia.
  - intros i j x y Hij Ex Ey H.
    assert (Hi : (i < length comul)%nat) by (apply nth_error_Some; congruence).
    assert (Hj : (j < length comul)%nat) by (apply nth_error_Some; congruence).
    apply nth_error_nth with (d := f0) in Ex, Ey. subst x y.
    apply flt_R in H; auto using psum_fin. apply flt_R; auto using psum_fin.
    pose proof (psum_mono i j Hij Hj). lra.
  - assert (HA' : forall j, (j < Z.to_nat p)%nat -> RR (nth j comul f0) <= RR r).
    { intros j Hj. assert (Hjl : (j < length comul)%nat) by (unfold vsize in Hp; lia).
      apply (flt_R_false r); auto using psum_fin. apply not_true_iff_false.
      apply (HA (Z.of_nat j)); [lia|]. rewrite Nat2Z.id. now apply nth_error_nth'. }
    assert (Hpl : (Z.to_nat p < length comul)%nat).
    { destruct (Nat.lt_ge_cases (Z.to_nat p) (length comul)); auto. exfalso.
      specialize (HA' (length comul - 1)%nat ltac:(lia)). fold top in HA'. lra. }
    exists (Z.to_nat p). rewrite Z2Nat.id by lia. repeat split; auto.
    apply (flt_R r); auto using psum_fin. apply (HB p); [unfold vsize in *; lia|]. now apply nth_error_nth'.
Qed.

Lemma before_range i : (i < length comul)%nat -> 0 <= before comul i <= RR (nth i comul f0).
Proof.
  intros Hi. destruct i as [|k]; cbn [before]; [lra|]. split; [|apply psum_mono; lia].
  pose proof (psum_mono 0 k ltac:(lia) ltac:(lia)). lra.
Qed.

Lemma psums_index_iff draw i : fin (draw top) -> 0 <= RR (draw top) < RR top -> (i < length comul)%nat ->
  (choose_between_psums draw comul = Ok (Z.of_nat i) <->
   before comul i <= RR (draw top) < RR (nth i comul f0)).
Proof.
  intros Fr Hr Hi. destruct (psums_index draw Fr (proj2 Hr)) as (k & Hk & E & A & B). rewrite E. split.
  - intros H. assert (k = i) as -> by (injection H; lia). split; [|exact A].
    destruct i; cbn [before]; [lra|]. apply B. lia.
  - intros [C D]. destruct (Nat.lt_trichotomy k i) as [L|[->|L]]; [|easy|].
    + destruct i as [|m]; [lia|]. cbn [before] in C.
      pose proof (psum_mono k m ltac:(lia) ltac:(lia)). lra.
    + specialize (B i L). lra.
Qed.

Hypothesis Htop : bpow radix2 (-1000) <= RR top.

Lemma draw_below w : word w ->
  fin (uniform_real (canonical w) f0 top) /\ 0 <= RR (uniform_real (canonical w) f0 top) < RR top.
Proof.
  intros Hw. destruct (canonical_range w Hw) as [F C]. pose proof psum_len.
  apply uniform_real_below; auto.
  - apply psum_fin. lia.
  - apply Rlt_le_trans with (2 := Htop). apply bpow_lt. lia.
Qed.

Lemma psums_share i : (i < length comul)%nat ->
  exists a b, happens_between (fun w => choose_between_psums_rng comul w = Ok (Z.of_nat i)) a b /\
    Rabs (share a b - (RR (nth i comul f0) - before comul i) / RR top) <= 7 * uro.
Proof.
  intros Hi. pose proof psum_len as HL. pose proof (bpow_gt_0 radix2 (-1000)) as BP.
  assert (Ft : fin top) by (apply psum_fin; lia).
  assert (Hit : RR (nth i comul f0) <= RR top) by (apply psum_mono; lia).
  pose proof (before_range i Hi) as Hb. pose proof uro_pos as UP. pose proof W64_inv_uro as IW.
  assert (M : forall w w', word w -> word w' -> (w <= w')%Z -> drawn top w <= drawn top w')
    by (intros; apply drawn_mono; auto; lra).
  assert (E : forall w, word w -> Rabs (drawn top w - IZR w / W64 * RR top) <= 3 * uro * RR top)
    by (intros; now apply drawn_err).
  destruct (count_below (drawn top) (RR top) (3 * uro) (before comul i)) as (a & Ha & A & EA); auto; try lra.
  destruct (count_below (drawn top) (RR top) (3 * uro) (RR (nth i comul f0))) as (b & Hb' & B & EB); auto; try lra.
  assert (L : (a <= b)%Z).
  { destruct (Z_le_gt_dec a b); auto. exfalso. assert (Wb : word b) by (unfold word; lia).
    assert (drawn top b < before comul i) by (apply A; auto; lia).
    assert (drawn top b < RR (nth i comul f0)) as X by lra. apply (B b Wb) in X. lia. }
  exists a, b. split.
  - split; [lia|]. split; [lia|]. intros w Hw. destruct (draw_below w Hw) as [Fd Rd].
    unfold choose_between_psums_rng. rewrite psums_index_iff; auto.
    fold (drawn top w). specialize (A w Hw). specialize (B w Hw). split.
    + intros [X Y]. split; [|now apply B]. destruct (Z_lt_le_dec w a) as [C|C]; auto. apply A in C. lra.
    + intros [X Y]. split; [|now apply B]. apply Rnot_lt_le. intros C. apply A in C. lia.
  - unfold share. fold W64. rewrite minus_IZR.
    replace ((IZR b - IZR a) / W64 - (RR (nth i comul f0) - before comul i) / RR top)
      with ((IZR b / W64 - RR (nth i comul f0) / RR top) - (IZR a / W64 - before comul i / RR top))
      by (unfold Rdiv; ring).
    apply Rabs_le_inv in EA, EB. apply Rabs_le. lra.
Qed.
End Psums.

(** * choose_between *)

Lemma total_snoc l x : total (l ++ [x]) = total l + RR x.
Proof.
  unfold total. rewrite map_app, fold_right_app. cbn [map fold_right]. rewrite Rplus_0_r.
  generalize (RR x). intros y. induction (map RR l) as [|z m IH]; cbn [fold_right]; lra.
Qed.

Section Sums.
Variable l : list f64.
Hypothesis Hne : l <> [].
Hypothesis Hw : Forall (fun w => fin w /\ 0 <= RR w) l.
Hypothesis Ht : fin (left_sum l (length l - 1)).

Lemma total_nonneg m : Forall (fun w => fin w /\ 0 <= RR w) m -> 0 <= total m.
Proof.
  induction 1 as [|x m [_ Hx] _ IH]; unfold total in *; cbn [map fold_right]; lra.
Qed.

Lemma total_firstn_S i : (i < length l)%nat -> total (firstn (S i) l) = total (firstn i l) + RR (nth i l f0).
Proof. intros Hi. rewrite (firstn_S_nth l f0) by auto. apply total_snoc. Qed.

Lemma firstn_nonneg i : 0 <= total (firstn i l).
Proof. apply total_nonneg. rewrite Forall_forall in *. intros x Hx. apply Hw. rewrite <- (firstn_skipn i l). apply in_or_app. now left. Qed.

Lemma total_firstn_le i j : (i <= j)%nat -> total (firstn i l) <= total (firstn j l).
Proof.
  intros H. induction H as [|j H IH]; [lra|]. apply Rle_trans with (1 := IH).
  destruct (Nat.lt_ge_cases j (length l)) as [L|L].
  - rewrite total_firstn_S by auto. destruct (weight_nth l Hw j L). lra.
  - rewrite !firstn_all2 by lia. lra.
Qed.

(** Relative error of the running sums. *)
Lemma sums_rel i : (i < length l)%nat -> INR i * uro <= / 64 ->
  Rabs (RR (left_sum l i) - total (firstn (S i) l)) <= 5 / 4 * (INR i * uro) * total (firstn (S i) l).
Proof.
  induction i as [|i IH]; intros Hi Hn.
  - rewrite total_firstn_S by auto. replace (left_sum l 0) with (nth 0 l f0) by (now destruct l).
    unfold total. cbn [firstn map fold_right INR]. rewrite Rplus_0_l, Rminus_diag_eq, Rabs_R0 by auto. lra.
  - pose proof uro_pos as UP. rewrite S_INR in *.
    assert (In : 0 <= INR i) by apply pos_INR.
    assert (IU : 0 <= INR i * uro) by (apply Rmult_le_pos; lra).
    assert (Hn' : INR i * uro <= / 64) by lra.
    specialize (IH ltac:(lia) Hn').
    rewrite (sums_step l Ht i Hi), (total_firstn_S (S i)) by auto.
    pose proof (firstn_nonneg (S i)) as P0. destruct (weight_nth l Hw (S i) Hi) as [_ Wp].
    set (s := RR (left_sum l i)) in *. set (P := total (firstn (S i) l)) in *. set (w := RR (nth (S i) l f0)) in *.
    assert (E1 : Rabs (rnd (s + w) - (s + w)) <= uro * Rabs (s + w)) by (apply plus_err; apply fmt_RR).
    set (k := INR i * uro) in *. set (K := 5 / 4 * k) in *.
    assert (HK : 0 <= K <= 5 / 256) by (unfold K; lra).
    assert (KP : 0 <= K * P) by (apply Rmult_le_pos; lra).
    assert (KP' : K * P <= 5 / 256 * P) by (apply Rmult_le_compat_r; lra).
    assert (Kw : 0 <= K * w) by (apply Rmult_le_pos; lra).
    apply Rabs_le_inv in IH.
    assert (A : Rabs (s + w) <= 5 / 4 * (P + w)).
    { apply Rabs_le. lra. }
    assert (A' : uro * Rabs (s + w) <= uro * (5 / 4 * (P + w))) by (apply Rmult_le_compat_l; lra).
    apply Rabs_le_inv in E1.
    replace (5 / 4 * ((INR i + 1) * uro) * (P + w)) with (K * P + K * w + uro * (5 / 4 * (P + w)))
      by (unfold K, k; field).
    apply Rabs_le. lra.
Qed.

(** Shares of the running total against shares of the exact total. *)
Lemma ratio_err t P T S e : 0 <= P <= S -> 0 < S -> 0 <= e <= 5 / 256 ->
  Rabs (t - P) <= e * P -> Rabs (T - S) <= e * S -> 0 < T ->
  Rabs (t / T - P / S) <= 21 / 10 * e.
Proof.
  intros HP HS He Et ET HT.
  assert (TS : 251 / 256 * S <= T).
  { apply Rabs_le_inv in ET. assert (e * S <= 5 / 256 * S) by (apply Rmult_le_compat_r; lra). lra. }
  assert (N : Rabs (t * S - P * T) <= 2 * e * (P * S)).
  { replace (t * S - P * T) with ((t - P) * S - P * (T - S)) by ring.
    assert (A : Rabs ((t - P) * S) <= e * P * S).
    { rewrite Rabs_mult, (Rabs_pos_eq S) by lra. apply Rmult_le_compat_r; lra. }
    assert (B : Rabs (P * (T - S)) <= e * P * S).
    { rewrite Rabs_mult, (Rabs_pos_eq P) by lra.
      apply Rle_trans with (P * (e * S)); [apply Rmult_le_compat_l; lra|right; ring]. }
    apply Rabs_le_inv in A, B. apply Rabs_le. lra. }
  replace (t / T - P / S) with ((t * S - P * T) * / (T * S)) by (field; lra).
  assert (TSp : 0 < T * S) by (apply Rmult_lt_0_compat; lra).
  rewrite Rabs_mult, (Rabs_pos_eq (/ (T * S))) by (left; now apply Rinv_0_lt_compat).
  apply Rmult_le_reg_r with (T * S); auto. rewrite Rmult_assoc, Rinv_l, Rmult_1_r by lra.
  apply Rle_trans with (1 := N).
  assert (A : P * S <= S * S) by (apply Rmult_le_compat_r; lra).
  assert (B : 251 / 256 * S * S <= T * S) by (apply Rmult_le_compat_r; lra).
  replace (2 * e * (P * S)) with (e * (2 * (P * S))) by ring.
  replace (21 / 10 * e * (T * S)) with (e * (21 / 10 * (T * S))) by ring.
  apply Rmult_le_compat_l; lra.
Qed.

Hypothesis Hlen : (Z.of_nat (length l) <= 2 ^ 46)%Z.
Hypothesis Htop : bpow radix2 (-1000) <= RR (left_sum l (length l - 1)).

Lemma len_uro i : (i < length l)%nat -> INR i * uro <= / 64.
Proof.
  intros Hi. apply Rle_trans with (bpow radix2 46 * uro).
  - apply Rmult_le_compat_r; [left; apply uro_pos|]. rewrite <- IZR_Zpower by lia.
    rewrite INR_IZR_INZ. apply IZR_le. change (radix2 ^ 46)%Z with (2 ^ 46)%Z. lia.
  - unfold uro. rewrite <- bpow_plus. cbn. lra.
Qed.

Lemma partial_nondecreasing : nondecreasing (partial_sum l).
Proof.
  intros i j x y Hij Ex Ey.
  apply psums_nth_error in Ex as (Hi & ->). apply psums_nth_error in Ey as (Hj & ->).
  apply fle_R; try (apply sums_fin; auto). apply sums_mono; auto.
Qed.

Lemma between_share i : (i < length l)%nat ->
  exists a b, happens_between (fun w => choose_between_rng l w = Ok (Z.of_nat i)) a b /\
    Rabs (share a b - RR (nth i l f0) / total l) <= (6 * INR (length l) + 7) * uro.
Proof.
  intros Hi. assert (HL : (0 < length l)%nat) by lia.
  assert (Pl : length (partial_sum l) = length l) by apply partial_sum_length.
  assert (Pn : forall j, (j < length l)%nat -> nth j (partial_sum l) f0 = left_sum l j)
    by (intros; now apply partial_sum_nth).
  destruct (psums_share (partial_sum l)) with (i := i) as (a & b & H & E).
  - intros X. rewrite X in Pl. simpl in Pl. lia.
  - rewrite Forall_forall. intros x Hx. apply In_nth with (d := f0) in Hx as (j & Hj & <-).
    rewrite Pl in Hj. rewrite Pn by auto. now apply sums_fin.
  - apply partial_nondecreasing.
  - rewrite Pn by auto. replace (left_sum l 0) with (nth 0 l f0) by (now destruct l). now apply (weight_nth l Hw).
  - unfold vsize, two63. rewrite Pl. lia.
  - rewrite Pl, Pn by lia. exact Htop.
  - now rewrite Pl.
  - rewrite Pl, !Pn in E by lia. exists a, b. split.
    { destruct H as (H1 & H2 & H3). split; [exact H1|]. split; [exact H2|]. intros w Hw'.
      unfold choose_between_rng. rewrite (proj1 (choose_search l Hne _)). now apply H3. }
    set (n := INR (length l)). pose proof uro_pos as UP.
    set (S := total l). set (T := RR (left_sum l (length l - 1))) in *.
    pose proof (bpow_gt_0 radix2 (-1000)) as BP.
    set (e := 5 / 4 * (INR (length l - 1) * uro)).
    assert (Ln : INR (length l - 1) = n - 1) by (rewrite minus_INR by lia; reflexivity).
    assert (He : 0 <= e <= 5 / 256).
    { pose proof (len_uro (length l - 1) ltac:(lia)). pose proof (pos_INR (length l - 1)).
      assert (0 <= INR (length l - 1) * uro) by (apply Rmult_le_pos; lra). unfold e. lra. }
    assert (Sall : forall j, (j < length l)%nat -> 0 <= total (firstn (Datatypes.S j) l) <= S).
    { intros j Hj. split; [apply firstn_nonneg|]. unfold S. rewrite <- (firstn_all l) at 2. apply total_firstn_le. lia. }
    assert (Es : forall j, (j < length l)%nat ->
      Rabs (RR (left_sum l j) - total (firstn (Datatypes.S j) l)) <= e * total (firstn (Datatypes.S j) l)).
    { intros j Hj. apply Rle_trans with (1 := sums_rel j Hj (len_uro j Hj)). apply Rmult_le_compat_r; [apply firstn_nonneg|].
      unfold e. apply Rmult_le_compat_l; [lra|]. apply Rmult_le_compat_r; [lra|]. apply le_INR. lia. }
    assert (ET : Rabs (T - S) <= e * S).
    { unfold T, S. specialize (Es (length l - 1)%nat ltac:(lia)).
      replace (Datatypes.S (length l - 1)) with (length l) in Es by lia. now rewrite firstn_all in Es. }
    assert (HS : 0 < S).
    { apply Rabs_le_inv in ET. assert (0 <= S).
      { destruct (Sall 0%nat HL). lra. }
      assert (e * S <= 5 / 256 * S) by (apply Rmult_le_compat_r; lra). lra. }
    assert (R1 : forall j, (j < length l)%nat ->
      Rabs (RR (left_sum l j) / T - total (firstn (Datatypes.S j) l) / S) <= 21 / 10 * e).
    { intros j Hj. apply ratio_err; auto. lra. }
    assert (R2 : Rabs (before (partial_sum l) i / T - total (firstn i l) / S) <= 21 / 10 * e).
    { destruct i as [|k]; cbn [before].
      - unfold total at 1. cbn [firstn map fold_right]. unfold Rdiv. rewrite !Rmult_0_l, Rminus_diag_eq, Rabs_R0 by auto. lra.
      - rewrite Pn by lia. apply R1. lia. }
    specialize (R1 i Hi).
    assert (X : RR (nth i l f0) / S = total (firstn (Datatypes.S i) l) / S - total (firstn i l) / S).
    { rewrite total_firstn_S by auto. unfold Rdiv. ring. }
    rewrite X.
    replace ((RR (left_sum l i) - before (partial_sum l) i) / T) with
      (RR (left_sum l i) / T - before (partial_sum l) i / T) in E by (unfold Rdiv; ring).
    assert (B : 42 / 10 * e <= 6 * n * uro).
    { unfold e. rewrite Ln. assert (0 <= n * uro) by (apply Rmult_le_pos; [apply pos_INR|lra]). lra. }
    apply Rabs_le_inv in E, R1, R2. apply Rabs_le. lra.
Qed.

(** Every word chooses an entry, and one of positive weight. *)
Lemma between_total w : word w ->
  exists i, (i < length l)%nat /\ choose_between_rng l w = Ok (Z.of_nat i) /\ 0 < RR (nth i l f0).
Proof.
  intros Hw'. destruct (canonical_range w Hw') as [F C].
  destruct (uniform_real_below (canonical w) (left_sum l (length l - 1))) as [Fd Rd]; auto.
  { apply Rlt_le_trans with (2 := Htop). apply bpow_lt. lia. }
  destruct (choose_between_ok l Hne Hw Ht (uniform_real (canonical w) f0)) as (i & Hi & E & _ & _ & P); auto.
  - unfold vsize, two63. lia.
  - exists i. auto.
Qed.
End Sums.
