(** Lemmas about the accuracy of histogram results and of the average
    probability of a move. *)
From Coq Require Import ZArith Reals List Lia Lra Bool.
From Flocq Require Import Core.Core IEEE754.BinarySingleNaN.
From Verif Require Import Base F64 Num M_Archive M_Accum S_Accum L_Sum L_Accum M_Hist S_Hist L_Hist L_Space L_Welford L_Mom.
Import ListNotations.
Open Scope R_scope.

Definition holds_at_most (b : bins) : Prop :=
  Forall (fun x => (Z.of_nat (length x) <= b_total b)%Z) (b_bins b) /\ (0 <= b_total b)%Z.

Lemma bins_call_bounded b c b' : bins_call b c = Some b' -> holds_at_most b -> holds_at_most b'.
Proof.
  destruct b as [b t]. unfold holds_at_most. intros H (Ht & H0). cbn [b_bins b_total] in *.
  destruct c as [i v|i v| |n]; cbn [bins_call b_bins b_total] in H.
  - destruct ((0 <=? i)%Z && (i <? Z.of_nat (length b))%Z) eqn:E; [|discriminate].
    apply andb_true_iff in E. destruct E as [E1 E2]. apply Z.leb_le in E1. apply Z.ltb_lt in E2.
    injection H as <-. cbn [b_bins b_total]. split; [apply put_bounded; auto; lia|lia].
  - destruct ((0 <=? i)%Z && (i <? two64 - 1)%Z) eqn:E; [|discriminate]. injection H as <-. cbn [b_bins b_total].
    split; [apply put_bounded; [now apply pad_bounded|rewrite pad_length; lia]|lia].
  - injection H as <-. cbn [b_bins b_total]. split; [|lia]. apply Forall_map, Forall_forall. intros; cbn; lia.
  - destruct ((0 <=? n)%Z && (n <? two64)%Z) eqn:E; [|discriminate]. injection H as <-. cbn [b_bins b_total].
    split; [|exact H0]. apply pad_bounded; [now apply Forall_firstn|exact H0].
Qed.

Lemma bins_calls_bounded l : forall b b', bins_calls l b = Some b' -> holds_at_most b -> holds_at_most b'.
Proof.
  induction l as [|c l IH]; intros b b' H Hb; cbn [bins_calls] in H.
  - injection H as <-. exact Hb.
  - destruct (bins_call b c) as [b1|] eqn:E; [|discriminate]. apply (IH b1 b' H), (bins_call_bounded b c b1 E Hb).
Qed.

Lemma empty_bounded n : holds_at_most (empty_bins n).
Proof.
  split; [|cbn; lia]. apply Forall_forall. intros x Hx. apply repeat_spec in Hx. subst x. cbn. lia.
Qed.

(** A sum with a relative and an absolute error, over a whole number. *)
Lemma quotient_of_sum (S : f64) (t : Z) s a e : fin S -> (1 <= t <= 2 ^ 53)%Z -> 0 <= e -> 0 <= a ->
  Rabs (RR S - s) <= uro * Rabs s + 5 * e * a ->
  fin (fdiv S (of_Z t)) /\
  Rabs (RR (fdiv S (of_Z t)) - s / IZR t) <= (3 * uro * Rabs s + 6 * e * a) / IZR t + eta.
Proof.
  intros F Ht He Ha HE. destruct (of_Z_exact t) as [Et Ft]; [lia|].
  assert (Pt : 1 <= IZR t) by (apply IZR_le; lia). set (T := IZR t) in *.
  assert (Pi : 0 < / T <= 1) by (split; [apply Rinv_0_lt_compat; lra|rewrite <- Rinv_1; apply Rinv_le; lra]).
  destruct (fdiv_ok S (of_Z t) F) as [Eq Fq]; [rewrite Et; lra| |].
  { rewrite Et. apply Rle_lt_trans with (Rabs (RR S)); [|apply RR_lt_fmax].
    apply rnd_abs_le; [apply fmt_abs, fmt_RR|]. unfold Rdiv. rewrite Rabs_mult, (Rabs_pos_eq (/ T)) by lra.
    pose proof (Rabs_pos (RR S)). nra. }
  split; [exact Fq|]. rewrite Eq, Et. pose proof (rnd_err (RR S / T)) as Er.
  pose proof uro_pos as U. pose proof uro_small as U2.
  assert (Ab : forall x, Rabs (x / T) = Rabs x * / T)
    by (intros x; unfold Rdiv; rewrite Rabs_mult, (Rabs_pos_eq (/ T)) by lra; reflexivity).
  rewrite Ab in Er. unfold Rdiv at 3. set (i := / T) in *.
  assert (Q : Rabs (RR S) <= Rabs s + Rabs (RR S - s)) by (replace (RR S) with (s + (RR S - s)) at 1 by ring; apply Rabs_triang).
  pose proof (Rabs_pos s) as Ps. set (D := Rabs (RR S - s)) in *.
  assert (Z : 0 <= e * a) by nra.
  assert (K : uro * Rabs (RR S) + D <= 3 * uro * Rabs s + 6 * e * a).
  { assert (uro * Rabs (RR S) <= uro * (Rabs s + (uro * Rabs s + 5 * e * a))) by (apply Rmult_le_compat_l; lra).
    assert (uro * (uro * Rabs s) <= uro * Rabs s) by (assert (0 <= uro * Rabs s) by nra; nra).
    assert (uro * (5 * e * a) <= e * a) by nra. nra. }
  replace (rnd (RR S / T) - s / T) with ((rnd (RR S / T) - RR S / T) + (RR S - s) / T) by (unfold Rdiv; ring).
  eapply Rle_trans; [apply Rabs_triang|]. rewrite Ab. fold i D. nra.
Qed.

Lemma hist_result_error b t i : holds_at_most (mkBins b t) -> (t <= 2 ^ 52)%Z ->
  (0 <= i < Z.of_nat (length b))%Z ->
  let v := nth (Z.to_nat i) b [] in
  Forall fin v -> sum_abs (map RR v) <= b1019 ->
  exists q, HistGetResult (rep (mkBins b t)) i = Ok q /\ fin q /\
  Rabs (RR q - sumR (map RR v) / IZR t) <=
    (3 * uro * Rabs (sumR (map RR v)) + 6 * (INR (length v) * uro) ^ 2 * sum_abs (map RR v)) / IZR t + eta.
Proof.
  intros [Hb H0] Ht Hi v Fv Hs. cbn [b_bins b_total] in *. unfold HistGetResult, rep. cbn [h_acc h_count b_bins b_total].
  rewrite (vget_map _ _ _ []) by exact Hi. fold v. cbn [bind].
  assert (Hv : (Z.of_nat (length v) <= t)%Z) by (rewrite Forall_forall in Hb; apply Hb, nth_In; lia).
  unfold NeumaierCount. rewrite L_Hist.neumaier_count_of, !u64_small by (rewrite two64_eq; lia).
  destruct (Z.eqb_spec (Z.of_nat (length v)) 0) as [E|E].
  - assert (Ev : v = []) by (destruct v; [reflexivity|cbn in E; lia]). rewrite Ev. exists f0. split; [reflexivity|].
    split; [reflexivity|]. cbn [map length INR]. rewrite RR_f0. unfold sum_abs, sumR. cbn [map fold_right].
    unfold Rdiv. rewrite Rmult_0_l, Rminus_0_r, Rabs_R0. pose proof (bpow_gt_0 radix2 (-1075)). unfold eta. lra.
  - eexists. split; [reflexivity|].
    destruct (neumaier_finite v Fv ltac:(lia) Hs) as (_ & _ & F).
    pose proof (neumaier_bound_simple v ltac:(lia) F) as B.
    apply quotient_of_sum; [exact F|lia|apply pow2_ge_0|apply sum_abs_pos|exact B].
Qed.

(** ** Frequencies add up to one *)

Lemma frequency_error (c : nat) t : (1 <= Z.of_nat c)%Z -> (Z.of_nat c <= t <= 2 ^ 53)%Z ->
  Rabs (rnd (INR c / IZR t) - INR c / IZR t) <= uro * (INR c / IZR t).
Proof.
  intros Hc Ht. assert (Pc : 1 <= INR c) by (rewrite INR_IZR_INZ; apply IZR_le; lia).
  assert (Pt : 0 < IZR t) by (apply IZR_lt; lia).
  assert (P : 0 <= INR c / IZR t) by (apply Rmult_le_pos; [lra|left; now apply Rinv_0_lt_compat]).
  rewrite <- (Rabs_pos_eq _ P) at 3. apply rnd_rel. rewrite (Rabs_pos_eq _ P).
  apply Rle_trans with (bpow radix2 (-53)); [apply bpow_le; lia|].
  apply Rle_trans with (/ IZR t).
  - change (-53)%Z with (- (53))%Z. rewrite (bpow_opp radix2 53). apply Rinv_le; [exact Pt|]. rewrite <- IZR_Zpower by lia. apply IZR_le. apply Ht.
  - unfold Rdiv. assert (0 < / IZR t) by now apply Rinv_0_lt_compat. nra.
Qed.

Lemma frequencies_sum t (b : list (list f64)) (r : list f64) : (1 <= t)%Z ->
  Forall2 (fun x v => Rabs (RR v - INR (length x) / IZR t) <= uro * (INR (length x) / IZR t)) b r ->
  Rabs (sumR (map RR r) - IZR (sumlen b) / IZR t) <= uro * (IZR (sumlen b) / IZR t).
Proof.
  intros Ht H. assert (Pt : 0 < IZR t) by (apply IZR_lt; lia).
  induction H as [|x v b r Hx _ IH]; unfold sumlen, sumZ, sumR in *; cbn [map fold_right].
  - unfold Rdiv. rewrite Rmult_0_l, Rminus_0_r, Rabs_R0. lra.
  - rewrite plus_IZR, <- INR_IZR_INZ. set (X := INR (length x)) in *. set (N := IZR (fold_right _ _ _)) in *.
    set (s := fold_right Rplus 0 _) in *. unfold Rdiv in *. set (i := / IZR t) in *.
    replace (RR v + s - (X + N) * i) with ((RR v - X * i) + (s - N * i)) by ring.
    eapply Rle_trans; [apply Rabs_triang|]. lra.
Qed.

Lemma unit_results_sum b t r : all_ones b -> Forall (fun x => (Z.of_nat (length x) <= t)%Z) b ->
  (1 <= t <= 2 ^ 53)%Z -> t = sumlen b -> HistGetResults (rep (mkBins b t)) = Ok r ->
  Rabs (sumR (map RR r) - 1) <= uro.
Proof.
  intros Ho Hb Ht Hs Hr. unfold HistGetResults in Hr. apply omapl_Forall2 in Hr.
  cbn [rep h_nbins b_bins] in Hr.
  assert (F : Forall2 (fun x v => Rabs (RR v - INR (length x) / IZR t) <= uro * (INR (length x) / IZR t)) b r).
  { assert (HL : length b = length r) by (apply Forall2_length in Hr; rewrite upto_length in Hr; lia).
    apply (nth_Forall2 _ [] f0); [exact HL|]. intros k Hk.
    pose proof (Forall2_nth _ 0%Z f0 _ _ Hr k ltac:(rewrite upto_length; lia)) as Q. cbv beta in Q.
    rewrite upto_nth in Q by lia.
    destruct (unit_result b t (Z.of_nat k) Ho Hb ltac:(lia) ltac:(lia)) as (v & Ev & _ & Z0 & Z1 & _).
    rewrite Nat2Z.id in Z0, Z1. rewrite Ev in Q. injection Q as <-. set (x := nth k b []) in *.
    destruct (Nat.eq_dec (length x) 0) as [E|E].
    - rewrite (Z0 E), E, RR_f0. cbn [INR]. unfold Rdiv. rewrite Rmult_0_l, Rminus_0_r, Rabs_R0. lra.
    - rewrite (Z1 E). apply frequency_error; [lia|]. split; [|lia]. rewrite Forall_forall in Hb. apply Hb, nth_In, Hk. }
  pose proof (frequencies_sum t b r ltac:(lia) F) as G. rewrite <- Hs in G.
  assert (Pt : IZR t <> 0) by (apply not_0_IZR; lia). unfold Rdiv in G. rewrite Rinv_r in G by exact Pt. lra.
Qed.
