(** Lemmas about counting with histograms and about integer variances. *)
From Coq Require Import ZArith Reals List Lia Lra Bool.
From Flocq Require Import Core.Core IEEE754.BinarySingleNaN.
From Verif Require Import Base F64 Num M_Archive M_Accum S_Accum L_Sum L_Accum M_Hist S_Hist L_Hist S_Stats L_Space.
Import ListNotations.
Open Scope Z_scope.

(** ** Counting *)

Definition tally (n : nat) (ids : list Z) : list (list f64) :=
  map (fun k => repeat f1 (count_occ Z.eq_dec ids (Z.of_nat k))) (seq 0 n).

Lemma tally_length n ids : length (tally n ids) = n.
Proof. unfold tally. now rewrite map_length, seq_length. Qed.

Lemma nth_tally n ids k : (k < n)%nat -> nth k (tally n ids) [] = repeat f1 (count_occ Z.eq_dec ids (Z.of_nat k)).
Proof.
  intros H. unfold tally. set (f := fun k => repeat f1 (count_occ Z.eq_dec ids (Z.of_nat k))).
  rewrite nth_indep with (d' := f O) by (rewrite map_length, seq_length; exact H).
  rewrite map_nth. rewrite seq_nth by exact H. reflexivity.
Qed.

Lemma put_nth b i v k : (i < length b)%nat -> nth k (put b i v) [] = if (k =? i)%nat then nth i b [] ++ [v] else nth k b [].
Proof.
  intros Hi. unfold put. destruct (Nat.eqb_spec k i) as [->|N].
  - rewrite app_nth2, firstn_length, Nat.min_l, Nat.sub_diag by (rewrite ?firstn_length; lia). reflexivity.
  - destruct (Nat.lt_ge_cases k i) as [L|L].
    + rewrite app_nth1 by (rewrite firstn_length; lia). 
      rewrite <- (firstn_skipn i b) at 2. now rewrite app_nth1 by (rewrite firstn_length; lia).
    + rewrite app_nth2, firstn_length, Nat.min_l by (rewrite ?firstn_length; lia).
      destruct (k - i)%nat as [|m] eqn:E; [lia|]. cbn [nth].
      rewrite <- (firstn_skipn (S i) b) at 2. rewrite app_nth2 by (rewrite firstn_length; lia).
      rewrite firstn_length, Nat.min_l by lia. f_equal. lia.
Qed.

Lemma tally_put n ids i : 0 <= i < Z.of_nat n -> put (tally n ids) (Z.to_nat i) f1 = tally n (ids ++ [i]).
Proof.
  intros Hi. apply nth_ext with (d := []) (d' := []); [rewrite put_length by (rewrite tally_length; lia); now rewrite !tally_length|].
  rewrite put_length by (rewrite tally_length; lia). rewrite tally_length. intros k Hk.
  rewrite put_nth by (rewrite tally_length; lia). rewrite !nth_tally by lia. rewrite count_occ_app. cbn [count_occ].
  destruct (Nat.eqb_spec k (Z.to_nat i)) as [->|N].
  - rewrite Z2Nat.id by lia. destruct (Z.eq_dec i i); [|congruence]. now rewrite repeat_app.
  - destruct (Z.eq_dec i (Z.of_nat k)); [lia|]. now rewrite Nat.add_0_r.
Qed.

Lemma tally_pad n m ids : Forall (fun i => i < Z.of_nat n) ids -> pad (tally n ids) m = tally (Nat.max n m) ids.
Proof.
  intros F. apply nth_ext with (d := []) (d' := []); [now rewrite pad_length, !tally_length|].
  rewrite pad_length, tally_length. intros k Hk. rewrite (nth_tally (Nat.max n m)) by lia. unfold pad.
  destruct (Nat.lt_ge_cases k n) as [L|L].
  - rewrite app_nth1 by (rewrite tally_length; lia). now apply nth_tally.
  - rewrite app_nth2 by (rewrite tally_length; lia).
    assert (E : count_occ Z.eq_dec ids (Z.of_nat k) = O).
    { apply count_occ_not_In. intros I. rewrite Forall_forall in F. specialize (F _ I). lia. }
    rewrite E. cbn [repeat]. set (j := (k - length (tally n ids))%nat). clearbody j.
    generalize (m - length (tally n ids))%nat as p. clear. induction j; intros [|p]; cbn; auto.
Qed.

Lemma tally_nil n : tally n [] = repeat [] n.
Proof. unfold tally. cbn [count_occ repeat]. induction n as [|n IH]; [reflexivity|]. rewrite seq_S, map_app, IH. cbn. symmetry. apply repeat_cons. Qed.

Lemma count_calls n ids : Forall (fun i => 0 <= i < Z.of_nat n) ids -> forall pre,
  bins_calls (map (fun i => HCAdd i f1) ids) (mkBins (tally n pre) (Z.of_nat (length pre))) =
  Some (mkBins (tally n (pre ++ ids)) (Z.of_nat (length (pre ++ ids)))).
Proof.
  induction 1 as [|i ids Hi F IH]; intros pre; cbn [map bins_calls]; [now rewrite app_nil_r|].
  cbn [bins_call b_bins b_total]. rewrite tally_length.
  replace ((0 <=? i) && (i <? Z.of_nat n)) with true
    by (symmetry; apply andb_true_iff; split; [apply Z.leb_le|apply Z.ltb_lt]; lia).
  rewrite tally_put by lia.
  replace (Z.of_nat (length pre) + 1) with (Z.of_nat (length (pre ++ [i]))) by (rewrite app_length; cbn [length]; lia).
  rewrite IH. now rewrite <- app_assoc.
Qed.

Lemma highest_snoc ids i : highest (ids ++ [i]) = Z.max (highest ids) (Z.max i (-1)).
Proof. unfold highest. induction ids as [|x ids IH]; cbn [app fold_right]; lia. Qed.
Lemma highest_spec ids : Forall (fun i => i <= highest ids) ids /\ -1 <= highest ids.
Proof.
  induction ids as [|x ids [F M]]; cbn; [split; [constructor|lia]|]. fold (highest ids). split; [|lia].
  constructor; [lia|]. revert F. apply Forall_impl. intros; lia.
Qed.
Lemma highest_lt ids b : -1 < b -> Forall (fun i => 0 <= i < b) ids -> highest ids < b.
Proof. intros Hb F. unfold highest. induction F; cbn [fold_right]; lia. Qed.

Lemma force_calls ids : Forall (fun i => 0 <= i < two64 - 1) ids -> forall pre,
  bins_calls (map (fun i => HCForceAdd i f1) ids) (mkBins (tally (Z.to_nat (highest pre + 1)) pre) (Z.of_nat (length pre))) =
  Some (mkBins (tally (Z.to_nat (highest (pre ++ ids) + 1)) (pre ++ ids)) (Z.of_nat (length (pre ++ ids)))).
Proof.
  induction 1 as [|i ids Hi F IH]; intros pre; cbn [map bins_calls]; [now rewrite app_nil_r|].
  cbn [bins_call b_bins b_total].
  replace ((0 <=? i) && (i <? two64 - 1)) with true
    by (symmetry; apply andb_true_iff; split; [apply Z.leb_le|apply Z.ltb_lt]; lia).
  destruct (highest_spec pre) as [FP MP].
  rewrite tally_pad by (revert FP; apply Forall_impl; intros; lia).
  replace (Nat.max (Z.to_nat (highest pre + 1)) (S (Z.to_nat i))) with (Z.to_nat (highest (pre ++ [i]) + 1))
    by (rewrite highest_snoc; lia).
  rewrite tally_put by (rewrite highest_snoc; lia).
  replace (Z.of_nat (length pre) + 1) with (Z.of_nat (length (pre ++ [i]))) by (rewrite app_length; cbn [length]; lia).
  rewrite IH. now rewrite <- app_assoc.
Qed.

Lemma each_add chk ids : forall h, each (HistAdd1 chk) ids h = hist_calls chk (map (fun i => HCAdd i f1) ids) h.
Proof.
  induction ids as [|i ids IH]; intros h; [reflexivity|]. cbn [each map hist_calls hist_call]. unfold HistAdd1 at 1.
  destruct (HistAdd chk h i f1) as [h' [u| | |]]; auto.
Qed.
Lemma each_force chk ids : forall h, each (HistForceAdd1 chk) ids h = hist_calls chk (map (fun i => HCForceAdd i f1) ids) h.
Proof.
  induction ids as [|i ids IH]; intros h; [reflexivity|]. cbn [each map hist_calls hist_call]. unfold HistForceAdd1 at 1.
  destruct (HistForceAdd chk h i f1) as [h' [u| | |]]; auto.
Qed.

Lemma tally_ones n ids : all_ones (tally n ids).
Proof.
  unfold all_ones, tally. apply Forall_map, Forall_forall. intros k _. apply Forall_forall. intros x Hx. now apply repeat_spec in Hx.
Qed.
Lemma tally_bounded n ids : Forall (fun x => Z.of_nat (length x) <= Z.of_nat (length ids)) (tally n ids).
Proof.
  unfold tally. apply Forall_map, Forall_forall. intros k _. rewrite repeat_length. apply inj_le, count_occ_bound.
Qed.

Lemma omapl_total {A B} (f : A -> out B) (P : A -> B -> Prop) l : (forall a, In a l -> exists b, f a = Ok b /\ P a b) ->
  exists r, omapl f l = Ok r /\ Forall2 P l r.
Proof.
  induction l as [|a l IH]; intros H; [exists []; split; [reflexivity|constructor]|].
  destruct (H a (or_introl eq_refl)) as (b & E & Pb). destruct IH as (r & Er & F); [intros x Hx; apply H; now right|].
  exists (b :: r). cbn [omapl]. rewrite E. cbn [bind]. rewrite Er. cbn [bind]. split; [reflexivity|now constructor].
Qed.

Lemma Forall2_nth2 {A B} (P : A -> B -> Prop) l r a b k : Forall2 P l r -> (k < length l)%nat -> P (nth k l a) (nth k r b).
Proof. intros F. revert k. induction F; intros k Hk; cbn in Hk; [lia|]. destruct k; cbn; [assumption|]. apply IHF. lia. Qed.

Lemma tally_counts_well n ids : 0 <= n < two64 -> Z.of_nat (length ids) <= 2 ^ 53 ->
  counts_well (rep (mkBins (tally (Z.to_nat n) ids) (Z.of_nat (length ids)))) n ids.
Proof.
  intros Hn Hl. unfold counts_well. split.
  { unfold HistGetCount, rep. cbn [h_count b_total]. apply u64_small. rewrite two64_eq. lia. }
  split; [unfold HistGetNbins, rep; cbn [h_nbins b_bins]; rewrite tally_length; lia|].
  unfold HistGetResults. cbn [rep h_nbins b_bins]. rewrite tally_length, Z2Nat.id by lia.
  set (h := rep _).
  destruct (omapl_total (HistGetResult h) (fun i v => HistGetResult h i = Ok v /\ fin v /\
     RR v = rnd (IZR (occurrences ids i) / INR (length ids))) (upto n)) as (r & Er & F).
  { intros i Hi. apply upto_In in Hi.
    destruct (unit_result (tally (Z.to_nat n) ids) (Z.of_nat (length ids)) i) as (v & E & Fv & V0 & V1 & _);
      [apply tally_ones|apply tally_bounded|lia|rewrite tally_length; lia|].
    exists v. split; [exact E|]. split; [exact E|]. split; [exact Fv|].
    rewrite nth_tally, repeat_length, Z2Nat.id in V0, V1 by lia. unfold occurrences.
    destruct (count_occ Z.eq_dec ids i) as [|c] eqn:Ec.
    - rewrite (V0 eq_refl), RR_f0. replace (IZR (Z.of_nat 0) / INR (length ids))%R with 0%R by (cbn; unfold Rdiv; ring).
      symmetry. apply rnd_0.
    - rewrite (V1 ltac:(discriminate)). now rewrite !INR_IZR_INZ. }
  exists r. split; [exact Er|]. assert (Lr : length r = Z.to_nat n) by (rewrite <- (@Forall2_length _ _ _ _ _ F), upto_length; lia).
  split; [unfold vsize; lia|]. intros i Hi. split.
  - unfold HistGetCountOf, h, rep. cbn [h_acc b_bins]. rewrite (vget_map _ _ _ []) by (rewrite tally_length; lia). cbn [bind].
    rewrite nth_tally, Z2Nat.id by lia. unfold NeumaierCount. rewrite neumaier_count_of, repeat_length. f_equal. unfold occurrences.
    apply u64_small. pose proof (count_occ_bound Z.eq_dec i ids). rewrite two64_eq. lia.
  - pose proof (Forall2_nth2 _ _ _ 0 f0 (Z.to_nat i) F) as G. cbv beta in G. rewrite upto_nth, Z2Nat.id in G by lia.
    apply G. rewrite upto_length; lia.
Qed.

Lemma counting chk n ids : 0 <= n < two64 -> Forall (fun i => 0 <= i < n) ids -> Z.of_nat (length ids) <= 2 ^ 53 ->
  exists h, each (HistAdd1 chk) ids (HistAccumulator n) = (h, Ok tt) /\ counts_well h n ids.
Proof.
  intros Hn F Hl. exists (rep (mkBins (tally (Z.to_nat n) ids) (Z.of_nat (length ids)))). split; [|now apply tally_counts_well].
  rewrite each_add. destruct (empty_rep n Hn) as [E S]. rewrite E.
  destruct (hist_calls_rep chk (map (fun i => HCAdd i f1) ids) 0 (empty_bins (Z.to_nat n)) (mkBins (tally (Z.to_nat n) ids) (Z.of_nat (length ids)))) as [E1 _]; auto.
  - rewrite map_length, two64_eq. lia.
  - unfold empty_bins. rewrite <- tally_nil. apply (count_calls (Z.to_nat n) ids) with (pre := []). revert F. apply Forall_impl. intros; lia.
Qed.

Lemma counting_force chk ids : Forall (fun i => 0 <= i < two64 - 1) ids -> Z.of_nat (length ids) <= 2 ^ 53 ->
  exists h, each (HistForceAdd1 chk) ids hist_default = (h, Ok tt) /\ counts_well h (highest ids + 1) ids.
Proof.
  intros F Hl. destruct (highest_spec ids) as [_ M]. pose proof (highest_lt ids (two64 - 1) ltac:(rewrite two64_eq; lia) F) as U.
  exists (rep (mkBins (tally (Z.to_nat (highest ids + 1)) ids) (Z.of_nat (length ids)))). split; [|apply tally_counts_well; [lia|exact Hl]].
  rewrite each_force. change hist_default with (HistAccumulator 0). destruct (empty_rep 0 ltac:(rewrite two64_eq; lia)) as [E S]. rewrite E.
  destruct (hist_calls_rep chk (map (fun i => HCForceAdd i f1) ids) 0 (empty_bins 0) (mkBins (tally (Z.to_nat (highest ids + 1)) ids) (Z.of_nat (length ids)))) as [E1 _]; auto.
  - rewrite map_length, two64_eq. lia.
  - exact (force_calls ids F []).
Qed.

(** ** The frequencies sum to one up to one rounding *)

Lemma occurrences_nonneg ids i : 0 <= occurrences ids i. Proof. unfold occurrences. lia. Qed.
Lemma occurrences_cons x ids i : occurrences (x :: ids) i = (if x =? i then 1 else 0) + occurrences ids i.
Proof. unfold occurrences. cbn [count_occ]. destruct (Z.eq_dec x i), (Z.eqb_spec x i); lia. Qed.

Lemma sumZ_map_add {A} (f g : A -> Z) l : sumZ (map (fun x => f x + g x) l) = sumZ (map f l) + sumZ (map g l).
Proof. unfold sumZ. induction l; cbn [map fold_right]; lia. Qed.
Lemma sumZ_app a b : sumZ (a ++ b) = sumZ a + sumZ b.
Proof. unfold sumZ. induction a; cbn [app fold_right]; lia. Qed.

Lemma sumZ_occurrences n ids : 0 <= n -> Forall (fun i => 0 <= i < n) ids ->
  sumZ (map (occurrences ids) (upto n)) = Z.of_nat (length ids).
Proof.
  intros Hn F.
  assert (I : forall x, 0 <= x < n -> sumZ (map (fun i => if x =? i then 1 else 0) (upto n)) = 1).
  { clear. intros x Hx. replace n with (x + 1 + Z.of_nat (Z.to_nat (n - (x + 1)))) by lia.
    generalize (Z.to_nat (n - (x + 1))) as k. assert (Z0 : forall m, m <= x -> 0 <= m -> sumZ (map (fun i => if x =? i then 1 else 0) (upto m)) = 0).
    { intros m Hm H0. replace m with (Z.of_nat (Z.to_nat m)) in * by lia. revert Hm. generalize (Z.to_nat m) as p. clear.
      induction p as [|p IH]; intros Hm; [reflexivity|]. rewrite Nat2Z.inj_succ, <- Z.add_1_r, upto_S by lia.
      rewrite map_app, sumZ_app, IH by lia. cbn. destruct (Z.eqb_spec x (Z.of_nat p)); lia. }
    induction k as [|k IH].
    - rewrite Z.add_0_r, upto_S by lia. rewrite map_app, sumZ_app, Z0 by lia. cbn. now rewrite Z.eqb_refl.
    - rewrite Nat2Z.inj_succ, <- Z.add_1_r, Z.add_assoc, upto_S by lia. rewrite map_app, sumZ_app, IH. unfold sumZ. cbn [map fold_right].
      destruct (Z.eqb_spec x (x + 1 + Z.of_nat k)); lia. }
  induction F as [|x ids Hx F IH].
  - clear I. cbn [length]. unfold sumZ. induction (upto n) as [|y l IHl]; [reflexivity|]. cbn [map fold_right]. rewrite IHl. reflexivity.
  - rewrite (map_ext _ _ (occurrences_cons x ids)), sumZ_map_add, I, IH by exact Hx. cbn [length]. lia.
Qed.

Lemma frequency_error c t : 0 <= c -> 1 <= t <= 2 ^ 53 ->
  (Rabs (rnd (IZR c / IZR t) - IZR c / IZR t) <= uro * (IZR c / IZR t))%R.
Proof.
  intros Hc Ht. assert (T : (0 < IZR t)%R) by (apply IZR_lt; lia).
  destruct (Z.eq_dec c 0) as [->|N].
  - replace (0 / IZR t)%R with 0%R by (unfold Rdiv; ring). rewrite rnd_0, Rminus_0_r, Rabs_R0. lra.
  - assert (Q : (bpow radix2 (-53) <= IZR c / IZR t)%R).
    { replace (bpow radix2 (-53)) with (1 / IZR (2 ^ 53))%R by (fold uro; rewrite uro_val; unfold Rdiv; ring).
      unfold Rdiv. apply Rmult_le_compat; [lra|left; apply Rinv_0_lt_compat, IZR_lt; reflexivity|apply (IZR_le 1); lia|].
      apply Rinv_le; [exact T|apply IZR_le; lia]. }
    assert (P : (0 <= IZR c / IZR t)%R) by (apply Rle_trans with (2 := Q); apply bpow_ge_0).
    rewrite <- (Rabs_pos_eq _ P) at 3. apply rnd_rel. rewrite Rabs_pos_eq by exact P.
    apply Rle_trans with (2 := Q). apply bpow_le. lia.
Qed.

Lemma frequencies_sum h n ids r : 0 <= n -> counts_well h n ids -> Forall (fun i => 0 <= i < n) ids ->
  ids <> [] -> Z.of_nat (length ids) <= 2 ^ 53 -> HistGetResults h = Ok r ->
  (Rabs (sumR (map RR r) - 1) <= uro)%R.
Proof.
  intros Hn (_ & _ & r' & Er & Lr & P) F Ne Hl Er'. rewrite Er in Er'. injection Er' as <-.
  set (t := Z.of_nat (length ids)). assert (Ht : 1 <= t <= 2 ^ 53) by (unfold t; destruct ids; [congruence|cbn [length] in *; lia]).
  assert (T : (0 < IZR t)%R) by (apply IZR_lt; lia).
  assert (E : map RR r' = map (fun i => rnd (IZR (occurrences ids i) / IZR t)) (upto n)).
  { unfold vsize in Lr. apply nth_ext with (d := RR f0) (d' := rnd (IZR (occurrences ids 0) / IZR t)); [rewrite !map_length, upto_length; lia|].
    intros k Hk. rewrite map_length in Hk. rewrite map_nth.
    rewrite (map_nth (fun i => rnd (IZR (occurrences ids i) / IZR t)) (upto n) 0), upto_nth by lia.
    destruct (P (Z.of_nat k) ltac:(lia)) as (_ & _ & _ & E). rewrite Nat2Z.id in E. rewrite E. now rewrite INR_IZR_INZ. }
  rewrite E.
  assert (S : (sumR (map (fun i => IZR (occurrences ids i) / IZR t) (upto n)) = 1)%R).
  { transitivity (IZR (sumZ (map (occurrences ids) (upto n))) / IZR t)%R.
    - clear E. induction (upto n) as [|x l IHl]; [unfold sumR, sumZ; cbn; unfold Rdiv; ring|].
      unfold sumR, sumZ in *. cbn [map fold_right]. rewrite IHl, plus_IZR. field. lra.
    - rewrite sumZ_occurrences by assumption. fold t. field. lra. }
  rewrite <- S.
  apply Rle_trans with (uro * sumR (map (fun i => IZR (occurrences ids i) / IZR t) (upto n)))%R; [|rewrite S; lra].
  clear - Ht. induction (upto n) as [|x l IHl]; [unfold sumR; cbn; rewrite Rminus_0_r, Rabs_R0; lra|].
  unfold sumR in *. cbn [map fold_right].
  replace (_ - _)%R with ((rnd (IZR (occurrences ids x) / IZR t) - IZR (occurrences ids x) / IZR t) +
    (fold_right Rplus 0 (map (fun i => rnd (IZR (occurrences ids i) / IZR t)) l) -
     fold_right Rplus 0 (map (fun i => IZR (occurrences ids i) / IZR t) l)))%R by ring.
  apply Rle_trans with (1 := Rabs_triang _ _). rewrite Rmult_plus_distr_l. apply Rplus_le_compat; [|exact IHl].
  apply frequency_error; [apply occurrences_nonneg|exact Ht].
Qed.

(** ** Integer variances *)

Lemma naive_scaled_variance l : 2 <= Z.of_nat (length l) <= 2 ^ 53 ->
  sumZ2 l + sumZ l * sumZ l <= 2 ^ 53 ->
  forall a, apply_accumulator (NaiveAdd false) l naive_new = (a, Ok tt) ->
  exists v, NaiveScaledVariance a = Ok v /\ fin v /\
  RR v = rnd (IZR (sumZ2 l - sumZ l * sumZ l) / INR (length l)).
Proof.
  intros Hn H2 a Ha. pose proof (sumZ2_pos l) as Hp.
  assert (Hq : 0 <= sumZ l * sumZ l) by nia.
  rewrite naive_fits in Ha by (apply Z.le_lt_trans with (2 ^ 53); [lia|reflexivity]).
  injection Ha as <-. unfold NaiveScaledVariance. cbn [ni_sum ni_sum2 ni_count].
  rewrite (u64_small (Z.of_nat (length l))) by (rewrite two64_eq; lia).
  assert (E : (Z.of_nat (length l) <? 2) = false) by (apply Z.ltb_ge; lia). rewrite E.
  rewrite (s64_ok (sumZ l * sumZ l)) by (change two63 with 9223372036854775808; lia). cbn [bind].
  rewrite (s64_ok (sumZ2 l - sumZ l * sumZ l)) by (change two63 with 9223372036854775808; lia). cbn [bind].
  eexists. split; [reflexivity|].
  destruct (of_Z_exact (sumZ2 l - sumZ l * sumZ l)) as [Ev Fv]; [lia|].
  rewrite INR_IZR_INZ. apply (fdiv_Z _ _ _ Fv Ev); lia.
Qed.

Lemma naive_deviation l : 2 <= Z.of_nat (length l) <= 2 ^ 26 ->
  sumZ2 l + sumZ l * sumZ l <= 2 ^ 53 ->
  forall a, apply_accumulator (NaiveAdd false) l naive_new = (a, Ok tt) ->
  forall c, exists s, NaiveStandardDeviation c a = Ok s /\
  (sumZ l * sumZ l <= sumZ2 l -> exists v, NaiveVariance c a = Ok v /\ fin s /\ RR s = rnd (sqrt (RR v))) /\
  (sumZ2 l < sumZ l * sumZ l -> is_nan s = true).
Proof.
  intros Hn H2 a Ha c. destruct (naive_variance l Hn H2 a Ha c) as (v & Ev & Fv & Rv).
  unfold NaiveStandardDeviation. rewrite Ev. cbn [omap]. exists (fsqrt v). split; [reflexivity|].
  set (D := (INR (length l) * (if c then INR (length l) - 1 else INR (length l)))%R) in *.
  assert (PD : (0 < D)%R).
  { unfold D. assert (2 <= INR (length l))%R by (rewrite INR_IZR_INZ; apply (IZR_le 2); lia). destruct c; nra. }
  split; intros H.
  - exists v. split; [reflexivity|]. destruct (fsqrt_ok v Fv) as [A B]; [|split; [exact B|exact A]].
    rewrite Rv. apply rnd_pos. apply Rmult_le_pos; [apply (IZR_le 0); lia|left; now apply Rinv_0_lt_compat].
  - set (x := (IZR (sumZ2 l - sumZ l * sumZ l) / D)%R) in *.
    assert (UD : (D <= IZR (2 ^ 52))%R).
    { assert (0 <= INR (length l) <= IZR (2 ^ 26))%R by (split; [apply pos_INR|rewrite INR_IZR_INZ; apply IZR_le; lia]).
      change (2 ^ 52) with (2 ^ 26 * 2 ^ 26). rewrite mult_IZR. unfold D.
      destruct c; apply Rmult_le_compat; try lra.
      assert (2 <= INR (length l))%R by (rewrite INR_IZR_INZ; apply (IZR_le 2); lia). lra. }
    assert (X : (x <= - / IZR (2 ^ 52))%R).
    { unfold x, Rdiv. apply Rle_trans with (-1 * / D)%R.
      - apply Rmult_le_compat_r; [left; now apply Rinv_0_lt_compat|apply (IZR_le _ (-1)); lia].
      - pose proof (Rinv_le _ _ PD UD). lra. }
    assert (B52 : (bpow radix2 (-1022) <= / IZR (2 ^ 52))%R).
    { replace (/ IZR (2 ^ 52))%R with (bpow radix2 (-52)); [apply bpow_le; lia|].
      change (-52) with (- (52)). rewrite bpow_opp. f_equal. }
    pose proof (bpow_gt_0 radix2 (-1022)) as B0.
    assert (N : (RR v < 0)%R).
    { rewrite Rv. pose proof (rnd_rel x) as K. rewrite Rabs_left in K by lra. specialize (K ltac:(lra)).
      apply Rabs_le_inv in K. pose proof uro_pos. pose proof uro_small. nra. }
    clear - Fv N. unfold RR in N. destruct v as [sg|sg| |sg m e Hb]; cbn in N; try lra.
    destruct sg; [reflexivity|]. exfalso. apply (Rlt_not_le _ _ N). apply F2R_ge_0. cbn. lia.
Qed.
