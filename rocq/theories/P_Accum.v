(** Property theorems C42-C52 (accumulators).  Nothing else is proved here.
    [uro] is 2^-53, [rnd] rounds a real to the nearest double (ties to even),
    [RR x] is the real value of the double x, [fin x] says x is finite. *)
From Coq Require Import ZArith Reals List Bool Lia Lra.
From Flocq Require Import Core.Core IEEE754.BinarySingleNaN.
From Verif Require Import Base F64 Num M_Archive M_Accum S_Accum L_Sum L_Accum.
Import ListNotations.
Open Scope R_scope.

(** * C42  Kahan *)

Theorem C42_kahan_error : forall chk l a,
  apply_accumulator (KahanAdd numF chk) l (kahan_new numF) = (a, Ok tt) ->
  (Z.of_nat (length l) <= 2 ^ 49)%Z -> fin (KahanSum a) ->
  Rabs (RR (KahanSum a) - sumR (map RR l)) <=
    uro * Rabs (RR (KahanSum a)) + (2 * uro + 16 * (INR (length l) * (uro * uro))) * sum_abs (map RR l).
Proof.
  intros chk l a Ha Hn Hf. apply (apply_fold _ (kahan_step numF)) in Ha; [|add_cases]. subst a.
  exact (proj2 (kahan_bound l Hn Hf)).
Qed.
Print Assumptions C42_kahan_error.

Theorem C42_kahan_finite : forall chk l,
  (Z.of_nat (length l) <= 2 ^ 49)%Z -> Forall fin l -> sum_abs (map RR l) <= bpow radix2 1019 ->
  exists a, apply_accumulator (KahanAdd numF chk) l (kahan_new numF) = (a, Ok tt) /\ fin (KahanSum a).
Proof.
  intros chk l Hn Hf HA. exists (kahan_of l). split.
  - apply (apply_step_checked (KahanAdd numF chk) (kahan_step numF) k_count);
      [|reflexivity|reflexivity|cbn [kahan_new k_count]; unfold ulong_max; rewrite two64_eq; lia].
    intros a x H. unfold KahanAdd. destruct (Z.eqb_spec (k_count a) ulong_max); [contradiction|].
    now rewrite andb_false_r.
  - exact (proj1 (kahan_finite l Hf Hn HA)).
Qed.
Print Assumptions C42_kahan_finite.

(** 1, 2^-53 four times over: a plain sum stays at 1, the compensated one does not. *)
Definition kahan_demo : list f64 := [f1; dyad 1 (-53); dyad 1 (-53); dyad 1 (-53); dyad 1 (-53)].
Example C42_example :
  B2SF (KahanSum (fst (apply_accumulator (KahanAdd numF false) kahan_demo (kahan_new numF)))) =
    B2SF (dyad (2 ^ 51 + 1) (-51)) /\
  B2SF (fold_left fadd kahan_demo f0) = B2SF f1 /\
  forallb is_finite kahan_demo = true.
Proof. split; [vm_compute; reflexivity|split; vm_compute; reflexivity]. Qed.

(** * C43  Neumaier *)

Theorem C43_neumaier_error : forall chk l a,
  apply_accumulator (NeumaierAdd numF chk) l (neumaier_new numF) = (a, Ok tt) ->
  fin (NeumaierSum numF a) ->
  Rabs (RR (NeumaierSum numF a) - sumR (map RR l)) <=
    uro * Rabs (sumR (map RR l)) + (1 + uro) * ((1 + uro) ^ length l - 1) ^ 2 * sum_abs (map RR l).
Proof.
  intros chk l a Ha Hf. apply (apply_fold _ (neumaier_step numF)) in Ha; [|add_cases]. subst a.
  exact (proj2 (neumaier_bound l Hf)).
Qed.
Print Assumptions C43_neumaier_error.

Theorem C43_neumaier_error_simple : forall chk l a,
  apply_accumulator (NeumaierAdd numF chk) l (neumaier_new numF) = (a, Ok tt) ->
  (Z.of_nat (length l) <= 2 ^ 52)%Z -> fin (NeumaierSum numF a) ->
  Rabs (RR (NeumaierSum numF a) - sumR (map RR l)) <=
    uro * Rabs (sumR (map RR l)) + 5 * (INR (length l) * uro) ^ 2 * sum_abs (map RR l).
Proof.
  intros chk l a Ha Hn Hf. apply (apply_fold _ (neumaier_step numF)) in Ha; [|add_cases]. subst a.
  exact (neumaier_bound_simple l Hn Hf).
Qed.
Print Assumptions C43_neumaier_error_simple.

Theorem C43_neumaier_finite : forall chk l,
  (Z.of_nat (length l) <= 2 ^ 52)%Z -> Forall fin l -> sum_abs (map RR l) <= bpow radix2 1019 ->
  exists a, apply_accumulator (NeumaierAdd numF chk) l (neumaier_new numF) = (a, Ok tt) /\
            fin (NeumaierSum numF a).
Proof.
  intros chk l Hn Hf HA. exists (neumaier_of l). split.
  - apply (apply_step_checked (NeumaierAdd numF chk) (neumaier_step numF) n_count);
      [|reflexivity|reflexivity|cbn [neumaier_new n_count]; unfold ulong_max; rewrite two64_eq; lia].
    intros a x H. unfold NeumaierAdd. destruct (Z.eqb_spec (n_count a) ulong_max); [contradiction|].
    now rewrite andb_false_r.
  - exact (proj2 (proj2 (neumaier_finite l Hf Hn HA))).
Qed.
Print Assumptions C43_neumaier_finite.

(** 1, 2^100, 1, -2^100: Kahan loses both ones, Neumaier keeps them. *)
Definition neumaier_demo : list f64 := [f1; dyad 1 100; f1; dyad (-1) 100].
Example C43_example :
  B2SF (NeumaierSum numF (fst (apply_accumulator (NeumaierAdd numF false) neumaier_demo (neumaier_new numF)))) =
    B2SF (of_Z 2) /\
  B2SF (KahanSum (fst (apply_accumulator (KahanAdd numF false) neumaier_demo (kahan_new numF)))) = B2SF f0.
Proof. split; vm_compute; reflexivity. Qed.

(** * C44  Integers *)

Theorem C44_kahan_integers : forall chk l a,
  apply_accumulator (KahanAdd numF chk) (map of_Z l) (kahan_new numF) = (a, Ok tt) ->
  (sumZ (map Z.abs l) <= 2 ^ 53)%Z ->
  fin (KahanSum a) /\ RR (KahanSum a) = IZR (sumZ l) /\
  ((1 <= Z.of_nat (length l) <= 2 ^ 53)%Z -> RR (KahanMean numF a) = rnd (IZR (sumZ l) / INR (length l))).
Proof.
  intros chk l a Ha Hs. apply (apply_fold _ (kahan_step numF)) in Ha; [|add_cases]. subst a.
  fold (kahan_of (map of_Z l)). destruct (kahan_ints l Hs) as (F & E & _).
  split; [exact F|]. split; [exact E|]. intros Hn. unfold KahanMean. cbn [numF n_div n_ofZ].
  assert (Ec : k_count (kahan_of (map of_Z l)) = Z.of_nat (length l)).
  { unfold kahan_of. rewrite (count_mod (kahan_step numF) k_count (kahan_new numF)) by reflexivity.
    rewrite map_length. apply u64_small. rewrite two64_eq. lia. }
  rewrite Ec, INR_IZR_INZ. pose proof (sumZ_le_abs l). unfold sumZ in Hs. fold (sumZabs l) in Hs.
  apply (fdiv_Z _ _ (sumZs l) F E); lia.
Qed.
Print Assumptions C44_kahan_integers.

Theorem C44_neumaier_integers : forall chk l a,
  apply_accumulator (NeumaierAdd numF chk) (map of_Z l) (neumaier_new numF) = (a, Ok tt) ->
  (sumZ (map Z.abs l) <= 2 ^ 53)%Z ->
  fin (NeumaierSum numF a) /\ RR (NeumaierSum numF a) = IZR (sumZ l) /\
  ((1 <= Z.of_nat (length l) <= 2 ^ 53)%Z -> RR (NeumaierMean numF a) = rnd (IZR (sumZ l) / INR (length l))).
Proof.
  intros chk l a Ha Hs. apply (apply_fold _ (neumaier_step numF)) in Ha; [|add_cases]. subst a.
  fold (neumaier_of (map of_Z l)). destruct (neumaier_sum_ints l Hs) as (F & E).
  split; [exact F|]. split; [exact E|]. intros Hn. unfold NeumaierMean. cbn [numF n_div n_ofZ].
  assert (Ec : n_count (neumaier_of (map of_Z l)) = Z.of_nat (length l)).
  { unfold neumaier_of. rewrite (count_mod (neumaier_step numF) n_count (neumaier_new numF)) by reflexivity.
    rewrite map_length. apply u64_small. rewrite two64_eq. lia. }
  rewrite Ec, INR_IZR_INZ. pose proof (sumZ_le_abs l). unfold sumZ in Hs. fold (sumZabs l) in Hs.
  apply (fdiv_Z _ _ (sumZs l) F E); lia.
Qed.
Print Assumptions C44_neumaier_integers.

Example C44_example :
  let l := [2 ^ 52; - (2 ^ 51); 3; -7]%Z in
  (sumZ (map Z.abs l) <= 2 ^ 53)%Z /\
  B2SF (KahanSum (fst (apply_accumulator (KahanAdd numF true) (map of_Z l) (kahan_new numF)))) =
  B2SF (of_Z (2 ^ 51 - 4)).
Proof. split; [intros H; discriminate H|vm_compute; reflexivity]. Qed.

(** * C45  Count, Reset, batches *)

Theorem C45_kahan_history : forall chk h a,
  history (KahanAdd numF chk) (KahanReset numF) h (kahan_new numF) = (a, Ok tt) ->
  apply_accumulator (KahanAdd numF chk) (since_reset h []) (kahan_new numF) = (a, Ok tt) /\
  KahanCount a = u64 (Z.of_nat (length (since_reset h []))).
Proof. exact kahan_history. Qed.
Print Assumptions C45_kahan_history.

Theorem C45_neumaier_history : forall chk h a,
  history (NeumaierAdd numF chk) (NeumaierReset numF) h (neumaier_new numF) = (a, Ok tt) ->
  apply_accumulator (NeumaierAdd numF chk) (since_reset h []) (neumaier_new numF) = (a, Ok tt) /\
  NeumaierCount a = u64 (Z.of_nat (length (since_reset h []))).
Proof. exact neumaier_history. Qed.
Print Assumptions C45_neumaier_history.

Theorem C45_knuth_welford_history : forall chk h a,
  history (KwAdd numF chk) (KwReset numF) h (kw_new numF) = (a, Ok tt) ->
  apply_accumulator (KwAdd numF chk) (since_reset h []) (kw_new numF) = (a, Ok tt) /\
  KwCount a = u64 (Z.of_nat (length (since_reset h []))).
Proof. exact kw_history. Qed.
Print Assumptions C45_knuth_welford_history.

(** Only positive weights count. *)
Theorem C45_west_history : forall chk h a,
  history (fun a p => WestAdd numF chk a (fst p) (snd p)) (WestReset numF) h (west_new numF) = (a, Ok tt) ->
  apply_accumulator (fun a p => WestAdd numF chk a (fst p) (snd p)) (since_reset h []) (west_new numF) = (a, Ok tt) /\
  WestCount a = u64 (Z.of_nat (length (filter (fun p => flt f0 (snd p)) (since_reset h [])))).
Proof. exact west_history. Qed.
Print Assumptions C45_west_history.

Theorem C45_naive_history : forall chk h a,
  history (NaiveAdd chk) NaiveReset h naive_new = (a, Ok tt) ->
  apply_accumulator (NaiveAdd chk) (since_reset h []) naive_new = (a, Ok tt) /\
  NaiveCount a = u64 (Z.of_nat (length (since_reset h []))).
Proof. exact naive_history. Qed.
Print Assumptions C45_naive_history.

(** Without BWSL_ACCUMULATORS_CHECKS no history on the double accumulators fails. *)
Theorem C45_unchecked_never_fail : forall h hw,
  snd (history (KahanAdd numF false) (KahanReset numF) h (kahan_new numF)) = Ok tt /\
  snd (history (NeumaierAdd numF false) (NeumaierReset numF) h (neumaier_new numF)) = Ok tt /\
  snd (history (KwAdd numF false) (KwReset numF) h (kw_new numF)) = Ok tt /\
  snd (history (fun a p => WestAdd numF false a (fst p) (snd p)) (WestReset numF) hw (west_new numF)) = Ok tt.
Proof.
  intros h hw. split; [|split; [|split]]; apply history_never_fails; intros; try reflexivity.
  unfold WestAdd. cbn [andb]. destruct (n_lt _ _ _); reflexivity.
Qed.
Print Assumptions C45_unchecked_never_fail.

(** A range may be cut anywhere; a failure in the first part is final. *)
Theorem C45_batches : forall S X (add : S -> X -> S * out unit) l1 l2 a,
  apply_accumulator add (l1 ++ l2) a =
  match apply_accumulator add l1 a with (a1, Ok _) => apply_accumulator add l2 a1 | e => e end.
Proof. intros S X. exact apply_app_gen. Qed.
Print Assumptions C45_batches.

Example C45_example :
  let h := [CAdd f1; CAdd fnan; CReset; CAdd (of_Z 3); CAdd (of_Z 5)] in
  since_reset h [] = [of_Z 3; of_Z 5] /\
  let a := fst (history (KwAdd numF true) (KwReset numF) h (kw_new numF)) in
  KwCount a = 2%Z /\ B2SF (KwMean a) = B2SF (of_Z 4) /\
  B2SF (KwVariance numF true a) = B2SF (of_Z 2).
Proof. split; [reflexivity|]. split; [vm_compute; reflexivity|split; vm_compute; reflexivity]. Qed.

(** * C46  The limit on the number of measurements *)

Theorem C46_kahan_limit : forall (a : kahan f64) x,
  (k_count a = ulong_max ->
     KahanAdd numF true a x = (a, Throw ExAccumulatorOverflow) /\
     KahanCount (fst (KahanAdd numF false a x)) = 0%Z) /\
  (k_count a <> ulong_max -> snd (KahanAdd numF true a x) = Ok tt).
Proof.
  intros a x. unfold KahanAdd. split; intros H.
  - rewrite H. split; [reflexivity|]. cbn [andb fst]. unfold KahanCount, kahan_step. cbn [k_count].
    rewrite H. reflexivity.
  - destruct (Z.eqb_spec (k_count a) ulong_max); [contradiction|reflexivity].
Qed.
Print Assumptions C46_kahan_limit.

Theorem C46_neumaier_limit : forall (a : neumaier f64) x,
  (n_count a = ulong_max ->
     NeumaierAdd numF true a x = (a, Throw ExAccumulatorOverflow) /\
     NeumaierCount (fst (NeumaierAdd numF false a x)) = 0%Z) /\
  (n_count a <> ulong_max -> snd (NeumaierAdd numF true a x) = Ok tt).
Proof.
  intros a x. unfold NeumaierAdd. split; intros H.
  - rewrite H. split; [reflexivity|]. cbn [andb fst]. unfold NeumaierCount, neumaier_step.
    cbn [n_count]. rewrite H. reflexivity.
  - destruct (Z.eqb_spec (n_count a) ulong_max); [contradiction|reflexivity].
Qed.
Print Assumptions C46_neumaier_limit.

Theorem C46_knuth_welford_limit : forall (a : kw f64) x,
  (kw_count a = ulong_max ->
     KwAdd numF true a x = (a, Throw ExAccumulatorOverflow) /\
     KwCount (fst (KwAdd numF false a x)) = 0%Z) /\
  (kw_count a <> ulong_max -> snd (KwAdd numF true a x) = Ok tt).
Proof.
  intros a x. unfold KwAdd. split; intros H.
  - rewrite H. split; [reflexivity|]. cbn [andb fst]. unfold KwCount, kw_step. cbn [kw_count].
    rewrite H. reflexivity.
  - destruct (Z.eqb_spec (kw_count a) ulong_max); [contradiction|reflexivity].
Qed.
Print Assumptions C46_knuth_welford_limit.

(** A weight that is not positive is ignored even at the limit. *)
Theorem C46_west_limit : forall (a : west f64) m w,
  (w_count a = ulong_max -> flt f0 w = true ->
     WestAdd numF true a m w = (a, Throw ExAccumulatorOverflow) /\
     WestCount (fst (WestAdd numF false a m w)) = 0%Z) /\
  (w_count a <> ulong_max \/ flt f0 w = false -> snd (WestAdd numF true a m w) = Ok tt).
Proof.
  intros a m w. unfold WestAdd. cbn [numF n_lt n_ofZ]. change (of_Z 0) with f0. split.
  - intros H Hw. rewrite Hw, H. split; [reflexivity|]. cbn [andb fst]. unfold WestCount, west_step.
    cbn [w_count]. rewrite H. reflexivity.
  - intros [H|H]; [|rewrite H; reflexivity].
    destruct (flt f0 w); [|reflexivity].
    destruct (Z.eqb_spec (w_count a) ulong_max); [contradiction|reflexivity].
Qed.
Print Assumptions C46_west_limit.

Example C46_example :
  k_count (mkKahan f1 f0 (2 ^ 64 - 1)) = ulong_max /\
  snd (KahanAdd numF true (mkKahan f1 f0 (2 ^ 64 - 1)) f1) = Throw ExAccumulatorOverflow /\
  KahanCount (fst (KahanAdd numF false (mkKahan f1 f0 (2 ^ 64 - 2)) f1)) = ulong_max.
Proof. split; [reflexivity|split; vm_compute; reflexivity]. Qed.

(** * C47  Knuth-Welford in exact arithmetic *)

Theorem C47_knuth_welford_moments : forall chk l a,
  apply_accumulator (KwAdd numR chk) l (kw_new numR) = (a, Ok tt) ->
  (1 <= Z.of_nat (length l) < two64)%Z ->
  KwMean a = meanR l /\ KwSum numR a = sumR l.
Proof.
  intros chk l a Ha Hn. apply (apply_fold _ (kw_step numR)) in Ha; [|add_cases]. subst a.
  fold (kwR_of l). assert (Hl : l <> []) by (destruct l; [cbn in Hn; lia|discriminate]).
  destruct (kwR_spec l Hl ltac:(lia)) as [E1 _]. unfold KwMean, KwSum. rewrite kwR_count, E1.
  split; [reflexivity|]. cbn [numR n_mul n_ofZ]. rewrite u64_small by lia.
  rewrite <- INR_IZR_INZ. unfold meanR. field. apply not_0_INR. destruct l; [congruence|discriminate].
Qed.
Print Assumptions C47_knuth_welford_moments.

Theorem C47_knuth_welford_variance : forall chk l a,
  apply_accumulator (KwAdd numR chk) l (kw_new numR) = (a, Ok tt) ->
  (2 <= Z.of_nat (length l) < two64)%Z ->
  let n := INR (length l) in
  KwScaledVariance numR a = sq_devs l /\
  KwVariance numR true a = sq_devs l / (n - 1) /\
  KwVariance numR false a = sq_devs l / n /\
  (forall corrected, KwStandardDeviation numR corrected a = sqrt (KwVariance numR corrected a)) /\
  (forall corrected, KwError numR corrected a = sqrt (KwVariance numR corrected a / n)).
Proof.
  intros chk l a Ha Hn n. apply (apply_fold _ (kw_step numR)) in Ha; [|add_cases]. subst a.
  fold (kwR_of l). assert (Hl : l <> []) by (destruct l; [cbn in Hn; lia|discriminate]).
  destruct (kwR_spec l Hl ltac:(lia)) as [_ E2].
  assert (Ec : kw_count (kwR_of l) = Z.of_nat (length l)) by (rewrite kwR_count; apply u64_small; lia).
  assert (Hn1 : IZR (Z.of_nat (length l)) = n) by (symmetry; apply INR_IZR_INZ).
  assert (HV : forall c : bool, KwVariance numR c (kwR_of l) = sq_devs l / (if c then n - 1 else n)).
  { intros c. unfold KwVariance. rewrite Ec, E2.
    destruct (Z.ltb_spec (Z.of_nat (length l)) 2); [lia|]. cbn [numR n_div n_ofZ].
    destruct c; [rewrite u64_small by lia; rewrite minus_IZR|]; rewrite Hn1; reflexivity. }
  split; [|split; [exact (HV true)|split; [exact (HV false)|split]]].
  - unfold KwScaledVariance. rewrite Ec, E2. destruct (Z.ltb_spec (Z.of_nat (length l)) 2); [lia|reflexivity].
  - reflexivity.
  - intros c. unfold KwError, KwStandardDeviation. rewrite Ec. cbn [numR n_div n_sqrt n_ofZ].
    rewrite Hn1. assert (Hp : 2 <= n) by (rewrite <- Hn1; apply IZR_le; lia).
    symmetry. apply sqrt_div; [|lra]. rewrite HV.
    assert (0 <= sq_devs l).
    { unfold sq_devs, sumR. generalize (meanR l). intros m. clear. induction l as [|x l IH]; cbn [map fold_right]; [lra|].
      pose proof (pow2_ge_0 (x - m)). lra. }
    apply Rmult_le_pos; [assumption|]. left. apply Rinv_0_lt_compat. destruct c; lra.
Qed.
Print Assumptions C47_knuth_welford_variance.

(** Fewer than two values: no variance (NaN). *)
Theorem C47_variance_needs_two : forall chk l a,
  apply_accumulator (KwAdd numF chk) l (kw_new numF) = (a, Ok tt) -> (length l < 2)%nat ->
  forall corrected, KwVariance numF corrected a = fnan /\ KwScaledVariance numF a = fnan.
Proof.
  intros chk l a Ha Hn corrected. apply (apply_fold _ (kw_step numF)) in Ha; [|add_cases]. subst a.
  fold (kw_of l). unfold KwVariance, KwScaledVariance. rewrite kw_count_of.
  rewrite u64_small by (rewrite two64_eq; lia).
  destruct (Z.ltb_spec (Z.of_nat (length l)) 2); [split; reflexivity|lia].
Qed.
Print Assumptions C47_variance_needs_two.

Example C47_example :
  sq_devs [1; 2; 6] = 14 /\ meanR [1; 2; 6] = 3 /\
  let a := fst (apply_accumulator (KwAdd numF false) (map of_Z [1; 2; 6]%Z) (kw_new numF)) in
  B2SF (KwMean a) = B2SF (of_Z 3) /\ B2SF (KwVariance numF true a) = B2SF (of_Z 7).
Proof.
  split; [unfold sq_devs, meanR, sumR; cbn; lra|].
  split; [unfold meanR, sumR; cbn; lra|]. split; vm_compute; reflexivity.
Qed.

(** * C48  Knuth-Welford in doubles *)

Theorem C48_mean_in_range : forall chk l a lo hi,
  apply_accumulator (KwAdd numF chk) l (kw_new numF) = (a, Ok tt) ->
  (1 <= Z.of_nat (length l) < two64)%Z ->
  Forall (fun x => fin x /\ Rabs (RR x) <= bpow radix2 1022) l ->
  Forall (fun x => lo <= RR x <= hi) l ->
  fin (KwMean a) /\ lo <= RR (KwMean a) <= hi.
Proof.
  intros chk l a lo hi Ha Hn Hl Hr. apply (apply_fold _ (kw_step numF)) in Ha; [|add_cases]. subst a.
  destruct (kw_inv l Hl ltac:(lia)) as (F & _ & _ & H). split; [exact F|].
  apply H; [destruct l; [cbn in Hn; lia|discriminate]|exact Hr].
Qed.
Print Assumptions C48_mean_in_range.

(** [fle f0 v = true]: not negative and not NaN. *)
Theorem C48_variance_nonnegative : forall chk l a corrected,
  apply_accumulator (KwAdd numF chk) l (kw_new numF) = (a, Ok tt) ->
  (2 <= Z.of_nat (length l) < two64)%Z ->
  Forall (fun x => fin x /\ Rabs (RR x) <= bpow radix2 1022) l ->
  fle f0 (KwScaledVariance numF a) = true /\ fle f0 (KwVariance numF corrected a) = true /\
  fle f0 (KwStandardDeviation numF corrected a) = true.
Proof.
  intros chk l a c Ha Hn Hl. apply (apply_fold _ (kw_step numF)) in Ha; [|add_cases]. subst a.
  exact (kw_var_nonneg l c Hl Hn).
Qed.
Print Assumptions C48_variance_nonnegative.

(** The bound matters: values further apart than the largest double give NaN. *)
Theorem C48_unbounded_refuted : exists l a,
  apply_accumulator (KwAdd numF false) l (kw_new numF) = (a, Ok tt) /\ Forall fin l /\
  length l = 3%nat /\ is_nan (KwMean a) = true /\ is_nan (KwVariance numF true a) = true.
Proof.
  exists [dyad 1 1023; dyad (-1) 1023; f0]. eexists. split; [reflexivity|].
  split; [repeat constructor|]. split; [reflexivity|]. split; vm_compute; reflexivity.
Qed.
Print Assumptions C48_unbounded_refuted.

Example C48_example :
  let l := [dyad 1 1022; dyad (-1) 1022; dyad 1 (-1074); f1] in
  let a := fst (apply_accumulator (KwAdd numF false) l (kw_new numF)) in
  (2 <= Z.of_nat (length l) < two64)%Z /\ is_finite (KwMean a) = true /\
  B2SF (KwVariance numF true a) = B2SF finf.
Proof. split; [rewrite two64_eq; cbn; lia|split; vm_compute; reflexivity]. Qed.

(** * C49  West in exact arithmetic *)

Theorem C49_west_mean : forall chk l a,
  apply_accumulator (fun a p => WestAdd numR chk a (fst p) (snd p)) l (west_new numR) = (a, Ok tt) ->
  (Z.of_nat (length l) < two64)%Z -> positive_weights l <> [] ->
  WestMean a = wmean (positive_weights l) /\ WestSum numR a = wsum (positive_weights l) /\
  WestCount a = Z.of_nat (length (positive_weights l)).
Proof.
  intros chk l a Ha Hn Hp. destruct (west_filterR chk l (fun _ => Hn)) as [E Ec].
  rewrite E in Ha. injection Ha as <-.
  pose proof (positive_weights_pos l) as HP.
  destruct (west_posR (positive_weights l) HP) as (E1 & _ & E3). destruct (E3 Hp) as [E4 _].
  unfold WestMean, WestSum, WestCount. rewrite E4, E1, Ec. split; [reflexivity|]. split.
  - pose proof (total_weight_pos _ HP Hp). cbn [numR n_mul]. unfold wmean. field. lra.
  - apply u64_small. unfold positive_weights.
    assert (H := filter_len (fun p : R * R => if Rlt_dec 0 (snd p) then true else false) l). lia.
Qed.
Print Assumptions C49_west_mean.

Theorem C49_west_variances : forall chk l a,
  apply_accumulator (fun a p => WestAdd numR chk a (fst p) (snd p)) l (west_new numR) = (a, Ok tt) ->
  (Z.of_nat (length l) < two64)%Z -> (2 <= length (positive_weights l))%nat ->
  let p := positive_weights l in
  let W := total_weight p in
  WestPopulationVariance numR a = wsq_devs p / W /\
  WestSampleFrequencyVariance numR a = wsq_devs p / (W - 1) /\
  WestSampleReliabilityVariance numR a = wsq_devs p / (W - total_weight2 p / W).
Proof.
  intros chk l a Ha Hn Hp p W. destruct (west_filterR chk l (fun _ => Hn)) as [E Ec].
  rewrite E in Ha. injection Ha as <-.
  assert (Hne : positive_weights l <> []) by (destruct (positive_weights l); [cbn in Hp; lia|discriminate]).
  destruct (west_posR (positive_weights l) (positive_weights_pos l)) as (E1 & E2 & E3).
  destruct (E3 Hne) as [_ E5].
  assert (Hc : (w_count (fold_left westR_add (positive_weights l) (west_new numR)) <? 2 = false)%Z).
  { rewrite Ec. apply Z.ltb_ge.
    assert (H := filter_len (fun p : R * R => if Rlt_dec 0 (snd p) then true else false) l).
    fold (positive_weights l) in H. rewrite u64_small by lia. lia. }
  unfold WestPopulationVariance, WestSampleFrequencyVariance, WestSampleReliabilityVariance.
  rewrite Hc, E1, E2, E5. repeat split.
Qed.
Print Assumptions C49_west_variances.

Example C49_example :
  wmean [(1, 1); (4, 2)] = 3 /\ wsq_devs [(1, 1); (4, 2)] = 6 /\
  let a := fst (apply_accumulator (fun a p => WestAdd numF false a (fst p) (snd p))
    [(of_Z 1, of_Z 1); (of_Z 7, of_Z (-1)); (of_Z 4, of_Z 2)] (west_new numF)) in
  B2SF (WestMean a) = B2SF (of_Z 3) /\ B2SF (WestPopulationVariance numF a) = B2SF (of_Z 2) /\
  WestCount a = 2%Z.
Proof.
  split; [unfold wmean, wsum, total_weight, sumR; cbn; lra|].
  split; [unfold wsq_devs, wmean, wsum, total_weight, sumR; cbn; lra|].
  split; [vm_compute; reflexivity|split; vm_compute; reflexivity].
Qed.

(** * C50  West in doubles *)

Theorem C50_nonpositive_ignored : forall chk (a : west f64) m w,
  (fin w /\ RR w <= 0) \/ w = fnan \/ w = fopp finf -> WestAdd numF chk a m w = (a, Ok tt).
Proof.
  intros chk a m w H. apply west_ignored. destruct H as [[F H]|[->| ->]]; [|reflexivity|reflexivity].
  apply (proj2 (flt_R_false f0 w fin_f0 F)). rewrite RR_f0. exact H.
Qed.
Print Assumptions C50_nonpositive_ignored.

Theorem C50_first_value : forall chk m w,
  fin m -> fin w -> 0 < RR w -> fin (fmul w m) ->
  exists a, WestAdd numF chk (west_new numF) m w = (a, Ok tt) /\
  fin (WestMean a) /\ RR (WestMean a) = RR m /\ WestCount a = 1%Z /\
  fin (w_m2 a) /\ RR (w_m2 a) = 0 /\ RR (w_sw a) = RR w.
Proof.
  intros chk m w Fm Fw Pw Fwm. destruct (west_first chk m w Fm Fw Pw Fwm) as (a & H & A & B & C & D & E & F).
  exists a. repeat split; assumption.
Qed.
Print Assumptions C50_first_value.

(** When w*m overflows the spread becomes NaN, and so does every later variance. *)
Theorem C50_first_value_overflow_refuted : exists m w a a',
  fin m /\ fin w /\ 0 < RR w /\ fle m (dyad 1 1000) = true /\
  WestAdd numF false (west_new numF) m w = (a, Ok tt) /\ is_nan (w_m2 a) = true /\
  WestAdd numF false a m w = (a', Ok tt) /\ is_nan (WestPopulationVariance numF a') = true.
Proof.
  exists (dyad 1 1000), (dyad 1 1000). eexists. eexists.
  split; [reflexivity|]. split; [reflexivity|]. split.
  { apply (flt_R f0 (dyad 1 1000)); vm_compute; reflexivity. }
  split; [vm_compute; reflexivity|]. split; [reflexivity|]. split; [vm_compute; reflexivity|].
  split; [reflexivity|]. vm_compute; reflexivity.
Qed.
Print Assumptions C50_first_value_overflow_refuted.

Theorem C50_weights_grow : forall chk l a m w a' o,
  apply_accumulator (fun a p => WestAdd numF chk a (fst p) (snd p)) l (west_new numF) = (a, Ok tt) ->
  WestAdd numF chk a m w = (a', o) ->
  fle f0 (w_sw a) = true /\ fle (w_sw a) (w_sw a') = true.
Proof.
  intros chk l a m w a' o Ha Hw. assert (H := west_sw_inv chk l a _ Ha).
  split; [exact H|]. exact (west_sw_grows chk a m w a' o H Hw).
Qed.
Print Assumptions C50_weights_grow.

Theorem C50_variance_nonnegative_refuted : exists l a,
  apply_accumulator (fun a p => WestAdd numF false a (fst p) (snd p)) l (west_new numF) = (a, Ok tt) /\
  Forall (fun p => fin (fst p) /\ fin (snd p) /\ 0 < RR (snd p)) l /\
  flt (WestPopulationVariance numF a) f0 = true.
Proof.
  exists [(of_Z (- 2 ^ 53), f1); (of_Z 3, of_Z (2 ^ 54))]. eexists. split; [reflexivity|].
  split; [|vm_compute; reflexivity].
  constructor; [|constructor; [|constructor]]; cbn [fst snd]; (split; [reflexivity|split; [reflexivity|]]).
  - rewrite RR_f1. lra.
  - apply (flt_R f0 (of_Z (2 ^ 54))); vm_compute; reflexivity.
Qed.
Print Assumptions C50_variance_nonnegative_refuted.

Example C50_example :
  exists a, WestAdd numF true (west_new numF) (of_Z 5) (dyad 1 (-3)) = (a, Ok tt) /\
  B2SF (WestMean a) = B2SF (of_Z 5) /\ is_finite (fmul (dyad 1 (-3)) (of_Z 5)) = true.
Proof. eexists. split; [reflexivity|split; vm_compute; reflexivity]. Qed.

(** * C51  NaiveIntegerAccumulator *)

Theorem C51_sum_exact : forall l,
  (sumZ2 l < two63)%Z ->
  exists a, apply_accumulator (NaiveAdd false) l naive_new = (a, Ok tt) /\
  NaiveSum a = sumZ l /\ NaiveCount a = u64 (Z.of_nat (length l)).
Proof. intros l H. eexists. split; [exact (naive_fits l H)|split; reflexivity]. Qed.
Print Assumptions C51_sum_exact.

Theorem C51_overflow_is_undefined : forall l,
  (two63 <= sumZ2 l)%Z -> snd (apply_accumulator (NaiveAdd false) l naive_new) = UB.
Proof. exact naive_overflows. Qed.
Print Assumptions C51_overflow_is_undefined.

Theorem C51_mean : forall l a,
  (sumZ2 l <= 2 ^ 53)%Z -> (0 < Z.of_nat (length l) <= 2 ^ 53)%Z ->
  apply_accumulator (NaiveAdd false) l naive_new = (a, Ok tt) ->
  RR (NaiveMean a) = rnd (IZR (sumZ l) / INR (length l)).
Proof. intros l a H1 H2. exact (naive_mean l H1 H2 a). Qed.
Print Assumptions C51_mean.

(** What Variance computes; the variance would need the factor count on the sum of squares. *)
Theorem C51_variance_formula : forall l a corrected,
  (2 <= Z.of_nat (length l) <= 2 ^ 26)%Z -> (sumZ2 l + sumZ l * sumZ l <= 2 ^ 53)%Z ->
  apply_accumulator (NaiveAdd false) l naive_new = (a, Ok tt) ->
  exists v, NaiveVariance corrected a = Ok v /\ fin v /\
  RR v = rnd (IZR (sumZ2 l - sumZ l * sumZ l) /
              (INR (length l) * (if corrected then INR (length l) - 1 else INR (length l)))).
Proof. intros l a c H1 H2 Ha. exact (naive_variance l H1 H2 a Ha c). Qed.
Print Assumptions C51_variance_formula.

Theorem C51_variance_refuted : exists l a v,
  apply_accumulator (NaiveAdd false) l naive_new = (a, Ok tt) /\
  sq_devs (map IZR l) = 0 /\
  NaiveVariance true a = Ok v /\ flt v f0 = true /\
  exists s, NaiveStandardDeviation true a = Ok s /\ is_nan s = true.
Proof.
  exists [1; 1]%Z. eexists. eexists. split; [vm_compute; reflexivity|].
  split; [unfold sq_devs, meanR, sumR; cbn; lra|].
  split; [reflexivity|]. split; [vm_compute; reflexivity|].
  eexists. split; [reflexivity|vm_compute; reflexivity].
Qed.
Print Assumptions C51_variance_refuted.

Theorem C51_checked_add_never_succeeds : forall a x,
  fst (NaiveAdd true a x) = a /\
  (snd (NaiveAdd true a x) = Throw ExAccumulatorOverflow \/ snd (NaiveAdd true a x) = UB).
Proof. intros a x. split; [apply naive_checked_state|apply naive_checked]. Qed.
Print Assumptions C51_checked_add_never_succeeds.

Example C51_example :
  (sumZ2 [3; -4; 5] < two63)%Z /\
  apply_accumulator (NaiveAdd false) [3; -4; 5]%Z naive_new = (mkNaive 4 50 3, Ok tt) /\
  snd (NaiveAdd true naive_new 1) = Throw ExAccumulatorOverflow /\
  snd (apply_accumulator (NaiveAdd false) [2 ^ 31; 2 ^ 31; 2 ^ 31]%Z naive_new) = UB.
Proof. split; [reflexivity|]. split; [reflexivity|]. split; reflexivity. Qed.

(** * C52  Archives: loading over any object b restores the saved one *)

Theorem C52_kahan_archive : forall a b rest, kahan_load b (kahan_save a ++ rest) = Some (a, rest).
Proof. intros [s c n] b rest. reflexivity. Qed.
Print Assumptions C52_kahan_archive.
Theorem C52_neumaier_archive : forall a b rest, neumaier_load b (neumaier_save a ++ rest) = Some (a, rest).
Proof. intros [s c n] b rest. reflexivity. Qed.
Print Assumptions C52_neumaier_archive.
Theorem C52_knuth_welford_archive : forall a b rest, kw_load b (kw_save a ++ rest) = Some (a, rest).
Proof. intros [s c n] b rest. reflexivity. Qed.
Print Assumptions C52_knuth_welford_archive.
Theorem C52_west_archive : forall a b rest, west_load b (west_save a ++ rest) = Some (a, rest).
Proof. intros [s s2 m m2 n] b rest. reflexivity. Qed.
Print Assumptions C52_west_archive.
Theorem C52_naive_archive : forall a b rest, naive_load b (naive_save a ++ rest) = Some (a, rest).
Proof. intros [s c n] b rest. reflexivity. Qed.
Print Assumptions C52_naive_archive.

Example C52_example :
  let a := mkKw f1 (of_Z 2) 3 in
  kw_load (kw_new numF) (kw_save a ++ [TU 7]) = Some (a, [TU 7]) /\
  kw_load (kw_new numF) [TD f1] = None.
Proof. split; reflexivity. Qed.
