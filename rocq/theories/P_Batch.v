(** C117: results of batches of measurements combine to those of all measurements. *)
From Coq Require Import ZArith Reals List Bool Lia Lra.
From Flocq Require Import Core.Core IEEE754.BinarySingleNaN.
From Verif Require Import Base F64 Num M_Archive M_Accum S_Accum S_Agree L_Sum L_Accum L_Agree L_Welford P_Accum P_Welford P_West M_Obs S_Obs S_ObsFile L_Batch.
Import ListNotations.
Open Scope R_scope.

(** Each batch has its own KnuthWelfordAccumulator; a WestAccumulator is given the mean
    of each batch with the count as the weight. *)
Theorem C117_batches : forall chk chk' chk'' ls accs a w,
  Forall2 (fun l b => apply_accumulator (KwAdd numR chk) l (kw_new numR) = (b, Ok tt)) ls accs ->
  apply_accumulator (KwAdd numR chk') (concat ls) (kw_new numR) = (a, Ok tt) ->
  apply_accumulator (fun a p => WestAdd numR chk'' a (fst p) (snd p)) (map (fun b => (KwMean b, IZR (KwCount b))) accs) (west_new numR) = (w, Ok tt) ->
  ls <> [] -> Forall (fun l => l <> []) ls -> (Z.of_nat (length (concat ls)) < two64)%Z ->
  WestMean w = KwMean a /\ WestSum numR w = KwSum numR a /\
  ((2 <= length ls)%nat -> Forall (fun l => (2 <= length l)%nat) ls ->
   KwScaledVariance numR a = sumR (map (KwScaledVariance numR) accs) + IZR (KwCount a) * WestPopulationVariance numR w).
Proof.
  intros chk chk' chk'' ls accs a w Hb Ha Hw N F L.
  assert (Lc : forall l, In l ls -> (Z.of_nat (length l) < two64)%Z) by (intros l Hl; pose proof (concat_part ls l Hl); lia).
  assert (W : map (fun b => (KwMean b, IZR (KwCount b))) accs = weighted ls /\
              (Forall (fun l => (2 <= length l)%nat) ls -> map (KwScaledVariance numR) accs = map sq_devs ls)).
  { clear Ha Hw N L. induction Hb as [|l b ls accs H Hb IH]; [split; reflexivity|]. inversion F; subst.
    destruct IH as [I1 I2]; [assumption|intros; apply Lc; now right|]. specialize (Lc l (or_introl eq_refl)).
    assert (1 <= length l)%nat by (destruct l; [congruence|cbn; lia]).
    pose proof H as H'. apply (apply_fold _ (kw_step numR)) in H'; [|add_cases].
    destruct (C47_knuth_welford_moments _ _ _ H ltac:(lia)) as [M _].
    assert (C : KwCount b = Z.of_nat (length l)) by (unfold KwCount; rewrite H'; fold (kwR_of l); rewrite kwR_count; apply u64_small; lia).
    cbn [map weighted]. fold (weighted ls). rewrite I1, M, C, <- INR_IZR_INZ. split; [reflexivity|].
    intros Q. inversion Q; subst. f_equal; [|now apply I2]. now destruct (C47_knuth_welford_variance _ _ _ H ltac:(lia)). }
  destruct W as [W V]. rewrite W in Hw.
  assert (Nw : weighted ls <> []) by (destruct ls; [congruence|discriminate]).
  assert (Lw : length (weighted ls) = length ls) by apply map_length.
  pose proof (concat_longer ls F) as Q. assert (1 <= length ls)%nat by (destruct ls; [congruence|cbn; lia]).
  destruct (C47_knuth_welford_moments _ _ _ Ha ltac:(lia)) as [M S].
  destruct (C49_west_mean _ _ _ Hw ltac:(lia)) as (M' & S' & _); [now rewrite weighted_positive|]. rewrite weighted_positive in M', S' by exact F.
  rewrite M, M', S, S'. split; [now apply weighted_mean|]. split; [now apply weighted_sum|]. intros L2 F2.
  destruct (C47_knuth_welford_variance _ _ _ Ha ltac:(lia)) as (SV & _). rewrite SV, (V F2), (weighted_devs ls F). f_equal.
  destruct (C49_west_variances _ _ _ Hw ltac:(lia)) as (P0 & _); [rewrite weighted_positive by exact F; lia|]. cbv zeta in P0. rewrite weighted_positive in P0 by exact F.
  pose proof Ha as H'. apply (apply_fold _ (kw_step numR)) in H'; [|add_cases].
  assert (C : KwCount a = Z.of_nat (length (concat ls))) by (unfold KwCount; rewrite H'; fold (kwR_of (concat ls)); rewrite kwR_count; apply u64_small; lia).
  rewrite P0, weighted_total, C, <- INR_IZR_INZ. assert (0 < INR (length (concat ls))) by (apply lt_0_INR; lia). field. lra.
Qed.
Print Assumptions C117_batches.
(** 1, 3 | 5, 5, 8: the squared deviations 27.2 are 2 + 6 within and 19.2 between. *)
Example C117_batches_ex :
  sq_devs (concat [[1; 3]; [5; 5; 8]]) = 27.2 /\ sumR (map sq_devs [[1; 3]; [5; 5; 8]]) = 8 /\ wsq_devs (weighted [[1; 3]; [5; 5; 8]]) = 19.2.
Proof.
  unfold sq_devs, wsq_devs, wmean, wsum, total_weight, weighted, sq_devs, meanR, sumR. cbn [concat app map length fold_right fst snd INR]. repeat split; lra.
Qed.

(** Batches of the same size: one accumulator of the means is enough.  Its variance is
    what is left of the whole variance without the mean variance of the batches. *)
Theorem C117_equal_batches : forall chk chk' chk'' ls accs a b m,
  Forall2 (fun l b => apply_accumulator (KwAdd numR chk) l (kw_new numR) = (b, Ok tt)) ls accs ->
  apply_accumulator (KwAdd numR chk') (concat ls) (kw_new numR) = (a, Ok tt) ->
  apply_accumulator (KwAdd numR chk'') (map KwMean accs) (kw_new numR) = (b, Ok tt) ->
  ls <> [] -> Forall (fun l => length l = m) ls -> (1 <= m)%nat -> (Z.of_nat (length (concat ls)) < two64)%Z ->
  KwMean b = KwMean a /\
  ((2 <= length ls)%nat -> (2 <= m)%nat ->
   KwVariance numR false a = meanR (map (KwVariance numR false) accs) + KwVariance numR false b /\
   KwVariance numR false b <= KwVariance numR false a).
Proof.
  intros chk chk' chk'' ls accs a b m Hb Ha Hm N F Pm L.
  assert (Lc : forall l, In l ls -> (Z.of_nat (length l) < two64)%Z) by (intros l Hl; pose proof (concat_part ls l Hl); lia).
  assert (W : map KwMean accs = map meanR ls /\ ((2 <= m)%nat -> map (KwVariance numR false) accs = map (fun l => sq_devs l / INR m) ls)).
  { clear Ha Hm N L. induction Hb as [|l b' ls accs H Hb IH]; [split; reflexivity|]. inversion F; subst.
    destruct IH as [I1 I2]; [assumption|intros; apply Lc; now right|]. specialize (Lc l (or_introl eq_refl)).
    destruct (C47_knuth_welford_moments _ _ _ H ltac:(lia)) as [M _]. cbn [map]. rewrite I1, M. split; [reflexivity|].
    intros Q. f_equal; [|now apply I2]. now destruct (C47_knuth_welford_variance _ _ _ H ltac:(lia)) as (_ & _ & -> & _). }
  destruct W as [W V]. rewrite W in Hm. pose proof (equal_length ls m F) as Q. assert (1 <= length ls)%nat by (destruct ls; [congruence|cbn; lia]).
  assert (length ls <= length (concat ls))%nat by nia. pose proof (map_length meanR ls) as Lm.
  destruct (C47_knuth_welford_moments _ _ _ Ha ltac:(lia)) as [M _]. destruct (C47_knuth_welford_moments _ _ _ Hm ltac:(lia)) as [M' _].
  rewrite M, M'. split; [symmetry; now apply (equal_mean ls m)|]. intros L2 M2.
  destruct (C47_knuth_welford_variance _ _ _ Ha ltac:(lia)) as (_ & _ & V0 & _). destruct (C47_knuth_welford_variance _ _ _ Hm ltac:(lia)) as (_ & _ & V1 & _).
  rewrite V0, V1, (V M2), (equal_devs ls m F Pm), Q, mult_INR, Lm. replace (meanR (map (fun l => sq_devs l / INR m) ls)) with (sumR (map (fun l => sq_devs l / INR m) ls) / INR (length ls)) by (unfold meanR; now rewrite map_length).
  replace (map (fun l => sq_devs l / INR m) ls) with (map (fun l => / INR m * sq_devs l) ls) by (apply map_ext; intros; unfold Rdiv; ring).
  assert (S : sumR (map (fun l => / INR m * sq_devs l) ls) = / INR m * sumR (map sq_devs ls)).
  { clear. induction ls as [|l ls IH]; [cbn; ring|]. cbn [map]. rewrite !sum_cons, IH. ring. }
  assert (P : 0 <= sumR (map sq_devs ls)).
  { clear. induction ls as [|l ls IH]; [cbn; lra|]. cbn [map]. rewrite sum_cons. enough (0 <= sq_devs l) by lra. unfold sq_devs. generalize (meanR l). intros c.
    induction l as [|x l IHl]; [cbn; lra|]. cbn [map]. rewrite sum_cons. pose proof (pow2_ge_0 (x - c)). lra. }
  assert (Pm' : 0 < INR m) by (apply lt_0_INR; lia). assert (Pl : 0 < INR (length ls)) by (apply lt_0_INR; lia).
  rewrite S. assert (E : (sumR (map sq_devs ls) + INR m * sq_devs (map meanR ls)) / (INR m * INR (length ls)) =
    / INR m * sumR (map sq_devs ls) / INR (length ls) + sq_devs (map meanR ls) / INR (length ls)) by (field; lra).
  split; [exact E|]. rewrite E. enough (0 <= / INR m * sumR (map sq_devs ls) / INR (length ls)) by lra.
  apply Rmult_le_pos; [|left; now apply Rinv_0_lt_compat]. apply Rmult_le_pos; [left; now apply Rinv_0_lt_compat|exact P].
Qed.
Print Assumptions C117_equal_batches.
(** 1, 3 | 5, 7: variance 5 = 1 + 4. *)
Example C117_equal_batches_ex :
  sq_devs (concat [[1; 3]; [5; 7]]) / 4 = 5 /\ meanR (map (fun l => sq_devs l / 2) [[1; 3]; [5; 7]]) = 1 /\ sq_devs (map meanR [[1; 3]; [5; 7]]) / 2 = 4.
Proof. unfold sq_devs, meanR, sumR. cbn [concat app map length fold_right fst snd INR]. repeat split; lra. Qed.

(** With batches of different sizes the mean of the means is another one. *)
Theorem C117_unequal_refuted :
  feq (KwMean (fst (apply_accumulator (KwAdd numF true) [of_Z 0; of_Z 3; of_Z 3] (kw_new numF))))
      (KwMean (fst (apply_accumulator (KwAdd numF true) [of_Z 0; of_Z 3] (kw_new numF)))) = false /\
  B2SF (KwMean (fst (apply_accumulator (KwAdd numF true) [of_Z 3; of_Z 3] (kw_new numF)))) = B2SF (of_Z 3).
Proof. split; vm_compute; reflexivity. Qed.
Print Assumptions C117_unequal_refuted.

Lemma batch_means chk ls accs B :
  Forall2 (fun l a => apply_accumulator (KahanAdd numF chk) l (kahan_new numF) = (a, Ok tt)) ls accs ->
  Forall (fun l => l <> []) ls -> (Z.of_nat (length (concat ls)) <= 2 ^ 49)%Z ->
  Forall (fun x => fin x /\ Rabs (RR x) <= B) (concat ls) -> bpow radix2 (-900) <= B <= bpow radix2 960 ->
  accs = map kahan_after ls /\
  Forall (fun l => KahanCount (kahan_after l) = Z.of_nat (length l) /\ fin (KahanMean numF (kahan_after l)) /\
    Rabs (RR (KahanMean numF (kahan_after l)) - meanR (map RR l)) <= 7 * uro * B /\ Rabs (RR (KahanMean numF (kahan_after l))) <= (1 + 7 * uro) * B) ls.
Proof.
  intros H F L Fx HB. induction H as [|l a ls accs H Hb IH]; [split; [reflexivity|constructor]|]. inversion F; subst.
  cbn [concat] in L, Fx. rewrite app_length in L. apply Forall_app in Fx as [Fl Fx]. destruct IH as [E G]; [assumption|lia|exact Fx|].
  assert (1 <= length l)%nat by (destruct l; [congruence|cbn; lia]).
  destruct (C87_kahan_mean _ _ _ B H ltac:(lia) Fl HB) as [Hf He].
  apply (apply_fold _ (kahan_step numF)) in H; [|add_cases]. assert (Ea : a = kahan_after l) by exact H. clear H. subst a.
  split; [cbn [map]; now rewrite E|]. constructor; [|exact G]. split.
  - unfold KahanCount, kahan_after. rewrite (count_mod (kahan_step numF) k_count (kahan_new numF)) by reflexivity. apply u64_small. unfold two64. lia.
  - split; [exact Hf|]. split; [exact He|]. assert (Hm : Rabs (meanR (map RR l)) <= B).
    { apply mean_bound; [destruct l; [congruence|discriminate]|]. apply Forall_map. eapply Forall_impl; [|exact Fl]. now intros x [_ Hx]. }
    replace (RR (KahanMean numF (kahan_after l))) with ((RR (KahanMean numF (kahan_after l)) - meanR (map RR l)) + meanR (map RR l)) by ring.
    eapply Rle_trans; [apply Rabs_triang|]. lra.
Qed.

Lemma batch_concat ls : meanR (map RR (concat ls)) = meanR (concat (map (map RR) ls)).
Proof. now rewrite concat_map. Qed.

(** The same in doubles, with the means of KahanAccumulators: the error grows with the
    number of batches, not with the number of measurements. *)
Theorem C117_batches_in_doubles : forall chk chk' ls accs w B,
  Forall2 (fun l a => apply_accumulator (KahanAdd numF chk) l (kahan_new numF) = (a, Ok tt)) ls accs ->
  apply_accumulator (fun a p => WestAdd numF chk' a (fst p) (snd p)) (map (fun a => (KahanMean numF a, of_Z (KahanCount a))) accs) (west_new numF) = (w, Ok tt) ->
  ls <> [] -> Forall (fun l => l <> []) ls -> (Z.of_nat (length (concat ls)) <= 2 ^ 49)%Z ->
  Forall (fun x => fin x /\ Rabs (RR x) <= B) (concat ls) -> bpow radix2 (-900) <= B <= bpow radix2 490 ->
  fin (WestMean w) /\ Rabs (RR (WestMean w) - meanR (map RR (concat ls))) <= uro * ((18 * INR (length ls) + 28) * B).
Proof.
  intros chk chk' ls accs w B H Hw N F L Fx HB.
  assert (Hu : 0 < uro <= / 1000) by (unfold uro; cbn; lra).
  assert (HB2 : bpow radix2 490 <= bpow radix2 960) by (apply bpow_le; lia).
  assert (HB0 : 0 < B) by (pose proof (bpow_gt_0 radix2 (-900)); lra).
  destruct (batch_means chk ls accs B H F L Fx ltac:(lra)) as [E G]. subst accs. clear H. rewrite map_map in Hw.
  set (m := fun l => KahanMean numF (kahan_after l)) in *.
  pose proof (concat_longer ls F) as Q. assert (1 <= length ls)%nat by (destruct ls; [congruence|cbn; lia]).
  rewrite Forall_forall in G, F.
  assert (Cn : forall l, In l ls -> RR (of_Z (KahanCount (kahan_after l))) = INR (length l) /\ fin (of_Z (KahanCount (kahan_after l)))).
  { intros l Hl. destruct (G l Hl) as [C _]. pose proof (concat_part ls l Hl). destruct (of_Z_exact (KahanCount (kahan_after l))) as [E1 E2]; [rewrite C; lia|].
    split; [|exact E2]. rewrite E1, C. symmetry. apply INR_IZR_INZ. }
  set (ps := map (fun l => (KahanMean numF (kahan_after l), of_Z (KahanCount (kahan_after l)))) ls) in *.
  assert (Es : map (fun p => (RR (fst p), RR (snd p))) ps = map (fun l => (RR (m l), INR (length l))) ls).
  { unfold ps. rewrite map_map. apply map_ext_in. intros l Hl. cbn [fst snd]. now rewrite (proj1 (Cn l Hl)). }
  assert (Ep : positive_weights (map (fun l => (RR (m l), INR (length l))) ls) = map (fun l => (RR (m l), INR (length l))) ls).
  { apply positive_all. apply Forall_map, Forall_forall. intros l Hl. cbn [snd]. apply INR_pos. now apply F. }
  assert (T : total_weight (map (fun l => (RR (m l), INR (length l))) ls) = INR (length (concat ls))).
  { unfold total_weight. rewrite map_map, length_concat. reflexivity. }
  assert (HB' : (1 + 7 * uro) * B <= bpow radix2 500).
  { apply Rle_trans with (2 * bpow radix2 490); [nra|]. change (2 * bpow radix2 490) with (bpow radix2 1 * bpow radix2 490). rewrite <- bpow_plus. apply bpow_le. lia. }
  destruct (C88_west_mean _ _ _ (- ((1 + 7 * uro) * B)) ((1 + 7 * uro) * B) ((1 + 7 * uro) * B) Hw) as [Fw Ew].
  - unfold ps. apply Forall_map, Forall_forall. intros l Hl. now apply Cn.
  - intros x v Hx _. unfold ps in Hx. apply in_map_iff in Hx as (l & [= <- <-] & Hl). destruct (G l Hl) as (_ & Hf & _ & Hb). split; [exact Hf|]. now apply Rabs_le_inv.
  - lra.
  - lra.
  - split; [nra|exact HB'].
  - rewrite Es, Ep, map_length. lia.
  - rewrite Es, Ep, T. apply Rle_trans with (bpow radix2 49); [|apply bpow_le; lia]. rewrite INR_IZR_INZ. apply (IZR_le _ (2 ^ 49)). exact L.
  - split; [exact Fw|]. rewrite Es, Ep, map_length in Ew.
    assert (D : Rabs (wmean (map (fun l => (RR (m l), INR (length l))) ls) - meanR (map RR (concat ls))) <= 7 * uro * B).
    { rewrite batch_concat.
      assert (El : map (fun l => (RR (m l), INR (length l))) ls = map (fun l => (RR (m l), INR (length (map RR l)))) ls) by (apply map_ext; intros; now rewrite map_length).
      rewrite El. apply (near_weighted (map RR) (fun l => RR (m l))); [exact N| |]; apply Forall_forall; intros l Hl.
      - specialize (F l Hl). destruct l; [congruence|discriminate].
      - destruct (G l Hl) as (_ & _ & He & _). exact He. }
    set (W := wmean _) in *. set (M := meanR _) in *. pose proof (pos_INR (length ls)) as Pn. set (n := INR (length ls)) in *.
    replace (RR (WestMean w) - M) with ((RR (WestMean w) - W) + (W - M)) by ring. eapply Rle_trans; [apply Rabs_triang|].
    eapply Rle_trans; [apply Rplus_le_compat; [exact Ew|exact D]|].
    replace (7 * uro * B) with (uro * (7 * B)) by ring. rewrite <- Rmult_plus_distr_l. apply Rmult_le_compat_l; [lra|].
    assert (Hk : (1 + 7 * uro) * B <= 1.01 * B) by nra. set (B' := (1 + 7 * uro) * B) in *. nra.
Qed.
Print Assumptions C117_batches_in_doubles.
(** 1/10 ten times and 1/4 three times, as 53-bit doubles; the mean of all is found exactly as that of one accumulator. *)
Example C117_batches_in_doubles_ex :
  let x := fdiv (of_Z 1) (of_Z 10) in let y := fdiv (of_Z 1) (of_Z 4) in
  let mean l := fst (apply_accumulator (KahanAdd numF true) l (kahan_new numF)) in
  let w := fst (apply_accumulator (fun a p => WestAdd numF true a (fst p) (snd p))
    (map (fun a => (KahanMean numF a, of_Z (KahanCount a))) [mean (repeat x 10); mean (repeat y 3)]) (west_new numF)) in
  flt (fabs (fsub (WestMean w) (KahanMean numF (mean (repeat x 10 ++ repeat y 3))))) (dyad 1 (-54)) = true /\ flt (of_Z 0) (WestMean w) = true.
Proof. vm_compute. split; reflexivity. Qed.

(** Equal batches. *)
Theorem C117_equal_batches_in_doubles : forall chk chk' ls accs b B m,
  Forall2 (fun l a => apply_accumulator (KahanAdd numF chk) l (kahan_new numF) = (a, Ok tt)) ls accs ->
  apply_accumulator (KwAdd numF chk') (map (KahanMean numF) accs) (kw_new numF) = (b, Ok tt) ->
  ls <> [] -> Forall (fun l => length l = m) ls -> (1 <= m)%nat -> (Z.of_nat (length (concat ls)) <= 2 ^ 49)%Z ->
  Forall (fun x => fin x /\ Rabs (RR x) <= B) (concat ls) -> bpow radix2 (-900) <= B <= bpow radix2 490 ->
  fin (KwMean b) /\ Rabs (RR (KwMean b) - meanR (map RR (concat ls))) <= uro * ((INR (length ls) + 16) * B).
Proof.
  intros chk chk' ls accs b B m H Hb N Fm Pm L Fx HB.
  assert (Hu : 0 < uro <= / 1000) by (unfold uro; cbn; lra).
  assert (HB2 : bpow radix2 490 <= bpow radix2 960) by (apply bpow_le; lia).
  assert (HB0 : 0 < B) by (pose proof (bpow_gt_0 radix2 (-900)); lra).
  assert (F : Forall (fun l : list f64 => l <> []) ls) by (eapply Forall_impl; [|exact Fm]; cbn; intros l E ->; cbn in E; lia).
  destruct (batch_means chk ls accs B H F L Fx ltac:(lra)) as [E G]. subst accs. clear H. rewrite map_map in Hb.
  pose proof (concat_longer ls F) as Q. assert (1 <= length ls)%nat by (destruct ls; [congruence|cbn; lia]).
  assert (HB' : (1 + 7 * uro) * B <= bpow radix2 1022).
  { apply Rle_trans with (2 * bpow radix2 490); [nra|]. change (2 * bpow radix2 490) with (bpow radix2 1 * bpow radix2 490). rewrite <- bpow_plus. apply bpow_le. lia. }
  destruct (C87_welford_mean _ _ _ (- ((1 + 7 * uro) * B)) ((1 + 7 * uro) * B) ((1 + 7 * uro) * B) Hb) as [Fb Eb].
  - rewrite map_length. lia.
  - apply Forall_map. eapply Forall_impl; [|exact G]. intros l (_ & Hf & _ & Hx). split; [exact Hf|]. now apply Rabs_le_inv.
  - lra.
  - lra.
  - split; [nra|exact HB'].
  - split; [exact Fb|]. rewrite !map_length in Eb.
    assert (D : Rabs (meanR (map RR (map (fun l => KahanMean numF (kahan_after l)) ls)) - meanR (map RR (concat ls))) <= 7 * uro * B).
    { rewrite batch_concat, (equal_mean _ m); [|apply Forall_map; eapply Forall_impl; [|exact Fm]; cbn; intros l El; now rewrite map_length|lia].
      rewrite map_map. assert (Pl : 0 < INR (length ls)) by (apply lt_0_INR; lia).
      replace (meanR (map (fun x => RR (KahanMean numF (kahan_after x))) ls) - meanR (map meanR (map (map RR) ls))) with
        (meanR (map (fun l => RR (KahanMean numF (kahan_after l)) - meanR (map RR l)) ls)).
      - apply mean_bound; [destruct ls; [congruence|discriminate]|]. apply Forall_map. eapply Forall_impl; [|exact G]. cbn. intros l (_ & _ & He & _). exact He.
      - rewrite map_map. unfold meanR at 1 3 4. rewrite !map_length. unfold Rdiv. rewrite <- Rmult_minus_distr_r. f_equal.
        clear. induction ls as [|l ls IH]; [cbn; ring|]. cbn [map]. rewrite !sum_cons, IH. ring. }
    cbv zeta in Eb. set (M := meanR (map RR (concat ls))) in *. set (W := meanR (map RR (map (fun l => KahanMean numF (kahan_after l)) ls))) in *. pose proof (pos_INR (length ls)) as Pn. set (n := INR (length ls)) in *.
    replace (RR (KwMean b) - M) with ((RR (KwMean b) - W) + (W - M)) by ring. eapply Rle_trans; [apply Rabs_triang|].
    eapply Rle_trans; [apply Rplus_le_compat; [exact Eb|exact D]|].
    replace (7 * uro * B) with (uro * (7 * B)) by ring. rewrite <- Rmult_plus_distr_l. apply Rmult_le_compat_l; [lra|].
    assert (Hk : (1 + 7 * uro) * B <= 1.01 * B) by nra. set (B' := (1 + 7 * uro) * B) in *. nra.
Qed.
Print Assumptions C117_equal_batches_in_doubles.
(** Three batches of two. *)
Example C117_equal_batches_in_doubles_ex :
  let mean l := KahanMean numF (fst (apply_accumulator (KahanAdd numF true) (map of_Z l) (kahan_new numF))) in
  B2SF (KwMean (fst (apply_accumulator (KwAdd numF true) [mean [1; 2]; mean [3; 4]; mean [7; 7]]%Z (kw_new numF)))) = B2SF (mean [1; 2; 3; 4; 7; 7]%Z).
Proof. vm_compute. reflexivity. Qed.

(** The rows of an ObservableGroup: their means, weighted with the column Count (which
    belongs to the first observable k0), give the mean of everything measured, if k was
    measured as often as k0 before each print. *)
Theorem C117_rows : forall {K} (same : K -> K -> bool) k0 k (h : list (ogcall (K:=K))) h' p chk w B,
  h = h' ++ [OPrint p] -> 
  Forall (fun e => length (measured same k (snd e)) = length (measured same k0 (snd e)) /\ measured same k (snd e) <> []) (segments [] h) ->
  (Z.of_nat (length (measured same k h)) <= 2 ^ 49)%Z ->
  Forall (fun x => fin x /\ Rabs (RR x) <= B) (measured same k h) -> bpow radix2 (-900) <= B <= bpow radix2 490 ->
  apply_accumulator (fun a r => WestAdd numF chk a (fst r) (snd r))
    (map (fun e => (KahanMean numF (kahan_after (measured same k (snd e))), of_Z (Z.of_nat (length (measured same k0 (snd e)))))) (segments [] h))
    (west_new numF) = (w, Ok tt) ->
  fin (WestMean w) /\
  Rabs (RR (WestMean w) - meanR (map RR (measured same k h))) <= uro * ((18 * INR (length (segments [] h)) + 28) * B).
Proof.
  intros K same k0 k h h' p chk w B Eh F L Fx HB Hw.
  destruct (measured_segments same k h []) as (rest & E & Z). cbn [measured app] in E. rewrite (Z h' p Eh), app_nil_r in E.
  set (ls := map (fun e => measured same k (snd e)) (segments [] h)) in *.
  assert (N : ls <> []).
  { unfold ls. rewrite Eh. clear. enough (G : forall old, segments old (h' ++ [OPrint p]) <> []).
    { specialize (G []). destruct (segments [] (h' ++ [OPrint p])); [congruence|discriminate]. }
    induction h' as [|c h IH]; intros old; [discriminate|]. destruct c; cbn [app segments]; try apply IH. discriminate. }
  assert (Nl : Forall (fun l => l <> []) ls) by (apply Forall_map; eapply Forall_impl; [|exact F]; now intros e [_ Q]).
  rewrite E in L, Fx |- *.
  assert (Ll : length (segments [] h) = length ls) by (symmetry; apply map_length). rewrite Ll.
  apply (C117_batches_in_doubles false chk ls (map kahan_after ls) w B); try assumption.
  - clear. induction ls as [|l ls IH]; constructor; [|exact IH]. rewrite (apply_step (KahanAdd numF false) (kahan_step numF)) by reflexivity. reflexivity.
  - rewrite <- Hw. f_equal. unfold ls. rewrite !map_map. apply map_ext_in. intros e He. rewrite Forall_forall in F. destruct (F e He) as [Q _].
    f_equal. f_equal. rewrite <- Q. unfold KahanCount, kahan_after. rewrite (count_mod (kahan_step numF) k_count (kahan_new numF)) by reflexivity.
    apply u64_small. pose proof (concat_part ls _ (in_map (fun e => measured same k (snd e)) _ e He)). unfold two64. lia.
Qed.
Print Assumptions C117_rows.
(** Two observables, two rows. *)
Example C117_rows_ex :
  let h := [OMeasure 1%Z f1; OMeasure 2%Z (of_Z 4); OPrint 3; OMeasure 2%Z (of_Z 7); OMeasure 1%Z f1; OMeasure 2%Z (of_Z 10); OMeasure 1%Z f1; OPrint 3] in
  length (segments [] h) = 2%nat /\
  B2SF (WestMean (fst (apply_accumulator (fun a r => WestAdd numF true a (fst r) (snd r))
    (map (fun e => (KahanMean numF (kahan_after (measured Z.eqb 2%Z (snd e))), of_Z (Z.of_nat (length (measured Z.eqb 1%Z (snd e)))))) (segments [] h))
    (west_new numF)))) = B2SF (of_Z 7).
Proof. split; vm_compute; reflexivity. Qed.
