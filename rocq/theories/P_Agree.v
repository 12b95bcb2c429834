(** C104: accumulators agree with one another and do not depend on the order of
    the data more than their rounding errors. *)
From Coq Require Import ZArith Reals List Bool Lia Lra Permutation.
From Flocq Require Import Core.Core IEEE754.BinarySingleNaN.
From Verif Require Import Base F64 Num M_Archive M_Accum S_Accum S_Agree L_Accum L_Agree P_Accum P_Welford P_West.
Import ListNotations.
Open Scope R_scope.

(** Integer weights are repetitions. *)
Theorem C104_repeated : forall chk chk' l a b,
  apply_accumulator (KwAdd numR chk) (repeated l) (kw_new numR) = (a, Ok tt) ->
  apply_accumulator (fun a p => WestAdd numR chk' a (fst p) (snd p)) (as_weights l) (west_new numR) = (b, Ok tt) ->
  Forall (fun p => (0 < snd p)%nat) l -> l <> [] -> (Z.of_nat (length (repeated l)) < two64)%Z ->
  KwMean a = WestMean b /\ KwSum numR a = WestSum numR b /\
  ((2 <= length l)%nat ->
   KwVariance numR false a = WestPopulationVariance numR b /\ KwVariance numR true a = WestSampleFrequencyVariance numR b).
Proof.
  intros chk chk' l a b Ha Hb F N Hn. pose proof (repeated_longer l F) as Q.
  assert (Ll : (1 <= length l)%nat) by (destruct l; [congruence|cbn; lia]).
  assert (Lw : length (as_weights l) = length l) by apply map_length.
  pose proof (positive_all _ (as_weights_pos l F)) as PW.
  destruct (C47_knuth_welford_moments _ _ _ Ha ltac:(lia)) as [M S].
  assert (Nw : as_weights l <> []) by (destruct l; [congruence|discriminate]).
  destruct (C49_west_mean _ _ _ Hb ltac:(lia)) as (M' & S' & _); [now rewrite PW|]. rewrite PW in M', S'.
  rewrite M, M', S, S'. split; [apply repeated_mean|]. split; [apply repeated_sum|]. intros L2.
  destruct (C47_knuth_welford_variance _ _ _ Ha ltac:(lia)) as (_ & V1 & V0 & _).
  destruct (C49_west_variances _ _ _ Hb ltac:(lia)) as (P0 & P1 & _); [rewrite PW; lia|]. cbv zeta in P0, P1. rewrite PW in P0, P1.
  rewrite V0, V1, P0, P1, repeated_total, repeated_devs. split; reflexivity.
Qed.
Print Assumptions C104_repeated.
(** 1 three times and 5 once. *)
Example C104_repeated_ex :
  repeated [(1, 3%nat); (5, 1%nat)] = [1; 1; 1; 5] /\ as_weights [(1, 3%nat); (5, 1%nat)] = [(1, 1 + 1 + 1); (5, 1)] /\
  B2SF (KwVariance numF true (fst (apply_accumulator (KwAdd numF true) (map of_Z [1; 1; 1; 5]%Z) (kw_new numF)))) = B2SF (of_Z 4) /\
  B2SF (WestSampleFrequencyVariance numF (fst (apply_accumulator (fun a p => WestAdd numF true a (fst p) (snd p))
    [(of_Z 1, of_Z 3); (of_Z 5, of_Z 1)] (west_new numF)))) = B2SF (of_Z 4).
Proof. split; [reflexivity|]. split; [reflexivity|]. split; vm_compute; reflexivity. Qed.

(** One entry of weight two is not two entries: there is no variance. *)
Theorem C104_single_entry_refuted :
  B2SF (KwVariance numF false (fst (apply_accumulator (KwAdd numF true) [f1; f1] (kw_new numF)))) = B2SF f0 /\
  WestPopulationVariance numF (fst (apply_accumulator (fun a p => WestAdd numF true a (fst p) (snd p)) [(f1, of_Z 2)] (west_new numF))) = fnan.
Proof. split; vm_compute; reflexivity. Qed.
Print Assumptions C104_single_entry_refuted.

(** In doubles unit weights are not bit for bit the unweighted accumulator. *)
Theorem C104_unit_weights_refuted : exists l,
  feq (KwMean (fst (apply_accumulator (KwAdd numF true) l (kw_new numF))))
      (WestMean (fst (apply_accumulator (fun a p => WestAdd numF true a (fst p) (snd p)) (map (fun x => (x, f1)) l) (west_new numF)))) = false /\
  forallb is_finite l = true.
Proof. exists (map of_Z [0; 0; 5]%Z). split; vm_compute; reflexivity. Qed.
Print Assumptions C104_unit_weights_refuted.

(** A common factor of all weights does not matter. *)
Theorem C104_reweighted : forall chk chk' c l a b,
  apply_accumulator (fun a p => WestAdd numR chk a (fst p) (snd p)) l (west_new numR) = (a, Ok tt) ->
  apply_accumulator (fun a p => WestAdd numR chk' a (fst p) (snd p)) (reweighted c l) (west_new numR) = (b, Ok tt) ->
  0 < c -> (Z.of_nat (length l) < two64)%Z -> positive_weights l <> [] ->
  WestMean b = WestMean a /\ WestSum numR b = c * WestSum numR a /\ WestCount b = WestCount a /\
  ((2 <= length (positive_weights l))%nat ->
   WestPopulationVariance numR b = WestPopulationVariance numR a /\
   WestSampleReliabilityVariance numR b = WestSampleReliabilityVariance numR a).
Proof.
  intros chk chk' c l a b Ha Hb Hc Hn N. pose proof (reweighted_positive c l Hc) as PW.
  assert (Lr : length (reweighted c l) = length l) by apply map_length.
  pose proof (total_weight_pos _ (positive_weights_pos l) N) as W.
  destruct (C49_west_mean _ _ _ Ha Hn N) as (M & S & C).
  destruct (C49_west_mean _ _ _ Hb ltac:(lia)) as (M' & S' & C'); [rewrite PW; destruct (positive_weights l); [congruence|discriminate]|].
  rewrite PW in M', S', C'. destruct (reweighted_sums c (positive_weights l)) as (E1 & E2 & E3).
  split; [rewrite M, M'; now apply reweighted_mean|]. split; [now rewrite S, S'|].
  split; [rewrite C, C'; unfold reweighted; now rewrite map_length|]. intros L2.
  destruct (C49_west_variances _ _ _ Ha Hn L2) as (P0 & _ & P1).
  destruct (C49_west_variances _ _ _ Hb ltac:(lia)) as (Q0 & _ & Q1); [rewrite PW; unfold reweighted; now rewrite map_length|].
  cbv zeta in *. rewrite PW in Q0, Q1. rewrite P0, P1, Q0, Q1, E2, E3, reweighted_devs by assumption. split; [field; lra|].
  set (w := total_weight (positive_weights l)) in *. set (w2 := total_weight2 (positive_weights l)).
  set (d := wsq_devs (positive_weights l)). replace (c * w - c ^ 2 * w2 / (c * w)) with (c * (w - w2 / w)) by (field; lra).
  set (y := w - w2 / w). unfold Rdiv. rewrite Rinv_mult. replace (c * d * (/ c * / y)) with (c * / c * (d * / y)) by ring.
  rewrite Rinv_r by lra. ring.
Qed.
Print Assumptions C104_reweighted.
Example C104_reweighted_ex :
  reweighted 2 [(1, 3); (4, -1)] = [(1, 2 * 3); (4, 2 * -1)] /\
  B2SF (WestPopulationVariance numF (fst (apply_accumulator (fun a p => WestAdd numF true a (fst p) (snd p))
    [(of_Z 1, of_Z 3); (of_Z 5, of_Z 3); (of_Z 7, of_Z 0)] (west_new numF)))) = B2SF (of_Z 4) /\
  B2SF (WestPopulationVariance numF (fst (apply_accumulator (fun a p => WestAdd numF true a (fst p) (snd p))
    [(of_Z 1, of_Z 6); (of_Z 5, of_Z 6); (of_Z 7, of_Z 0)] (west_new numF)))) = B2SF (of_Z 4).
Proof. split; [reflexivity|]. split; vm_compute; reflexivity. Qed.

(** Exactly, the order of the data does not matter. *)
Theorem C104_order : forall chk chk' l l' a a',
  apply_accumulator (KwAdd numR chk) l (kw_new numR) = (a, Ok tt) ->
  apply_accumulator (KwAdd numR chk') l' (kw_new numR) = (a', Ok tt) ->
  Permutation l l' -> (1 <= Z.of_nat (length l) < two64)%Z ->
  KwMean a' = KwMean a /\ KwSum numR a' = KwSum numR a /\
  ((2 <= length l)%nat -> KwScaledVariance numR a' = KwScaledVariance numR a /\ forall c,
   KwVariance numR c a' = KwVariance numR c a /\ KwStandardDeviation numR c a' = KwStandardDeviation numR c a /\ KwError numR c a' = KwError numR c a).
Proof.
  intros chk chk' l l' a a' Ha Ha' Q Hn. pose proof (Permutation_length Q) as El.
  destruct (C47_knuth_welford_moments _ _ _ Ha Hn) as [M S]. destruct (C47_knuth_welford_moments _ _ _ Ha' ltac:(lia)) as [M' S'].
  split; [rewrite M, M'; symmetry; now apply mean_perm|]. split; [rewrite S, S'; symmetry; now apply sum_perm|]. intros L2.
  destruct (C47_knuth_welford_variance _ _ _ Ha ltac:(lia)) as (S0 & V1 & V0 & D & E).
  destruct (C47_knuth_welford_variance _ _ _ Ha' ltac:(lia)) as (S0' & V1' & V0' & D' & E'). cbv zeta in *.
  pose proof (devs_perm _ _ Q) as DD. split; [rewrite S0, S0'; congruence|]. intros c.
  assert (V : KwVariance numR c a' = KwVariance numR c a) by (destruct c; rewrite ?V0, ?V1, ?V0', ?V1', DD, El; reflexivity).
  split; [exact V|]. rewrite D, D', E, E', V, El. split; reflexivity.
Qed.
Print Assumptions C104_order.
Example C104_order_ex : Permutation [1; 2; 6] [6; 1; 2] /\ sq_devs [1; 2; 6] = 14 /\ sq_devs [6; 1; 2] = 14.
Proof.
  split; [apply Permutation_sym, (Permutation_cons_app [1; 2] [] 6); apply Permutation_refl|].
  split; unfold sq_devs, meanR, sumR; cbn; lra.
Qed.

Theorem C104_weighted_order : forall chk chk' l l' a a',
  apply_accumulator (fun a p => WestAdd numR chk a (fst p) (snd p)) l (west_new numR) = (a, Ok tt) ->
  apply_accumulator (fun a p => WestAdd numR chk' a (fst p) (snd p)) l' (west_new numR) = (a', Ok tt) ->
  Permutation l l' -> (Z.of_nat (length l) < two64)%Z -> positive_weights l <> [] ->
  WestMean a' = WestMean a /\ WestSum numR a' = WestSum numR a /\ WestCount a' = WestCount a /\
  ((2 <= length (positive_weights l))%nat ->
   WestPopulationVariance numR a' = WestPopulationVariance numR a /\
   WestSampleFrequencyVariance numR a' = WestSampleFrequencyVariance numR a /\
   WestSampleReliabilityVariance numR a' = WestSampleReliabilityVariance numR a).
Proof.
  intros chk chk' l l' a a' Ha Ha' Q Hn N. pose proof (Permutation_length Q) as El.
  pose proof (positive_perm _ _ Q) as QP. pose proof (Permutation_length QP) as ElP.
  destruct (wsums_perm _ _ QP) as (E1 & E2 & E3 & E4 & E5).
  destruct (C49_west_mean _ _ _ Ha Hn N) as (M & S & C).
  destruct (C49_west_mean _ _ _ Ha' ltac:(lia)) as (M' & S' & C'); [intros Z; rewrite Z in ElP; destruct (positive_weights l); [congruence|discriminate]|].
  rewrite M, M', S, S', C, C', E1, E4, ElP. repeat (split; [reflexivity|]). intros L2.
  destruct (C49_west_variances _ _ _ Ha Hn ltac:(lia)) as (P0 & P1 & P2).
  destruct (C49_west_variances _ _ _ Ha' ltac:(lia) ltac:(lia)) as (Q0 & Q1 & Q2). cbv zeta in *.
  rewrite P0, P1, P2, Q0, Q1, Q2, E2, E3, E5. repeat split.
Qed.
Print Assumptions C104_weighted_order.
Example C104_weighted_order_ex : Permutation [(1, 1); (4, 2)] [(4, 2); (1, 1)] /\ wmean [(1, 1); (4, 2)] = 3 /\ wmean [(4, 2); (1, 1)] = 3.
Proof. split; [constructor|]. split; unfold wmean, wsum, total_weight, sumR; cbn; lra. Qed.

(** Measurements in other units, or counted from another origin. *)
Theorem C104_affine : forall chk chk' x0 k l a b,
  apply_accumulator (KwAdd numR chk) l (kw_new numR) = (a, Ok tt) ->
  apply_accumulator (KwAdd numR chk') (affine x0 k l) (kw_new numR) = (b, Ok tt) ->
  (1 <= Z.of_nat (length l) < two64)%Z ->
  KwMean b = x0 + k * KwMean a /\
  ((2 <= length l)%nat -> KwScaledVariance numR b = k ^ 2 * KwScaledVariance numR a /\ forall c,
   KwVariance numR c b = k ^ 2 * KwVariance numR c a /\ KwStandardDeviation numR c b = Rabs k * KwStandardDeviation numR c a).
Proof.
  intros chk chk' x0 k l a b Ha Hb Hn. assert (N : l <> []) by (destruct l; [cbn in Hn; lia|discriminate]).
  pose proof (affine_length x0 k l) as El.
  destruct (C47_knuth_welford_moments _ _ _ Ha Hn) as [M _]. destruct (C47_knuth_welford_moments _ _ _ Hb ltac:(lia)) as [M' _].
  split; [rewrite M, M'; now apply mean_affine|]. intros L2.
  destruct (C47_knuth_welford_variance _ _ _ Ha ltac:(lia)) as (S0 & V1 & V0 & D & _).
  destruct (C47_knuth_welford_variance _ _ _ Hb ltac:(lia)) as (S0' & V1' & V0' & D' & _). cbv zeta in *.
  pose proof (devs_affine x0 k l N) as DD. split; [rewrite S0, S0'; exact DD|]. intros c.
  assert (V : KwVariance numR c b = k ^ 2 * KwVariance numR c a).
  { destruct c; rewrite ?V0, ?V1, ?V0', ?V1', DD, El; unfold Rdiv; ring. }
  split; [exact V|]. rewrite D, D', V, sqrt_mult_alt by apply pow2_ge_0. f_equal.
  replace (k ^ 2) with (Rsqr k) by (unfold Rsqr; ring). apply sqrt_Rsqr_abs.
Qed.
Print Assumptions C104_affine.
Example C104_affine_ex :
  affine 1 2 [1; 2; 6] = [1 + 2 * 1; 1 + 2 * 2; 1 + 2 * 6] /\
  B2SF (KwVariance numF true (fst (apply_accumulator (KwAdd numF true) (map of_Z [1; 2; 6]%Z) (kw_new numF)))) = B2SF (of_Z 7) /\
  B2SF (KwVariance numF true (fst (apply_accumulator (KwAdd numF true) (map of_Z [13; 3; 5]%Z) (kw_new numF)))) = B2SF (of_Z 28).
Proof. split; [reflexivity|]. split; vm_compute; reflexivity. Qed.

(** In doubles: means of the same values, taken in any order by any of the
    accumulators, are as near to each other as their errors allow. *)
Theorem C104_means_agree : forall chk1 chk2 chk3 chk4 l1 l2 l3 l4 a1 a2 a3 a4 lo hi B,
  apply_accumulator (KahanAdd numF chk1) l1 (kahan_new numF) = (a1, Ok tt) ->
  apply_accumulator (NeumaierAdd numF chk2) l2 (neumaier_new numF) = (a2, Ok tt) ->
  apply_accumulator (KwAdd numF chk3) l3 (kw_new numF) = (a3, Ok tt) ->
  apply_accumulator (fun a p => WestAdd numF chk4 a (fst p) (snd p)) (map (fun x => (x, f1)) l4) (west_new numF) = (a4, Ok tt) ->
  Permutation l1 l2 -> Permutation l1 l3 -> Permutation l1 l4 -> (1 <= Z.of_nat (length l1) <= 2 ^ 49)%Z ->
  Forall (fun x => fin x /\ lo <= RR x <= hi) l1 -> - B <= lo -> hi <= B -> bpow radix2 (-900) <= B <= bpow radix2 500 ->
  let n := INR (length l1) in
  fin (KahanMean numF a1) /\ fin (NeumaierMean numF a2) /\ fin (KwMean a3) /\ fin (WestMean a4) /\
  Rabs (RR (NeumaierMean numF a2) - RR (KahanMean numF a1)) <= (10 * uro + 6 * (n * uro) ^ 2) * B /\
  Rabs (RR (KwMean a3) - RR (KahanMean numF a1)) <= uro * ((n + 16) / 2 * B + 3 * (hi - lo)) /\
  Rabs (RR (WestMean a4) - RR (KahanMean numF a1)) <= uro * ((5 * n + 7) * B + (6 * n + 10) * (hi - lo)).
Proof.
  intros chk1 chk2 chk3 chk4 l1 l2 l3 l4 a1 a2 a3 a4 lo hi B H1 H2 H3 H4 Q2 Q3 Q4 Hn F Hlo Hhi HB n.
  pose proof (Permutation_length Q2) as L2. pose proof (Permutation_length Q3) as L3. pose proof (Permutation_length Q4) as L4.
  assert (B500 : bpow radix2 500 <= bpow radix2 960) by (apply bpow_le; lia).
  assert (B500' : bpow radix2 500 <= bpow radix2 1022) by (apply bpow_le; lia).
  assert (FB : Forall (fun x => fin x /\ Rabs (RR x) <= B) l1).
  { eapply Forall_impl; [|exact F]. cbn. intros x [Fx Bx]. split; [exact Fx|]. apply Rabs_le. lra. }
  pose proof (Permutation_Forall Q2 FB) as FB2. pose proof (Permutation_Forall Q3 F) as F3. pose proof (Permutation_Forall Q4 F) as F4.
  destruct (C87_kahan_mean _ _ _ B H1 Hn FB ltac:(lra)) as [F1 E1].
  destruct (C87_neumaier_mean _ _ _ B H2 ltac:(lia) FB2 ltac:(lra)) as [F2 E2].
  destruct (C87_welford_mean _ _ _ lo hi B H3 ltac:(lia) F3 Hlo Hhi ltac:(lra)) as [F3' E3].
  rewrite <- (mean_perm _ _ (Permutation_map RR Q2)), <- L2 in E2. rewrite <- (mean_perm _ _ (Permutation_map RR Q3)), <- L3 in E3.
  set (s := positive_weights (map (fun p : f64 * f64 => (RR (fst p), RR (snd p))) (map (fun x => (x, f1)) l4))).
  pose proof RR_f1 as R1.
  assert (Es : s = as_weights (map (fun x => (RR x, 1%nat)) l4)).
  { unfold s. rewrite map_map. cbn [fst snd]. rewrite positive_all.
    - unfold as_weights. rewrite map_map. apply map_ext. intros x. cbn [fst snd INR]. now rewrite R1.
    - apply Forall_map, Forall_forall. intros x _. cbn [snd]. rewrite R1. lra. }
  assert (Er : forall l : list f64, repeated (map (fun x => (RR x, 1%nat)) l) = map RR l).
  { unfold repeated. induction l as [|x l IH]; [reflexivity|]. cbn [map flat_map fst snd repeat app]. now rewrite IH. }
  assert (Em : wmean s = meanR (map RR l1)).
  { rewrite Es, <- repeated_mean, Er. symmetry. apply mean_perm, Permutation_map, Q4. }
  assert (Ls : length s = length l1) by (rewrite Es; unfold as_weights; rewrite !map_length; congruence).
  destruct (C88_west_mean _ _ _ lo hi B H4) as [F4' E4].
  - apply Forall_map, Forall_forall. intros x _. reflexivity.
  - intros x w I _. apply in_map_iff in I as (y & E & I). injection E as -> <-. rewrite Forall_forall in F4. now apply F4.
  - exact Hlo.
  - exact Hhi.
  - lra.
  - fold s. rewrite Ls. lia.
  - fold s. rewrite Es, <- repeated_total, Er, map_length, <- L4. apply Rle_trans with (bpow radix2 49); [|apply bpow_le; lia].
    rewrite INR_IZR_INZ. change (bpow radix2 49) with (IZR (2 ^ 49)). apply IZR_le. lia.
  - fold s in E4. rewrite Ls, Em in E4. fold n in E2, E3, E4. repeat (split; [assumption|]).
    set (m := meanR (map RR l1)) in *. unfold uro in *.
    apply Rabs_le_inv in E1, E2, E3, E4. repeat split; apply Rabs_le; lra.
Qed.
Print Assumptions C104_means_agree.

(** 0.1, 0.2 and 0.3 in two orders. *)
Example C104_means_agree_ex :
  let l := [fdiv f1 (of_Z 10); fdiv f1 (of_Z 5); fdiv (of_Z 3) (of_Z 10)] in
  forallb is_finite l = true /\ forallb (fun x => fle f0 x && fle x f1) l = true /\
  feq (KwMean (fst (apply_accumulator (KwAdd numF true) l (kw_new numF)))) (KwMean (fst (apply_accumulator (KwAdd numF true) (rev l) (kw_new numF)))) = true /\
  feq (fold_left fadd l f0) (fold_left fadd (rev l) f0) = false.
Proof. split; [|split; [|split]]; vm_compute; reflexivity. Qed.

(** The same accumulator on the same values in another order. *)
Theorem C104_reordered : forall chk chk' l l' a a' c c' B,
  apply_accumulator (KahanAdd numF chk) l (kahan_new numF) = (a, Ok tt) ->
  apply_accumulator (KahanAdd numF chk) l' (kahan_new numF) = (a', Ok tt) ->
  apply_accumulator (NeumaierAdd numF chk') l (neumaier_new numF) = (c, Ok tt) ->
  apply_accumulator (NeumaierAdd numF chk') l' (neumaier_new numF) = (c', Ok tt) ->
  Permutation l l' -> (1 <= Z.of_nat (length l) <= 2 ^ 49)%Z ->
  Forall (fun x => fin x /\ Rabs (RR x) <= B) l -> bpow radix2 (-900) <= B <= bpow radix2 960 ->
  Rabs (RR (KahanMean numF a') - RR (KahanMean numF a)) <= 14 * uro * B /\
  Rabs (RR (NeumaierMean numF c') - RR (NeumaierMean numF c)) <= (6 * uro + 12 * (INR (length l) * uro) ^ 2) * B.
Proof.
  intros chk chk' l l' a a' c c' B Ha Ha' Hc Hc' Q Hn F HB. pose proof (Permutation_length Q) as El.
  pose proof (Permutation_Forall Q F) as F'. pose proof (mean_perm _ _ (Permutation_map RR Q)) as Em.
  destruct (C87_kahan_mean _ _ _ B Ha Hn F HB) as [_ E1]. destruct (C87_kahan_mean _ _ _ B Ha' ltac:(lia) F' HB) as [_ E2].
  destruct (C87_neumaier_mean _ _ _ B Hc ltac:(lia) F HB) as [_ E3]. destruct (C87_neumaier_mean _ _ _ B Hc' ltac:(lia) F' HB) as [_ E4].
  rewrite <- Em in E2, E4. rewrite <- El in E4. set (q := (INR (length l) * uro) ^ 2) in *. set (m := meanR (map RR l)) in *. apply Rabs_le_inv in E1, E2, E3, E4. split; apply Rabs_le; lra.
Qed.
Print Assumptions C104_reordered.
Example C104_reordered_ex :
  let l := [f1; dyad 1 53; f1; dyad (-1) 53] in
  let sum l := KahanSum (fst (apply_accumulator (KahanAdd numF true) l (kahan_new numF))) in
  B2SF (sum l) = B2SF (of_Z 2) /\ B2SF (sum (rev l)) = B2SF (of_Z 2) /\ B2SF (fold_left fadd l f0) = B2SF f0.
Proof. split; [|split]; vm_compute; reflexivity. Qed.
