(** Property theorems C88 (accuracy of weighted means and variances).  Nothing
    else is proved here.  [uro] is 2^-53, [RR x] the real value of the double x,
    [fin x] says x is finite; [wmean], [wsum] and [wsq_devs] are the exact
    weighted mean, sum and sum of squared deviations, [positive_weights] keeps
    the entries that count (S_Accum). *)
From Coq Require Import ZArith Reals List Bool Lia Lra.
From Flocq Require Import Core.Core IEEE754.BinarySingleNaN.
From Verif Require Import Base F64 Num M_Archive M_Accum S_Accum L_Accum L_Welford L_West L_West2.
Import ListNotations.
Open Scope R_scope.

(** All weights are finite; the values with a positive weight are finite and lie
    in [lo, hi], which lies in [-B, B].  Entries of weight zero or less may hold
    anything, even NaN. *)
Theorem C88_west_mean : forall chk l a lo hi B,
  apply_accumulator (fun a p => WestAdd numF chk a (fst p) (snd p)) l (west_new numF) = (a, Ok tt) ->
  Forall (fun p => fin (snd p)) l ->
  (forall x w, In (x, w) l -> 0 < RR w -> fin x /\ lo <= RR x <= hi) -> - B <= lo -> hi <= B ->
  bpow radix2 (-900) <= B <= bpow radix2 500 ->
  let s := positive_weights (map (fun p => (RR (fst p), RR (snd p))) l) in
  let n := INR (length s) in
  (1 <= Z.of_nat (length s) <= 2 ^ 49)%Z -> total_weight s <= bpow radix2 500 ->
  fin (WestMean a) /\
  Rabs (RR (WestMean a) - wmean s) <= uro * ((6 * n + 10) * (hi - lo) + 5 * n * B).
Proof.
  intros chk l a lo hi B Ha Fl Hv Hlo Hhi HB s n. apply west_fold in Ha. subst a.
  assert (Hs : reals2 (heavy l) = s) by (apply heavy_positive; exact Fl).
  assert (Hlen : length s = length (heavy l)) by (rewrite <- Hs; apply map_length).
  unfold n. rewrite Hlen, <- Hs.
  intros Hn HW. apply west_mean_final; auto using heavies_of_heavy. lra.
Qed.
Print Assumptions C88_west_mean.

Theorem C88_west_sum : forall chk l a lo hi B,
  apply_accumulator (fun a p => WestAdd numF chk a (fst p) (snd p)) l (west_new numF) = (a, Ok tt) ->
  Forall (fun p => fin (snd p)) l ->
  (forall x w, In (x, w) l -> 0 < RR w -> fin x /\ lo <= RR x <= hi) -> - B <= lo -> hi <= B ->
  bpow radix2 (-900) <= B <= bpow radix2 500 ->
  let s := positive_weights (map (fun p => (RR (fst p), RR (snd p))) l) in
  let n := INR (length s) in
  (1 <= Z.of_nat (length s) <= 2 ^ 49)%Z -> bpow radix2 (-100) <= total_weight s <= bpow radix2 500 ->
  fin (WestSum numF a) /\
  Rabs (RR (WestSum numF a) - wsum s) <=
    uro * total_weight s * ((12 * n + 20) * (hi - lo) + (12 * n + 5) * B).
Proof.
  intros chk l a lo hi B Ha Fl Hv Hlo Hhi HB s n. apply west_fold in Ha. subst a.
  assert (Hs : reals2 (heavy l) = s) by (apply heavy_positive; exact Fl).
  assert (Hlen : length s = length (heavy l)) by (rewrite <- Hs; apply map_length).
  unfold n. rewrite Hlen, <- Hs.
  intros Hn HW. destruct (west_sum_error lo hi B (heavy l)) as [F E]; auto using heavies_of_heavy; [lra|].
  split; [exact F|]. apply Rle_trans with (1 := E). right. unfold drift. ring.
Qed.
Print Assumptions C88_west_sum.

(** e bounds the error of any mean the accumulator went through.  With
    D = hi - lo the variance is off by at most about 4De + (5n + 12) * uro * D^2. *)
Theorem C88_west_population_variance : forall chk l a lo hi B,
  apply_accumulator (fun a p => WestAdd numF chk a (fst p) (snd p)) l (west_new numF) = (a, Ok tt) ->
  Forall (fun p => fin (snd p)) l ->
  (forall x w, In (x, w) l -> 0 < RR w -> fin x /\ lo <= RR x <= hi) -> - B <= lo -> hi <= B ->
  bpow radix2 (-100) <= hi - lo -> B <= bpow radix2 200 ->
  let s := positive_weights (map (fun p => (RR (fst p), RR (snd p))) l) in
  let n := INR (length s) in
  let D := hi - lo in
  let e := uro * ((6 * n + 10) * D + 5 * n * B) in
  (2 <= Z.of_nat (length s) <= 2 ^ 49)%Z -> bpow radix2 (-100) <= total_weight s <= bpow radix2 200 ->
  fin (WestPopulationVariance numF a) /\
  Rabs (RR (WestPopulationVariance numF a) - wsq_devs s / total_weight s) <=
    2 * ((D + e) ^ 2 - D ^ 2) + (5 * n + 12) * uro * (D + e) ^ 2.
Proof.
  intros chk l a lo hi B Ha Fl Hv Hlo Hhi HD HB s n D e. apply west_fold in Ha. subst a.
  assert (Hs : reals2 (heavy l) = s) by (apply heavy_positive; exact Fl).
  assert (Hlen : length s = length (heavy l)) by (rewrite <- Hs; apply map_length).
  unfold e, n. rewrite Hlen, <- Hs. intros Hn HW. apply west_population_error.
  split; auto using heavies_of_heavy. split; [exact HD|]. lra.
Qed.
Print Assumptions C88_west_population_variance.

(** Frequency weights: whole numbers that sum up to at most 2^53. *)
Theorem C88_west_frequency_variance : forall chk l a lo hi B ks,
  apply_accumulator (fun a p => WestAdd numF chk a (fst p) (snd p)) l (west_new numF) = (a, Ok tt) ->
  Forall (fun p => fin (snd p)) l ->
  (forall x w, In (x, w) l -> 0 < RR w -> fin x /\ lo <= RR x <= hi) -> - B <= lo -> hi <= B ->
  bpow radix2 (-100) <= hi - lo -> B <= bpow radix2 200 ->
  let s := positive_weights (map (fun p => (RR (fst p), RR (snd p))) l) in
  let n := INR (length s) in
  let W := total_weight s in
  let D := hi - lo in
  let e := uro * ((6 * n + 10) * D + 5 * n * B) in
  (2 <= Z.of_nat (length s) <= 2 ^ 49)%Z -> map snd s = map IZR ks -> (2 <= sumZ ks <= 2 ^ 53)%Z ->
  fin (WestSampleFrequencyVariance numF a) /\
  Rabs (RR (WestSampleFrequencyVariance numF a) - wsq_devs s / (W - 1)) <=
    W / (W - 1) * (2 * ((D + e) ^ 2 - D ^ 2) + (4 * n + 12) * uro * (D + e) ^ 2).
Proof.
  intros chk l a lo hi B ks Ha Fl Hv Hlo Hhi HD HB s n W D e. apply west_fold in Ha. subst a.
  assert (Hs : reals2 (heavy l) = s) by (apply heavy_positive; exact Fl).
  assert (Hlen : length s = length (heavy l)) by (rewrite <- Hs; apply map_length).
  unfold e, n, W. rewrite Hlen, <- Hs. intros Hn Hks Hsum.
  assert (EW : total_weight (reals2 (heavy l)) = IZR (sumZ ks)).
  { unfold total_weight. rewrite Hks. unfold sumR, sumZ. clear. induction ks as [|k ks IH]; [reflexivity|].
    cbn [map fold_right]. rewrite plus_IZR. lra. }
  apply (west_frequency_error lo hi B (heavy l) ks).
  - split; auto using heavies_of_heavy; [split; [exact HD|]; lra|]. rewrite EW. split.
    + apply Rle_trans with (bpow radix2 0); [apply bpow_le; lia|]. apply IZR_le. lia.
    + apply Rle_trans with (bpow radix2 53); [|apply bpow_le; lia]. rewrite <- IZR_Zpower by lia. apply IZR_le, Hsum.
  - rewrite <- Hks. unfold reals2. rewrite map_map. reflexivity.
  - exact Hsum.
Qed.
Print Assumptions C88_west_frequency_variance.

(** Reliability weights: V = W - (sum of squared weights)/W divides.  k = W/V tells
    how much one weight dominates (k = n/(n-1) for equal weights). *)
Theorem C88_west_reliability_variance : forall chk l a lo hi B,
  apply_accumulator (fun a p => WestAdd numF chk a (fst p) (snd p)) l (west_new numF) = (a, Ok tt) ->
  Forall (fun p => fin (snd p)) l ->
  (forall x w, In (x, w) l -> 0 < RR w -> fin x /\ lo <= RR x <= hi) -> - B <= lo -> hi <= B ->
  bpow radix2 (-100) <= hi - lo -> B <= bpow radix2 200 ->
  let s := positive_weights (map (fun p => (RR (fst p), RR (snd p))) l) in
  let n := INR (length s) in
  let W := total_weight s in
  let V := W - total_weight2 s / W in
  let k := W / V in
  let D := hi - lo in
  let e := uro * ((6 * n + 10) * D + 5 * n * B) in
  (2 <= Z.of_nat (length s) <= 2 ^ 49)%Z -> bpow radix2 (-100) <= W <= bpow radix2 200 ->
  0 < V -> k * ((9 * n + 5) * uro) <= / 2 ->
  fin (WestSampleReliabilityVariance numF a) /\
  Rabs (RR (WestSampleReliabilityVariance numF a) - wsq_devs s / V) <=
    2 * k * ((D + e) ^ 2 - D ^ 2) + (22 * n + 30) * uro * k ^ 2 * (D + e) ^ 2.
Proof.
  intros chk l a lo hi B Ha Fl Hv Hlo Hhi HD HB s n W V k D e. apply west_fold in Ha. subst a.
  assert (Hs : reals2 (heavy l) = s) by (apply heavy_positive; exact Fl).
  assert (Hlen : length s = length (heavy l)) by (rewrite <- Hs; apply map_length).
  unfold k, V, e, n, W. rewrite Hlen, <- Hs. intros Hn HW PV Hk. apply west_reliability_error; auto.
  split; auto using heavies_of_heavy. split; [exact HD|]. lra.
Qed.
Print Assumptions C88_west_reliability_variance.

(** Offset 10^6; the entry of weight -2 holds NaN. *)
Definition weighted_sample : list (f64 * f64) :=
  [(of_Z 1000001, of_Z 3); (fnan, of_Z (-2)); (of_Z 1000004, of_Z 1); (of_Z 1000001, of_Z 2)].

Example C88_west_ex :
  exists a, apply_accumulator (fun a p => WestAdd numF true a (fst p) (snd p)) weighted_sample (west_new numF) = (a, Ok tt) /\
  Forall (fun p => fin (snd p)) weighted_sample /\
  (forall x w, In (x, w) weighted_sample -> 0 < RR w -> fin x /\ 1000001 <= RR x <= 1000004) /\
  bpow radix2 (-100) <= 1000004 - 1000001 /\ 1000004 <= bpow radix2 200 /\
  map snd (positive_weights (map (fun p => (RR (fst p), RR (snd p))) weighted_sample)) = map IZR [3; 1; 2]%Z /\
  flt (fabs (fsub (WestMean a) (fdiv (of_Z 2000003) (of_Z 2)))) (dyad 1 (-30)) = true /\
  flt (fabs (fsub (WestPopulationVariance numF a) (fdiv (of_Z 5) (of_Z 4)))) (dyad 1 (-30)) = true /\
  flt (fabs (fsub (WestSampleFrequencyVariance numF a) (fdiv (of_Z 3) (of_Z 2)))) (dyad 1 (-30)) = true /\
  flt (fabs (fsub (WestSampleReliabilityVariance numF a) (fdiv (of_Z 45) (of_Z 22)))) (dyad 1 (-30)) = true.
Proof.
  eexists. split; [reflexivity|]. split; [repeat constructor|].
  assert (Z3 := proj1 (of_Z_exact 3 ltac:(lia))). assert (Z2 := proj1 (of_Z_exact 2 ltac:(lia))).
  assert (Z1 := proj1 (of_Z_exact 1 ltac:(lia))). assert (Zm := proj1 (of_Z_exact (-2) ltac:(lia))).
  assert (Za := proj1 (of_Z_exact 1000001 ltac:(lia))). assert (Zb := proj1 (of_Z_exact 1000004 ltac:(lia))).
  split.
  { intros x w H Hw. unfold weighted_sample in H. cbn [In] in H.
    destruct H as [H|[H|[H|[H|[]]]]]; apply pair_equal_spec in H; destruct H as [<- <-].
    - rewrite Za. split; [reflexivity|lra].
    - exfalso. rewrite Zm in Hw. lra.
    - rewrite Zb. split; [reflexivity|lra].
    - rewrite Za. split; [reflexivity|lra]. }
  split; [apply Rle_trans with (bpow radix2 0); [apply bpow_le; lia|cbn; lra]|].
  split; [apply Rle_trans with (bpow radix2 20); [cbn; lra|apply bpow_le; lia]|].
  split.
  { unfold weighted_sample, positive_weights. cbn [map fst snd filter]. rewrite Z3, Z2, Z1, Zm.
    repeat match goal with |- context [Rlt_dec ?a ?b] => destruct (Rlt_dec a b); try lra end. reflexivity. }
  repeat split; vm_compute; reflexivity.
Qed.
