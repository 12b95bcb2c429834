(** Property theorems C87 (accuracy of means and variances).  Nothing else is
    proved here.  [uro] is 2^-53, [RR x] the real value of the double x,
    [fin x] says x is finite; [meanR] and [sq_devs] are the exact mean and the
    exact sum of squared deviations from it (S_Accum). *)
From Coq Require Import ZArith Reals List Bool Lia Lra.
From Flocq Require Import Core.Core IEEE754.BinarySingleNaN.
From Verif Require Import Base F64 Num M_Archive M_Accum S_Accum L_Accum L_Welford L_West2.
Import ListNotations.
Open Scope R_scope.

(** Every value lies in [lo, hi], which lies in [-B, B].  The error of the mean
    grows with n * B, but not with how often or in which order values come. *)
Theorem C87_welford_mean : forall chk l a lo hi B,
  apply_accumulator (KwAdd numF chk) l (kw_new numF) = (a, Ok tt) ->
  (1 <= Z.of_nat (length l) <= 2 ^ 53)%Z ->
  Forall (fun x => fin x /\ lo <= RR x <= hi) l -> - B <= lo -> hi <= B ->
  bpow radix2 (-900) <= B <= bpow radix2 1022 ->
  let n := INR (length l) in
  fin (KwMean a) /\
  Rabs (RR (KwMean a) - meanR (map RR l)) <= uro * ((n + 2) / 2 * B + 3 * (hi - lo)).
Proof.
  intros chk l a lo hi B Ha Hn Hl Hlo Hhi HB n. apply (apply_fold _ (kw_step numF)) in Ha; [|add_cases]. subst a.
  assert (Hw := within_intro lo hi B l Hl Hlo Hhi). assert (N : l <> []) by (destruct l; [cbn in Hn; lia|discriminate]).
  split; [apply (kw_range lo hi B l Hw); [apply HB|exact N|apply Hn]|].
  exact (kw_mean_bound lo hi B l Hw HB N (proj2 Hn)).
Qed.
Print Assumptions C87_welford_mean.

Theorem C87_welford_sum : forall chk l a lo hi B,
  apply_accumulator (KwAdd numF chk) l (kw_new numF) = (a, Ok tt) ->
  (1 <= Z.of_nat (length l) <= 2 ^ 53)%Z ->
  Forall (fun x => fin x /\ lo <= RR x <= hi) l -> - B <= lo -> hi <= B ->
  bpow radix2 (-900) <= B <= bpow radix2 960 ->
  let n := INR (length l) in
  fin (KwSum numF a) /\
  Rabs (RR (KwSum numF a) - sumR (map RR l)) <= uro * n * ((n + 6) / 2 * B + 3 * (hi - lo)).
Proof.
  intros chk l a lo hi B Ha Hn Hl Hlo Hhi HB n. apply (apply_fold _ (kw_step numF)) in Ha; [|add_cases]. subst a.
  assert (N : l <> []) by (destruct l; [cbn in Hn; lia|discriminate]).
  exact (kw_sum_error lo hi B l (within_intro lo hi B l Hl Hlo Hhi) HB N (proj2 Hn)).
Qed.
Print Assumptions C87_welford_sum.

(** The error of the variance is proportional to the spread hi - lo of the
    values: a large common offset B costs one factor, not two. *)
Theorem C87_welford_variance : forall chk l a lo hi B (corrected : bool),
  apply_accumulator (KwAdd numF chk) l (kw_new numF) = (a, Ok tt) ->
  (2 <= Z.of_nat (length l) <= 2 ^ 52)%Z ->
  Forall (fun x => fin x /\ lo <= RR x <= hi) l -> - B <= lo -> hi <= B ->
  bpow radix2 (-400) <= hi - lo -> B <= bpow radix2 480 ->
  let n := INR (length l) in
  let d := if corrected then n - 1 else n in
  fin (KwVariance numF corrected a) /\
  Rabs (RR (KwVariance numF corrected a) - sq_devs (map RR l) / d) <=
    uro * (n / d) * (hi - lo) * ((n + 4) * B + (n + 14) * (hi - lo)).
Proof.
  intros chk l a lo hi B c Ha Hn Hl Hlo Hhi HD HB n d. apply (apply_fold _ (kw_step numF)) in Ha; [|add_cases]. subst a.
  destruct (kw_variance_error lo hi B l c (within_intro lo hi B l Hl Hlo Hhi) HB ltac:(lra) Hn) as (F & _ & E).
  split; [exact F|exact E].
Qed.
Print Assumptions C87_welford_variance.

Theorem C87_welford_scaled_variance : forall chk l a lo hi B,
  apply_accumulator (KwAdd numF chk) l (kw_new numF) = (a, Ok tt) ->
  (2 <= Z.of_nat (length l) <= 2 ^ 52)%Z ->
  Forall (fun x => fin x /\ lo <= RR x <= hi) l -> - B <= lo -> hi <= B ->
  bpow radix2 (-400) <= hi - lo -> B <= bpow radix2 480 ->
  let n := INR (length l) in
  fin (KwScaledVariance numF a) /\
  Rabs (RR (KwScaledVariance numF a) - sq_devs (map RR l)) <=
    uro * n * (hi - lo) * ((n + 3) * B + (n + 11) * (hi - lo)).
Proof.
  intros chk l a lo hi B Ha Hn Hl Hlo Hhi HD HB n. apply (apply_fold _ (kw_step numF)) in Ha; [|add_cases]. subst a.
  exact (kw_scaled_error lo hi B l (within_intro lo hi B l Hl Hlo Hhi) HB ltac:(lra) Hn).
Qed.
Print Assumptions C87_welford_scaled_variance.

Theorem C87_welford_deviation : forall chk l a lo hi B (corrected : bool),
  apply_accumulator (KwAdd numF chk) l (kw_new numF) = (a, Ok tt) ->
  (2 <= Z.of_nat (length l) <= 2 ^ 52)%Z ->
  Forall (fun x => fin x /\ lo <= RR x <= hi) l -> - B <= lo -> hi <= B ->
  bpow radix2 (-400) <= hi - lo -> B <= bpow radix2 480 ->
  let n := INR (length l) in
  let d := if corrected then n - 1 else n in
  fin (KwStandardDeviation numF corrected a) /\
  Rabs (RR (KwStandardDeviation numF corrected a) - sqrt (sq_devs (map RR l) / d)) <=
    uro * sqrt (sq_devs (map RR l) / d) +
    2 * sqrt (uro * (n / d) * (hi - lo) * ((n + 4) * B + (n + 14) * (hi - lo))).
Proof.
  intros chk l a lo hi B c Ha Hn Hl Hlo Hhi HD HB n d. apply (apply_fold _ (kw_step numF)) in Ha; [|add_cases]. subst a.
  exact (kw_deviation_error lo hi B l c (within_intro lo hi B l Hl Hlo Hhi) HB ltac:(lra) Hn).
Qed.
Print Assumptions C87_welford_deviation.

(** Error(): the reported deviation over the root of n, up to four roundings,
    whatever was measured, as long as the deviation is finite. *)
Theorem C87_welford_error : forall chk l a (corrected : bool),
  apply_accumulator (KwAdd numF chk) l (kw_new numF) = (a, Ok tt) ->
  (2 <= Z.of_nat (length l) <= 2 ^ 53)%Z -> fin (KwStandardDeviation numF corrected a) ->
  let r := RR (KwStandardDeviation numF corrected a) / sqrt (INR (length l)) in
  fin (KwError numF corrected a) /\ Rabs (RR (KwError numF corrected a) - r) <= 4 * uro * r + eta.
Proof.
  intros chk l a c Ha Hn F r. apply (apply_fold _ (kw_step numF)) in Ha; [|add_cases]. subst a.
  pose proof (kw_count_of l) as C. rewrite u64_small in C by (unfold two64; lia). unfold r. rewrite INR_IZR_INZ, <- C.
  apply kw_error_final; [exact F|]. change (1 <= kw_count (kw_of l) <= 2 ^ 53)%Z. rewrite C. lia.
Qed.
Print Assumptions C87_welford_error.

(** Any number of copies of one value: mean exact, variance and error exactly zero. *)
Theorem C87_welford_constant : forall chk n x a corrected,
  apply_accumulator (KwAdd numF chk) (repeat x n) (kw_new numF) = (a, Ok tt) ->
  (2 <= Z.of_nat n <= 2 ^ 53)%Z -> fin x -> Rabs (RR x) <= bpow radix2 1022 ->
  feq (KwMean a) x = true /\ feq (KwVariance numF corrected a) f0 = true /\
  feq (KwStandardDeviation numF corrected a) f0 = true /\ feq (KwError numF corrected a) f0 = true.
Proof.
  intros chk n x a c Ha Hn Fx Hx. apply (apply_fold _ (kw_step numF)) in Ha; [|add_cases]. subst a.
  exact (kw_constant_reports n x c Hn Fx Hx).
Qed.
Print Assumptions C87_welford_constant.

Definition offset_sample : list f64 := map of_Z [1000001; 1000003; 1000002; 1000002]%Z.

(** Offset 10^6, spread 2: the variance is 2/3 of a unit give or take 10^-8. *)
Example C87_welford_ex :
  exists a, apply_accumulator (KwAdd numF true) offset_sample (kw_new numF) = (a, Ok tt) /\
  Forall (fun x => fin x /\ 1000001 <= RR x <= 1000003) offset_sample /\
  bpow radix2 (-400) <= 1000003 - 1000001 /\ 1000003 <= bpow radix2 480 /\
  feq (KwMean a) (of_Z 1000002) = true /\ feq (KwScaledVariance numF a) (of_Z 2) = true.
Proof.
  eexists. split; [reflexivity|]. split.
  { unfold offset_sample. repeat constructor; try reflexivity;
      match goal with |- context [RR (of_Z ?z)] => rewrite (proj1 (of_Z_exact z ltac:(lia))) end; lra. }
  split; [apply Rle_trans with (bpow radix2 0); [apply bpow_le; lia|cbn; lra]|].
  split; [apply Rle_trans with (bpow radix2 20); [cbn; lra|apply bpow_le; lia]|].
  split; vm_compute; reflexivity.
Qed.

Example C87_welford_constant_ex :
  exists a, apply_accumulator (KwAdd numF true) (repeat (fdiv f1 (of_Z 3)) 7) (kw_new numF) = (a, Ok tt) /\
  feq (KwMean a) (fdiv f1 (of_Z 3)) = true /\ feq (KwVariance numF true a) f0 = true.
Proof. eexists. split; [reflexivity|]. split; vm_compute; reflexivity. Qed.

(** The compensated sums give means whose error does not grow with n. *)
Theorem C87_kahan_mean : forall chk l a B,
  apply_accumulator (KahanAdd numF chk) l (kahan_new numF) = (a, Ok tt) ->
  (1 <= Z.of_nat (length l) <= 2 ^ 49)%Z ->
  Forall (fun x => fin x /\ Rabs (RR x) <= B) l -> bpow radix2 (-900) <= B <= bpow radix2 960 ->
  fin (KahanMean numF a) /\ Rabs (RR (KahanMean numF a) - meanR (map RR l)) <= 7 * uro * B.
Proof.
  intros chk l a B Ha Hn Hl HB. apply (apply_fold _ (kahan_step numF)) in Ha; [|add_cases]. subst a.
  exact (kahan_mean_error B l Hl HB Hn).
Qed.
Print Assumptions C87_kahan_mean.

Theorem C87_neumaier_mean : forall chk l a B,
  apply_accumulator (NeumaierAdd numF chk) l (neumaier_new numF) = (a, Ok tt) ->
  (1 <= Z.of_nat (length l) <= 2 ^ 52)%Z ->
  Forall (fun x => fin x /\ Rabs (RR x) <= B) l -> bpow radix2 (-900) <= B <= bpow radix2 960 ->
  fin (NeumaierMean numF a) /\
  Rabs (RR (NeumaierMean numF a) - meanR (map RR l)) <= (3 * uro + 6 * (INR (length l) * uro) ^ 2) * B.
Proof.
  intros chk l a B Ha Hn Hl HB. apply (apply_fold _ (neumaier_step numF)) in Ha; [|add_cases]. subst a.
  exact (neumaier_mean_error B l Hl HB Hn).
Qed.
Print Assumptions C87_neumaier_mean.

(** 1, 2^60, -2^60: plain summation would return 0. *)
Example C87_neumaier_ex :
  let l := [f1; dyad 1 60; dyad (-1) 60; of_Z 2] in
  exists a, apply_accumulator (NeumaierAdd numF true) l (neumaier_new numF) = (a, Ok tt) /\
  Forall (fun x => fin x /\ Rabs (RR x) <= bpow radix2 60) l /\ bpow radix2 (-900) <= bpow radix2 60 <= bpow radix2 960 /\
  feq (NeumaierMean numF a) (fdiv (of_Z 3) (of_Z 4)) = true.
Proof.
  eexists. split; [reflexivity|]. split; [|split; [split; apply bpow_le; lia|vm_compute; reflexivity]].
  assert (P : 1 <= bpow radix2 60) by (apply (bpow_le radix2 0 60); lia).
  assert (P2 : 2 <= bpow radix2 60) by (apply (bpow_le radix2 1 60); lia).
  repeat (apply Forall_cons; [split; [reflexivity|]|]); [| | | |apply Forall_nil].
  - rewrite RR_f1, Rabs_R1. exact P.
  - apply (dyad_le 1 60); lia.
  - apply (dyad_le (-1) 60); lia.
  - rewrite (proj1 (of_Z_exact 2 ltac:(lia))), Rabs_pos_eq; lra.
Qed.

Example C87_kahan_ex :
  let l := repeat (fdiv f1 (of_Z 10)) 10 in
  exists a, apply_accumulator (KahanAdd numF true) l (kahan_new numF) = (a, Ok tt) /\
  (1 <= Z.of_nat (length l) <= 2 ^ 49)%Z /\ feq (KahanMean numF a) (fdiv f1 (of_Z 10)) = true.
Proof. eexists. split; [reflexivity|]. split; [cbn; lia|vm_compute; reflexivity]. Qed.
