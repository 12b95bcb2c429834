(** Property theorems C96 (accuracy of histogram results and of the average
    probability of a move).  Nothing else is proved here.  [uro] is 2^-53, [eta]
    2^-1075, [RR x] the real value of the double x, [fin x] says x is finite. *)
From Coq Require Import ZArith Reals List Bool Lia Lra.
From Flocq Require Import Core.Core IEEE754.BinarySingleNaN.
From Verif Require Import Base F64 Num M_Archive M_Accum S_Accum L_Sum L_Accum M_Hist S_Hist L_Hist M_Move S_Move L_Move L_Welford L_StatAcc.
Import ListNotations.
Open Scope R_scope.

(** A bin's result is its sum over the number of all measurements, whatever was
    measured and whatever was called before. *)
Theorem C96_histogram_result : forall chk n l b i,
  (0 <= n < two64)%Z -> (Z.of_nat (length l) <= 2 ^ 52)%Z ->
  bins_calls l (empty_bins (Z.to_nat n)) = Some b ->
  (0 <= i < Z.of_nat (length (b_bins b)))%Z ->
  let v := nth (Z.to_nat i) (b_bins b) [] in
  Forall fin v -> sum_abs (map RR v) <= bpow radix2 1019 ->
  exists q, HistGetResult (fst (hist_calls chk l (HistAccumulator n))) i = Ok q /\ fin q /\
  Rabs (RR q - sumR (map RR v) / IZR (b_total b)) <=
    (3 * uro * Rabs (sumR (map RR v)) + 6 * (INR (length v) * uro) ^ 2 * sum_abs (map RR v)) / IZR (b_total b) + eta.
Proof.
  intros chk n l b i Hn Hl H Hi v Fv Hs. destruct (empty_rep n Hn) as [E S]. rewrite E.
  destruct (hist_calls_rep chk l 0 (empty_bins (Z.to_nat n)) b) as [E1 (_ & _ & S3 & _)]; auto;
    [rewrite two64_eq; lia|]. rewrite E1. cbn [fst].
  pose proof (bins_calls_bounded l _ b H (empty_bounded _)) as Hb. destruct b as [b t]. cbn [b_bins b_total] in *.
  apply hist_result_error; auto. lia.
Qed.
Print Assumptions C96_histogram_result.

(** Unit measurements: the results of all bins add up to one, up to one rounding,
    however many bins there are. *)
Theorem C96_frequencies_sum : forall chk n l b r,
  (0 <= n < two64)%Z -> (Z.of_nat (length l) <= 2 ^ 53)%Z -> Forall unit_call l ->
  forallb (fun c => negb (is_resize c)) l = true ->
  bins_calls l (empty_bins (Z.to_nat n)) = Some b -> (1 <= b_total b)%Z ->
  HistGetResults (fst (hist_calls chk l (HistAccumulator n))) = Ok r ->
  Rabs (sumR (map RR r) - 1) <= uro.
Proof.
  intros chk n l b r Hn Hl Hu Hz H Ht Hr. destruct (empty_rep n Hn) as [E S]. rewrite E in Hr.
  destruct (hist_calls_rep chk l 0 (empty_bins (Z.to_nat n)) b) as [E1 (_ & _ & S3 & _)]; auto;
    [rewrite two64_eq; lia|]. rewrite E1 in Hr. cbn [fst] in Hr.
  destruct (bins_calls_ones l _ b Hu H) as (Ho & Hb & H0).
  { destruct (empty_bounded (Z.to_nat n)) as [B1 B2]. split; [|split; [exact B1|exact B2]].
    apply Forall_forall. intros x Hx. apply repeat_spec in Hx. subst x. constructor. }
  pose proof (bins_calls_total l _ b Hz H) as Hs. destruct b as [b t]. cbn [b_bins b_total] in *.
  apply (unit_results_sum b t r Ho Hb); [lia| |exact Hr].
  apply Hs. unfold empty_bins. cbn [b_total b_bins]. now rewrite sumlen_repeat.
Qed.
Print Assumptions C96_frequencies_sum.

(** A bin dropped by a shrinking Resize takes its share along. *)
Theorem C96_frequencies_sum_resize_refuted : exists l r,
  Forall unit_call l /\
  HistGetResults (fst (hist_calls false l (HistAccumulator 2))) = Ok r /\ sumR (map RR r) = / 2.
Proof.
  exists [HCAdd 0 f1; HCAdd 1 f1; HCResize 1], [fdiv f1 (of_Z 2)]. split; [repeat constructor|]. split.
  - reflexivity.
  - unfold sumR. cbn [map fold_right]. rewrite <- (B2SF_inj _ _ (dyad 1 (-1)) (fdiv f1 (of_Z 2))) by (vm_compute; reflexivity).
    vm_compute. lra.
Qed.
Print Assumptions C96_frequencies_sum_resize_refuted.

(** The average probability of a move with outcomes since the last Reset. *)
Theorem C96_average_probability : forall chk name h,
  (Z.of_nat (length h) <= 2 ^ 49)%Z ->
  let o := j_outcomes (journal_of h) in
  o <> [] -> Forall (fun p => fin p /\ 0 <= RR p <= 1) (map prob_of o) ->
  let p := MS_GetAverageProbability (ms_calls chk h (MoveStats name)) in
  fin p /\ Rabs (RR p - meanR (map RR (map prob_of o))) <= 7 * uro.
Proof.
  intros chk name h Hh o No Hp p. subst p. rewrite ms_calls_rep by (intros _; rewrite two64_eq; lia).
  pose proof (journal_len h (mkJ false [])) as L. cbn [j_outcomes length] in L. fold (journal_of h) in L. fold o in L.
  assert (Lo : (1 <= length o)%nat) by (destruct o; [congruence|cbn; lia]).
  assert (HB : bpow radix2 (-900) <= 1 <= bpow radix2 960)
    by (split; [apply (bpow_le radix2 _ 0); lia|apply (bpow_le radix2 0); lia]).
  rewrite <- (Rmult_1_r (7 * uro)). unfold MS_GetAverageProbability, ms_rep. cbn [m_prob]. fold o.
  apply kahan_mean_error; [|exact HB|rewrite map_length; lia].
  revert Hp. apply Forall_impl. intros x [Fx Hx]. split; [exact Fx|]. apply Rabs_le. lra.
Qed.
Print Assumptions C96_average_probability.

(** Non-vacuity: a histogram with two measurements in bin 1 out of three, unit
    frequencies 2/3, 0, 1/3, and a move accepted with 1 and rejected with 1/2. *)
Example C96_ex :
  bins_calls [HCAdd 1 f1; HCForceAdd 3 (of_Z 2); HCAdd 1 (of_Z 7)] (empty_bins 2) =
    Some (mkBins [[]; [f1; of_Z 7]; []; [of_Z 2]] 3) /\
  Forall fin [f1; of_Z 7] /\ sum_abs (map RR [f1; of_Z 7]) <= bpow radix2 1019 /\
  Forall unit_call [HCAdd 0 f1; HCForceAdd 2 f1; HCAdd 0 f1] /\
  bins_calls [HCAdd 0 f1; HCForceAdd 2 f1; HCAdd 0 f1] (empty_bins 1) = Some (mkBins [[f1; f1]; []; [f1]] 3) /\
  j_outcomes (journal_of [McPropose; McAccept f1; McAdd (MR_Reject (dyad 1 (-1)))]) = [Oaccepted f1; Orejected (dyad 1 (-1))] /\
  Forall (fun p => fin p /\ 0 <= RR p <= 1) (map prob_of [Oaccepted f1; Orejected (dyad 1 (-1))]).
Proof.
  split; [reflexivity|]. split; [repeat constructor|]. split.
  { destruct (of_Z_exact 7) as [E7 _]; [lia|]. unfold sum_abs, sumR. cbn [map fold_right]. rewrite RR_f1, E7, !Rabs_pos_eq by lra.
    apply Rle_trans with (bpow radix2 4); [cbn; lra|apply bpow_le; lia]. }
  split; [repeat constructor|]. split; [reflexivity|]. split; [reflexivity|].
  cbn [map prob_of]. constructor; [rewrite RR_f1; split; [reflexivity|lra]|]. constructor; [|constructor].
  split; [reflexivity|]. replace (RR (dyad 1 (-1))) with (/ 2) by (vm_compute; lra). lra.
Qed.
