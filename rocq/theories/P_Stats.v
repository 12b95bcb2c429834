(** Properties of counting with histograms, and of the integer statistics. *)
From Coq Require Import ZArith Reals List Lia Lra Bool.
From Flocq Require Import IEEE754.BinarySingleNaN.
From Verif Require Import Base F64 Num M_Accum S_Accum M_Hist S_Stats L_Stats.
Import ListNotations.
Open Scope Z_scope.

(** * C51  ScaledVariance and StandardDeviation of NaiveInteger *)
Theorem C51_scaled_variance : forall l a,
  2 <= Z.of_nat (length l) <= 2 ^ 53 -> sumZ2 l + sumZ l * sumZ l <= 2 ^ 53 ->
  apply_accumulator (NaiveAdd false) l naive_new = (a, Ok tt) ->
  exists v, NaiveScaledVariance a = Ok v /\ fin v /\ RR v = rnd (IZR (sumZ2 l - sumZ l * sumZ l) / INR (length l)).
Proof. intros l a H1 H2. exact (naive_scaled_variance l H1 H2 a). Qed.
Print Assumptions C51_scaled_variance.
Example C51_scaled_variance_ex :
  let l := [3; -4; 5] in
  2 <= Z.of_nat (length l) <= 2 ^ 53 /\ sumZ2 l + sumZ l * sumZ l = 66 /\
  (v <- NaiveScaledVariance (fst (apply_accumulator (NaiveAdd false) l naive_new)) ;; Ok (feq v (fdiv (of_Z 34) (of_Z 3))))%out = Ok true.
Proof. cbv zeta. split; [cbn; lia|]. split; vm_compute; reflexivity. Qed.

Theorem C51_standard_deviation : forall l a corrected,
  2 <= Z.of_nat (length l) <= 2 ^ 26 -> sumZ2 l + sumZ l * sumZ l <= 2 ^ 53 ->
  apply_accumulator (NaiveAdd false) l naive_new = (a, Ok tt) ->
  exists s, NaiveStandardDeviation corrected a = Ok s /\
  (sumZ l * sumZ l <= sumZ2 l -> exists v, NaiveVariance corrected a = Ok v /\ fin s /\ RR s = rnd (sqrt (RR v))) /\
  (sumZ2 l < sumZ l * sumZ l -> is_nan s = true).
Proof. intros l a c H1 H2 Ha. exact (naive_deviation l H1 H2 a Ha c). Qed.
Print Assumptions C51_standard_deviation.
Example C51_standard_deviation_ex :
  sumZ [3; -4; 5] * sumZ [3; -4; 5] <= sumZ2 [3; -4; 5] /\ sumZ2 [1; 1] < sumZ [1; 1] * sumZ [1; 1].
Proof. split; vm_compute; [discriminate|reflexivity]. Qed.

Theorem C51_fewer_than_two : forall a corrected, 0 <= NaiveCount a < 2 ->
  exists v s d, NaiveVariance corrected a = Ok v /\ NaiveScaledVariance a = Ok s /\ NaiveStandardDeviation corrected a = Ok d /\
  is_nan v = true /\ is_nan s = true /\ is_nan d = true.
Proof.
  intros a c H. exists fnan, fnan, (fsqrt fnan). unfold NaiveStandardDeviation, NaiveVariance, NaiveScaledVariance, NaiveCount in *.
  destruct (Z.ltb_spec (ni_count a) 2); [|lia]. repeat split; reflexivity.
Qed.
Print Assumptions C51_fewer_than_two.
Example C51_fewer_than_two_ex : NaiveCount (fst (NaiveAdd false naive_new 7)) = 1.
Proof. reflexivity. Qed.

(** * C76  Counting *)
Theorem C76_counting : forall chk n ids,
  0 <= n < two64 -> Forall (fun i => 0 <= i < n) ids -> Z.of_nat (length ids) <= 2 ^ 53 ->
  exists h, each (HistAdd1 chk) ids (HistAccumulator n) = (h, Ok tt) /\ counts_well h n ids.
Proof. exact counting. Qed.
Print Assumptions C76_counting.
Example C76_counting_ex :
  map (occurrences [2; 0; 2; 1; 2]) [0; 1; 2; 3] = [1; 1; 3; 0] /\
  (r <- HistGetResults (fst (each (HistAdd1 true) [2; 0; 2; 1; 2] (HistAccumulator 4))) ;;
   Ok (map B2SF r))%out = Ok (map B2SF [fdiv f1 (of_Z 5); fdiv f1 (of_Z 5); fdiv (of_Z 3) (of_Z 5); f0]).
Proof. split; vm_compute; reflexivity. Qed.

Theorem C76_growing : forall chk ids,
  Forall (fun i => 0 <= i < two64 - 1) ids -> Z.of_nat (length ids) <= 2 ^ 53 ->
  exists h, each (HistForceAdd1 chk) ids hist_default = (h, Ok tt) /\ counts_well h (highest ids + 1) ids.
Proof. exact counting_force. Qed.
Print Assumptions C76_growing.
Example C76_growing_ex :
  highest [2; 0; 2; 1; 5; 2] = 5 /\
  (r <- HistGetResults (fst (each (HistForceAdd1 false) [2; 0; 2; 5; 2] hist_default)) ;;
   Ok (map B2SF r))%out = Ok (map B2SF [fdiv f1 (of_Z 5); f0; fdiv (of_Z 3) (of_Z 5); f0; f0; fdiv f1 (of_Z 5)]).
Proof. split; vm_compute; reflexivity. Qed.

(** The frequencies sum to one up to a single rounding error, whatever the number of bins. *)
Theorem C76_frequencies_sum : forall chk n ids h r,
  0 <= n < two64 -> Forall (fun i => 0 <= i < n) ids -> Z.of_nat (length ids) <= 2 ^ 53 -> ids <> [] ->
  each (HistAdd1 chk) ids (HistAccumulator n) = (h, Ok tt) -> HistGetResults h = Ok r ->
  (Rabs (sumR (map RR r) - 1) <= / IZR (2 ^ 53))%R.
Proof.
  intros chk n ids h r Hn F Hl Ne E Er. destruct (counting chk n ids Hn F Hl) as (h' & E' & W). rewrite E in E'. injection E' as <-.
  rewrite <- uro_val. apply (frequencies_sum h n ids r); auto. lia.
Qed.
Print Assumptions C76_frequencies_sum.
(** With three equally filled bins the sum is not exactly one. *)
Example C76_frequencies_sum_ex :
  (r <- HistGetResults (fst (each (HistAdd1 true) [2; 0; 1] (HistAccumulator 3))) ;; Ok (map B2SF r))%out =
  Ok (map B2SF [fdiv f1 (of_Z 3); fdiv f1 (of_Z 3); fdiv f1 (of_Z 3)]).
Proof. vm_compute. reflexivity. Qed.
