(** Property theorems C53-C56 and the histogram part of C52.  Nothing else is proved here. *)
From Coq Require Import ZArith Reals List Bool Lia Lra.
From Flocq Require Import Core.Core IEEE754.BinarySingleNaN.
From Verif Require Import Base F64 Num M_Archive M_Accum S_Accum L_Sum L_Accum M_Hist S_Hist L_Hist.
Import ListNotations.
Open Scope Z_scope.

(** The state of an accumulator to which the values [v] were added. *)
Definition bin_of (v : list f64) : neumaier f64 :=
  fst (apply_accumulator (NeumaierAdd numF false) v (neumaier_new numF)).

(** * C53  Histograms are lists of bins *)

Theorem C53_histogram_refines : forall chk n l b,
  0 <= n < two64 -> (chk = true -> Z.of_nat (length l) < two64) ->
  bins_calls l (empty_bins (Z.to_nat n)) = Some b ->
  exists h, hist_calls chk l (HistAccumulator n) = (h, Ok tt) /\
  HistGetNbins h = Z.of_nat (length (b_bins b)) /\
  HistGetCount h = u64 (b_total b) /\
  h_acc h = map bin_of (b_bins b) /\
  (forall i, 0 <= i < Z.of_nat (length (b_bins b)) ->
     HistGetCountOf h i = Ok (u64 (Z.of_nat (length (nth (Z.to_nat i) (b_bins b) []))))).
Proof.
  intros chk n l b Hn Hc H. destruct (empty_rep n Hn) as [E S]. rewrite E.
  destruct (hist_calls_rep chk l 0 (empty_bins (Z.to_nat n)) b) as [E1 _]; auto.
  exists (rep b). split; [exact E1|]. split; [reflexivity|]. split; [reflexivity|]. split.
  - unfold rep. cbn [h_acc]. apply map_ext. intros v. unfold bin_of.
    rewrite (apply_step (NeumaierAdd numF false) (neumaier_step numF)) by reflexivity. reflexivity.
  - intros i Hi. unfold HistGetCountOf, rep. cbn [h_acc]. rewrite (vget_map _ _ _ []) by exact Hi.
    cbn [bind]. unfold NeumaierCount. now rewrite neumaier_count_of.
Qed.
Print Assumptions C53_histogram_refines.

(** GetResult is the bin's sum over the number of all measurements; 0 for an empty bin. *)
Theorem C53_result : forall chk n l b i,
  0 <= n < two64 -> (chk = true -> Z.of_nat (length l) < two64) ->
  bins_calls l (empty_bins (Z.to_nat n)) = Some b -> Z.of_nat (length l) < two64 ->
  0 <= i < Z.of_nat (length (b_bins b)) ->
  let v := nth (Z.to_nat i) (b_bins b) [] in
  HistGetResult (fst (hist_calls chk l (HistAccumulator n))) i =
  Ok (match v with [] => f0 | _ => fdiv (NeumaierSum numF (bin_of v)) (of_Z (b_total b)) end).
Proof.
  intros chk n l b i Hn Hc H Hl Hi v. destruct (empty_rep n Hn) as [E S]. rewrite E.
  destruct (hist_calls_rep chk l 0 _ b Hc S H) as [E1 (_ & S2 & S3 & _)]. rewrite E1.
  unfold HistGetResult, rep. cbn [fst h_acc h_count]. rewrite (vget_map _ _ _ []) by exact Hi.
  fold v. cbn [bind]. unfold NeumaierCount. rewrite neumaier_count_of.
  rewrite Forall_forall in S2. assert (Hv : Z.of_nat (length v) <= Z.of_nat (length l)) by (apply S2, nth_In; lia).
  rewrite !u64_small by lia. unfold bin_of.
  rewrite (apply_step (NeumaierAdd numF false) (neumaier_step numF)) by reflexivity.
  destruct v; reflexivity.
Qed.
Print Assumptions C53_result.

Theorem C53_add_out_of_range : forall chk h i v,
  ~ (0 <= i < Z.of_nat (length (h_acc h))) -> HistAdd chk h i v = (h, UB).
Proof. intros chk h i v H. unfold HistAdd, hist_add. rewrite vget_oob by exact H. reflexivity. Qed.
Print Assumptions C53_add_out_of_range.

(** ForceAdd with the largest index never returns. *)
Theorem C53_force_add_largest : forall chk h v,
  0 <= h_nbins h < two64 -> snd (HistForceAdd chk h (two64 - 1) v) = Diverge.
Proof. intros chk h v H. unfold HistForceAdd. rewrite hist_grow_max by exact H. reflexivity. Qed.
Print Assumptions C53_force_add_largest.

Example C53_example :
  bins_calls [HCAdd 1 f1; HCForceAdd 3 (of_Z 2); HCResize 5; HCAdd 1 (of_Z 7)] (empty_bins 2) =
    Some (mkBins [[]; [f1; of_Z 7]; []; [of_Z 2]; []] 3) /\
  h_nbins (fst (hist_calls true [HCAdd 1 f1; HCForceAdd 3 (of_Z 2); HCResize 5; HCAdd 1 (of_Z 7)]
    (HistAccumulator 2))) = 5.
Proof. split; [reflexivity|vm_compute; reflexivity]. Qed.

(** * C54  Counts add up *)

Theorem C54_counts_add_up : forall chk n l h cs,
  0 <= n < two64 -> (chk = true -> Z.of_nat (length l) < two64) ->
  bins_calls l (empty_bins (Z.to_nat n)) <> None ->
  forallb (fun c => negb (is_resize c)) l = true ->
  hist_calls chk l (HistAccumulator n) = (h, Ok tt) ->
  omapl (HistGetCountOf h) (upto (HistGetNbins h)) = Ok cs ->
  HistGetCount h = u64 (sumZ cs).
Proof.
  intros chk n l h cs Hn Hc Hd Hr Hh Hcs. destruct (empty_rep n Hn) as [E S]. rewrite E in Hh.
  destruct (bins_calls l (empty_bins (Z.to_nat n))) as [b|] eqn:Hb; [|congruence].
  destruct (hist_calls_rep chk l 0 _ b Hc S Hb) as [E1 _]. rewrite E1 in Hh. injection Hh as <-.
  destruct b as [b t]. cbn [HistGetNbins rep h_nbins b_bins] in Hcs. rewrite omapl_counts in Hcs.
  injection Hcs as <-. rewrite sum_counts. cbn [HistGetCount rep h_count b_total]. f_equal.
  apply (bins_calls_total l _ _ Hr Hb). unfold empty_bins. cbn [b_total b_bins]. now rewrite sumlen_repeat.
Qed.
Print Assumptions C54_counts_add_up.

Theorem C54_shrinking_resize_refuted : exists l h cs,
  hist_calls false l (HistAccumulator 2) = (h, Ok tt) /\
  omapl (HistGetCountOf h) (upto (HistGetNbins h)) = Ok cs /\
  HistGetCount h <> u64 (sumZ cs).
Proof.
  exists [HCAdd 0 f1; HCAdd 1 f1; HCResize 1], (mkHist 1 [bin_of [f1]] 2), [1].
  split; [reflexivity|]. split; [reflexivity|discriminate].
Qed.
Print Assumptions C54_shrinking_resize_refuted.

Example C54_example :
  let h := fst (hist_calls false [HCAdd 0 f1; HCReset; HCForceAdd 2 f1; HCAdd 0 fnan] (HistAccumulator 1)) in
  HistGetCount h = 2 /\ omapl (HistGetCountOf h) (upto (HistGetNbins h)) = Ok [1; 0; 1].
Proof. split; vm_compute; reflexivity. Qed.

(** * C55  Unit measurements give frequencies *)

Theorem C55_unit_frequencies : forall chk n l b i,
  0 <= n < two64 -> Forall unit_call l -> Z.of_nat (length l) <= 2 ^ 53 ->
  bins_calls l (empty_bins (Z.to_nat n)) = Some b ->
  0 <= i < Z.of_nat (length (b_bins b)) ->
  let c := length (nth (Z.to_nat i) (b_bins b) []) in
  exists v, HistGetResult (fst (hist_calls chk l (HistAccumulator n))) i = Ok v /\ fin v /\
  (c = O -> v = f0) /\ (c <> O -> RR v = rnd (INR c / IZR (b_total b))) /\ (0 <= RR v <= 1)%R.
Proof.
  intros chk n l b i Hn Hu Hl H Hi. destruct (empty_rep n Hn) as [E S]. rewrite E.
  destruct (hist_calls_rep chk l 0 (empty_bins (Z.to_nat n)) b) as [E1 (_ & _ & S3 & _)]; auto; [rewrite two64_eq; lia|].
  rewrite E1. cbn [fst].
  destruct (bins_calls_ones l _ b Hu H) as (Ho & Hb & H0).
  { unfold empty_bins. cbn [b_bins b_total]. split; [|split; [|lia]]; apply Forall_forall; intros x Hx;
      apply repeat_spec in Hx; subst x; [constructor|cbn; lia]. }
  destruct b as [b t]. cbn [b_bins b_total] in *. apply unit_result; auto. lia.
Qed.
Print Assumptions C55_unit_frequencies.

Example C55_example :
  let l := [HCAdd 0 f1; HCForceAdd 2 f1; HCAdd 0 f1] in
  Forall unit_call l /\
  omap (map B2SF) (HistGetResults (fst (hist_calls false l (HistAccumulator 2)))) =
  Ok (map B2SF [fdiv (of_Z 2) (of_Z 3); f0; fdiv f1 (of_Z 3)]).
Proof. split; [repeat constructor|vm_compute; reflexivity]. Qed.

(** * C56  GetResults(idx) *)

(** Entries up to idx are divided by entry idx, later ones by entry idx over itself. *)
Theorem C56_results_by : forall h idx r,
  HistGetResults h = Ok r -> 0 <= idx < vsize r ->
  exists q, HistGetResultsBy h idx = Ok q /\ length q = length r /\
  forall k, (k < length r)%nat ->
    let d := nth (Z.to_nat idx) r fnan in
    nth k q fnan = fdiv (nth k r fnan) (if (k <=? Z.to_nat idx)%nat then d else fdiv d d).
Proof.
  intros h idx r Hr Hi. unfold HistGetResultsBy. rewrite Hr. cbn [bind].
  destruct (div_loop r idx Hi (length r) (le_n _)) as (q & E & L & Hq).
  exists q. split; [exact E|]. split; [exact L|]. intros k Hk. rewrite (Hq k Hk).
  destruct (Nat.ltb_spec k (length r)); [reflexivity|lia].
Qed.
Print Assumptions C56_results_by.

Theorem C56_all_components_divided_refuted : exists l r q,
  let h := fst (hist_calls false l (HistAccumulator 3)) in
  HistGetResults h = Ok r /\ HistGetResultsBy h 0 = Ok q /\
  exists k, (k < length r)%nat /\ B2SF (nth k q fnan) <> B2SF (fdiv (nth k r fnan) (nth 0 r fnan)) /\
            B2SF (nth k q fnan) = B2SF (nth k r fnan).
Proof.
  exists [HCAdd 0 f1; HCAdd 1 f1; HCAdd 1 f1; HCAdd 2 f1]. eexists. eexists.
  cbv zeta. split; [reflexivity|]. split; [reflexivity|]. exists 1%nat.
  split; [vm_compute; lia|]. split; [vm_compute; discriminate|vm_compute; reflexivity].
Qed.
Print Assumptions C56_all_components_divided_refuted.

(** * C52  Archived histograms *)

Theorem C52_histogram_archive : forall a b rest, hist_load b (hist_save a ++ rest) = Some (a, rest).
Proof. exact hist_archive. Qed.
Print Assumptions C52_histogram_archive.

Example C52_histogram_example :
  hist_load hist_default (hist_save (mkHist 2 [mkNeumaier f1 f0 4; mkNeumaier f0 f0 0] 4)) =
  Some (mkHist 2 [mkNeumaier f1 f0 4; mkNeumaier f0 f0 0] 4, []).
Proof. reflexivity. Qed.
