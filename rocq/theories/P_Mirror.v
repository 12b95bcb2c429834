(** C105: data with the opposite sign and data in other units, bit for bit. *)
From Coq Require Import ZArith Reals List Bool Lia Lra.
From Flocq Require Import Core.Core IEEE754.BinarySingleNaN.
From Verif Require Import Base F64 Num M_Accum S_Accum S_Bravais S_Mirror L_Bravais L_Accum L_Mirror.
Import ListNotations.
Open Scope R_scope.

(** Any doubles, infinities and NaN included.  The calls end the same way, too. *)
Theorem C105_kahan_negated : forall chk l a o,
  apply_accumulator (KahanAdd numF chk) l (kahan_new numF) = (a, o) ->
  exists a', apply_accumulator (KahanAdd numF chk) (map fopp l) (kahan_new numF) = (a', o) /\
  negated (KahanSum a) (KahanSum a') /\ negated (KahanMean numF a) (KahanMean numF a') /\ KahanCount a' = KahanCount a.
Proof.
  intros chk l a o H. pose proof (kahan_mirrored chk l) as Q. cbv zeta in Q. rewrite H in Q. cbn [fst snd] in Q. destruct Q as [(Q1 & Q2 & Q3) Qo].
  eexists. split; [rewrite <- Qo; apply surjective_pairing|]. split; [exact Q1|]. split; [|exact Q3].
  unfold KahanMean. rewrite Q3. now apply negated_div.
Qed.
Print Assumptions C105_kahan_negated.

Theorem C105_neumaier_negated : forall chk l a o,
  apply_accumulator (NeumaierAdd numF chk) l (neumaier_new numF) = (a, o) ->
  exists a', apply_accumulator (NeumaierAdd numF chk) (map fopp l) (neumaier_new numF) = (a', o) /\
  negated (NeumaierSum numF a) (NeumaierSum numF a') /\ negated (NeumaierMean numF a) (NeumaierMean numF a') /\ NeumaierCount a' = NeumaierCount a.
Proof.
  intros chk l a o H. pose proof (neumaier_mirrored chk l) as Q. cbv zeta in Q. rewrite H in Q. cbn [fst snd] in Q. destruct Q as [(Q1 & Q2 & Q3) Qo].
  eexists. split; [rewrite <- Qo; apply surjective_pairing|].
  assert (S : negated (NeumaierSum numF a) (NeumaierSum numF (fst (apply_accumulator (NeumaierAdd numF chk) (map fopp l) (neumaier_new numF)))))
    by now apply negated_add.
  split; [exact S|]. split; [|exact Q3]. unfold NeumaierMean. rewrite Q3. now apply negated_div.
Qed.
Print Assumptions C105_neumaier_negated.

Theorem C105_knuth_welford_negated : forall chk l a o,
  apply_accumulator (KwAdd numF chk) l (kw_new numF) = (a, o) ->
  exists a', apply_accumulator (KwAdd numF chk) (map fopp l) (kw_new numF) = (a', o) /\
  negated (KwMean a) (KwMean a') /\ negated (KwSum numF a) (KwSum numF a') /\ KwCount a' = KwCount a /\
  alike (KwScaledVariance numF a) (KwScaledVariance numF a') /\ forall c,
  alike (KwVariance numF c a) (KwVariance numF c a') /\ alike (KwStandardDeviation numF c a) (KwStandardDeviation numF c a') /\
  alike (KwError numF c a) (KwError numF c a').
Proof.
  intros chk l a o H. pose proof (kw_mirrored chk l) as Q. cbv zeta in Q. rewrite H in Q. cbn [fst snd] in Q. destruct Q as [(Q1 & Q2 & Q3) Qo].
  eexists. split; [rewrite <- Qo; apply surjective_pairing|]. split; [exact Q1|]. cbn [fst] in *.
  set (a' := fst (apply_accumulator (KwAdd numF chk) (map fopp l) (kw_new numF))) in *.
  split; [unfold KwSum; rewrite Q3; now apply negated_mul|]. split; [exact Q3|].
  split; [unfold KwScaledVariance; rewrite Q3; destruct (kw_count a <? 2)%Z; [apply alike_refl|exact Q2]|]. intros c.
  assert (V : alike (KwVariance numF c a) (KwVariance numF c a')).
  { unfold KwVariance. rewrite Q3. destruct (kw_count a <? 2)%Z; [apply alike_refl|]. now apply alike_div. }
  assert (D : alike (KwStandardDeviation numF c a) (KwStandardDeviation numF c a')) by now apply alike_sqrt.
  split; [exact V|]. split; [exact D|]. unfold KwError. rewrite Q3. now apply alike_div.
Qed.
Print Assumptions C105_knuth_welford_negated.

Theorem C105_west_negated : forall chk l a o,
  apply_accumulator (fun a p => WestAdd numF chk a (fst p) (snd p)) l (west_new numF) = (a, o) ->
  exists a', apply_accumulator (fun a p => WestAdd numF chk a (fst p) (snd p)) (map (fun p => (fopp (fst p), snd p)) l) (west_new numF) = (a', o) /\
  negated (WestMean a) (WestMean a') /\ negated (WestSum numF a) (WestSum numF a') /\ WestCount a' = WestCount a /\
  alike (WestPopulationVariance numF a) (WestPopulationVariance numF a') /\
  alike (WestSampleFrequencyVariance numF a) (WestSampleFrequencyVariance numF a') /\
  alike (WestSampleReliabilityVariance numF a) (WestSampleReliabilityVariance numF a').
Proof.
  intros chk l a o H. pose proof (west_mirrored chk l) as Q. cbv zeta in Q. rewrite H in Q. cbn [fst snd] in Q. destruct Q as [(E1 & E2 & Q1 & Q2 & Q3) Qo].
  eexists. split; [rewrite <- Qo; apply surjective_pairing|]. split; [exact Q1|]. cbn [fst] in *.
  set (a' := fst (apply_accumulator _ (map _ l) (west_new numF))) in *.
  split; [unfold WestSum; rewrite E1; now apply negated_mul|]. split; [exact Q3|].
  unfold WestPopulationVariance, WestSampleFrequencyVariance, WestSampleReliabilityVariance. rewrite Q3, E1, E2.
  destruct (w_count a <? 2)%Z; [repeat split; apply alike_refl|]. repeat split; now apply alike_div.
Qed.
Print Assumptions C105_west_negated.

Definition mirror_demo : list f64 := [fdiv f1 (of_Z 10); fdiv f1 (of_Z 3); f0; dyad 1 60; of_Z (-7)].
Example C105_negated_ex :
  let r l := fst (apply_accumulator (KwAdd numF true) l (kw_new numF)) in
  B2SF (KwMean (r (map fopp mirror_demo))) = B2SF (fopp (KwMean (r mirror_demo))) /\
  B2SF (KwVariance numF true (r (map fopp mirror_demo))) = B2SF (KwVariance numF true (r mirror_demo)) /\
  feq (KwMean (r mirror_demo)) f0 = false /\ feq (KwVariance numF true (r mirror_demo)) f0 = false /\
  negated f1 (of_Z (-1)) /\ negated f0 f0 /\ alike f0 (fopp f0) /\ ~ alike f1 f0.
Proof.
  do 4 (split; [vm_compute; reflexivity|]). split; [left; apply B2SF_inj; vm_compute; reflexivity|].
  split; [apply negated_zero|]. split; [right; repeat split; try reflexivity; rewrite RR_fopp; change (RR f0) with 0; lra|].
  intros [E|(_ & _ & E & _)]; [discriminate E|]. rewrite RR_f1 in E. lra.
Qed.

(** Sums in units smaller by a power of two. *)
Theorem C105_kahan_scaled : forall chk chk' k l l' a a',
  apply_accumulator (KahanAdd numF chk) l (kahan_new numF) = (a, Ok tt) ->
  apply_accumulator (KahanAdd numF chk') l' (kahan_new numF) = (a', Ok tt) ->
  (0 <= k)%Z -> Forall2 (scaled k) l l' -> fin (KahanSum a') -> scaled k (KahanSum a) (KahanSum a').
Proof.
  intros chk chk' k l l' a a' Ha Ha' Hk F Fs.
  apply (apply_fold _ (kahan_step numF)) in Ha; [|add_cases]. apply (apply_fold _ (kahan_step numF)) in Ha'; [|add_cases]. subst a a'.
  now apply (kahan_scaled k l l' Hk F).
Qed.
Print Assumptions C105_kahan_scaled.

Theorem C105_neumaier_scaled : forall chk chk' k l l' a a',
  apply_accumulator (NeumaierAdd numF chk) l (neumaier_new numF) = (a, Ok tt) ->
  apply_accumulator (NeumaierAdd numF chk') l' (neumaier_new numF) = (a', Ok tt) ->
  (0 <= k)%Z -> Forall2 (scaled k) l l' -> fin (NeumaierSum numF a') -> scaled k (NeumaierSum numF a) (NeumaierSum numF a').
Proof.
  intros chk chk' k l l' a a' Ha Ha' Hk F Fs.
  apply (apply_fold _ (neumaier_step numF)) in Ha; [|add_cases]. apply (apply_fold _ (neumaier_step numF)) in Ha'; [|add_cases]. subst a a'.
  destruct (fadd_inv _ _ Fs) as (F1 & F2 & _). destruct (neumaier_scaled k l l' Hk F F1 F2) as [S1 S2]. now apply scaled_add.
Qed.
Print Assumptions C105_neumaier_scaled.

(** From subnormal numbers up: 2^-1074 and 3 * 2^-1074 in units of 2^-1074. *)
Example C105_scaled_ex :
  Forall2 (scaled 1074) [dyad 1 (-1074); dyad 3 (-1074)] [of_Z 1; of_Z 3] /\
  B2SF (KahanSum (fst (apply_accumulator (KahanAdd numF true) [of_Z 1; of_Z 3] (kahan_new numF)))) = B2SF (of_Z 4) /\
  B2SF (KahanSum (fst (apply_accumulator (KahanAdd numF true) [dyad 1 (-1074); dyad 3 (-1074)] (kahan_new numF)))) = B2SF (dyad 4 (-1074)).
Proof.
  split; [|split; vm_compute; reflexivity].
  assert (G : forall m, (0 < m <= 3)%Z -> scaled 1074 (dyad m (-1074)) (of_Z m)).
  { intros m Hm. destruct (of_Z_exact m ltac:(lia)) as [E F]. destruct (dyad_tiny m ltac:(lia)) as [E' F'].
    split; [exact F'|]. split; [exact F|]. rewrite E, E', Rmult_assoc, <- bpow_plus. change (bpow radix2 (-1074 + 1074)) with 1. lra. }
  constructor; [apply (G 1%Z); lia|]. constructor; [apply (G 3%Z); lia|constructor].
Qed.

(** Means are quotients and may round differently near zero. *)
Theorem C105_mean_scaled_refuted : exists l l' a a',
  Forall2 (scaled 1) l l' /\
  apply_accumulator (KahanAdd numF true) l (kahan_new numF) = (a, Ok tt) /\
  apply_accumulator (KahanAdd numF true) l' (kahan_new numF) = (a', Ok tt) /\
  fin (KahanMean numF a') /\ ~ scaled 1 (KahanMean numF a) (KahanMean numF a').
Proof.
  exists [dyad 1 (-1074); f0], [dyad 2 (-1074); f0]. eexists _, _.
  destruct (dyad_tiny 1 ltac:(lia)) as [E1 F1]. destruct (dyad_tiny 2 ltac:(lia)) as [E2 F2].
  split.
  { constructor; [|constructor; [apply scaled_zero|constructor]]. split; [exact F1|]. split; [exact F2|]. rewrite E1, E2. change (bpow radix2 1) with 2. lra. }
  split; [reflexivity|]. split; [reflexivity|]. split; [vm_compute; reflexivity|]. intros (_ & _ & E).
  match type of E with RR ?x = RR ?y * _ => assert (X : B2SF x = B2SF (dyad 1 (-1074))) by (vm_compute; reflexivity); assert (Y : B2SF y = B2SF f0) by (vm_compute; reflexivity) end.
  apply B2SF_inj in X, Y. rewrite X, Y, E1 in E. change (RR f0) with 0 in E. pose proof (bpow_gt_0 radix2 (-1074)). lra.
Qed.
Print Assumptions C105_mean_scaled_refuted.
