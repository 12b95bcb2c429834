(** C112: correlation histograms, one bin for each displacement on a closed grid. *)
From Coq Require Import ZArith Reals List Bool Lia Lra Psatz.
From Flocq Require Import Core.Core IEEE754.BinarySingleNaN.
From Verif Require Import Base F64 Num S_Accum S_Math S_Grid S_Hist S_Bravais S_Lattice S_Fourier S_Corr S_CorrHist
  M_MathInt M_Grid M_Accum M_Hist M_Bravais M_Lattice M_CorrHist L_MathInt L_Grid L_Hist L_LatticeK L_Lattice L_LatticeN L_CorrHist L_CorrHistR P_Fourier.
From Verif Require L_Bravais L_BravaisAcc.
Import ListNotations.
Open Scope Z_scope.

(** No pair of sites is out of range or lost: there is a bin for every
    displacement, and every bin receives each site once per configuration. *)
Theorem C112_runs : forall chk size configurations,
  sizes_ok size -> Forall (fun n => vsize n = prodZ size) configurations ->
  vsize configurations * (prodZ size * prodZ size) < 2 ^ 64 ->
  exists h, correlate_all chk (HyperCubicGrid size true) configurations = Ok h /\ HistGetNbins h = prodZ size /\
  HistGetCount h = vsize configurations * (prodZ size * prodZ size) /\
  forall s, valid_site size s -> HistGetCountOf h s = Ok (vsize configurations * prodZ size).
Proof.
  intros chk size ns Hs H Hn. destruct (correlated size Hs chk ns H Hn) as (h & E & En & Ec & Eb). exists h.
  split; [exact E|]. split; [exact En|]. split; [exact Ec|]. intros s Vs. unfold HistGetCountOf. rewrite (Eb s Vs). cbn [bind]. f_equal.
  unfold NeumaierCount. rewrite neumaier_count_of, bin_values_length by assumption. apply u64_small.
  pose proof (sites_pos size Hs). assert (0 <= vsize ns) by (unfold vsize; lia). unfold two64. nia.
Qed.
Print Assumptions C112_runs.

(** For whole occupation numbers, bin s holds the correlation of every site with
    the site displaced by s, averaged over configurations and pairs and rounded once. *)
Theorem C112_integers : forall chk size ns,
  sizes_ok size -> Forall (fun n => vsize n = prodZ size) ns -> squared_magnitudes ns <= 2 ^ 53 ->
  1 <= vsize ns -> vsize ns * (prodZ size * prodZ size) <= 2 ^ 53 ->
  exists h, correlate_all chk (HyperCubicGrid size true) (map (map of_Z) ns) = Ok h /\
  forall s f, valid_site size s -> (forall a, valid_site size a -> GetUnMappedSite (HyperCubicGrid size true) s a = Ok (f a)) ->
  exists r, HistGetResult h s = Ok r /\ fin r /\
  RR r = rnd (IZR (correlationZ ns (upto (prodZ size)) f) / IZR (vsize ns * (prodZ size * prodZ size))).
Proof.
  intros chk size ns Hs H Hm H1 Hc. destruct (histogram_of_integers size Hs chk ns H Hm H1 Hc) as (h & E & R). exists h. split; [exact E|].
  intros s f Vs Hf. destruct (R s Vs) as (r & Er & Fr & _ & Rr). exists r. split; [exact Er|]. split; [exact Fr|]. rewrite Rr.
  assert (Q : correlationZ ns (upto (prodZ size)) (um size s) = correlationZ ns (upto (prodZ size)) f); [|now rewrite Q].
  unfold correlationZ. apply sumZ_ext. intros n _. apply sumZ_ext. intros a Ia. apply upto_In in Ia.
  pose proof (Hf a Ia) as F. rewrite (proj1 (um_ok size Hs s a Vs Ia)) in F. injection F as ->. reflexivity.
Qed.
Print Assumptions C112_integers.

(** Opposite displacements have the same correlation. *)
Theorem C112_opposite : forall chk size ns,
  sizes_ok size -> Forall (fun n => vsize n = prodZ size) ns -> squared_magnitudes ns <= 2 ^ 53 ->
  1 <= vsize ns -> vsize ns * (prodZ size * prodZ size) <= 2 ^ 53 ->
  exists h, correlate_all chk (HyperCubicGrid size true) (map (map of_Z) ns) = Ok h /\
  forall s s', valid_site size s -> valid_site size s' -> GetUnMappedSite (HyperCubicGrid size true) s s' = Ok 0 ->
  exists r r', HistGetResult h s = Ok r /\ HistGetResult h s' = Ok r' /\ fin r /\ fin r' /\ RR r = RR r'.
Proof.
  intros chk size ns Hs H Hm H1 Hc. destruct (histogram_of_integers size Hs chk ns H Hm H1 Hc) as (h & E & R). exists h. split; [exact E|].
  intros s s' Vs Vs' O. destruct (R s Vs) as (r & Er & Fr & _ & Rr). destruct (R s' Vs') as (r' & Er' & Fr' & _ & Rr').
  exists r, r'. split; [exact Er|]. split; [exact Er'|]. split; [exact Fr|]. split; [exact Fr'|]. rewrite Rr, Rr'.
  rewrite (proj1 (um_ok size Hs s s' Vs Vs')) in O. injection O as O.
  now rewrite (correlation_opposite size Hs ns s s' Vs Vs' O).
Qed.
Print Assumptions C112_opposite.

(** The bins add up to the mean of the squared number of particles, over the
    number of pairs, up to one rounding of the magnitudes. *)
Theorem C112_total : forall chk size ns,
  sizes_ok size -> Forall (fun n => vsize n = prodZ size) ns -> squared_magnitudes ns <= 2 ^ 53 ->
  1 <= vsize ns -> vsize ns * (prodZ size * prodZ size) <= 2 ^ 53 ->
  exists h r, correlate_all chk (HyperCubicGrid size true) (map (map of_Z) ns) = Ok h /\
  (forall s, valid_site size s -> HistGetResult h s = Ok (r s)) /\
  (Rabs (sumR (map (fun s => RR (r s)) (upto (prodZ size))) - IZR (squared_numbers ns) / IZR (vsize ns * (prodZ size * prodZ size)))
   <= uro * (IZR (squared_magnitudes ns) / IZR (vsize ns * (prodZ size * prodZ size))))%R.
Proof.
  intros chk size ns Hs H Hm H1 Hc. destruct (histogram_of_integers size Hs chk ns H Hm H1 Hc) as (h & E & R).
  exists h, (fun s => match HistGetResult h s with Ok r => r | _ => f0 end). split; [exact E|].
  split; [intros s Vs; destruct (R s Vs) as (r & -> & _); reflexivity|].
  pose proof (sites_pos size Hs) as Pp.
  pose proof (weighted size ns (fun _ => 1%R) (fun s => match HistGetResult h s with Ok r => r | _ => f0 end) (vsize ns * (prodZ size * prodZ size))
    Hs H Hm ltac:(nia) ltac:(intros; cbn beta; rewrite Rabs_R1; lra)) as W.
  rewrite <- (correlation_total size Hs ns H), IZR_sumZ.
  rewrite (L_Bravais.sumR_ext _ (fun s => 1 * RR (match HistGetResult h s with Ok r => r | _ => f0 end))%R) by (intros; ring).
  rewrite (L_Bravais.sumR_ext (fun a => IZR (correlationZ ns (upto (prodZ size)) (um size a))) (fun s => 1 * IZR (correlationZ ns (upto (prodZ size)) (um size s)))%R) by (intros; ring).
  apply W. intros s Vs. destruct (R s Vs) as (r & -> & _ & B & Rr). split; [exact B|exact Rr].
Qed.
Print Assumptions C112_total.

(** The transform of the bins is the structure factor that AccumulateSk gathers
    from the same configurations, up to one rounding of the magnitudes. *)
Theorem C112_structure_factor : forall chk B size ns,
  dual_momenta B size -> lattice_ok B size -> prodZ size < 2 ^ 32 ->
  Forall (fun n => vsize n = prodZ size) ns -> squared_magnitudes ns <= 2 ^ 53 ->
  1 <= vsize ns -> vsize ns * (prodZ size * prodZ size) <= 2 ^ 53 ->
  exists L sk h r, Lattice numR PI B size true = Ok L /\
  ofold (fun sk n => AccumulateSk numR sin cos L (map IZR n) sk (/ IZR (vsize ns))) ns (repeat 0%R (Z.to_nat (prodZ size))) = Ok sk /\
  correlate_all chk (l_grid L) (map (map of_Z) ns) = Ok h /\
  (forall s, valid_site size s -> HistGetResult h s = Ok (r s)) /\
  forall i k v, valid_site size i -> GetMomentum L i = Ok k -> (forall s, valid_site size s -> GetVector L 0 s = Ok (v s)) ->
  (Rabs (sumR (map (fun s => cos (dot k (v s)) * RR (r s)) (upto (prodZ size))) - nth (Z.to_nat i) sk 0)
   <= uro * (IZR (squared_magnitudes ns) / IZR (vsize ns * (prodZ size * prodZ size))))%R.
Proof.
  intros chk B size ns D HL Hlt H Hm H1 Hc. pose proof (sizes_of B size HL) as Hs. pose proof (sites_pos size Hs) as Pp.
  destruct (histogram_of_integers size Hs chk ns H Hm H1 Hc) as (h & E & R).
  destruct (folded B size D HL ns (/ IZR (vsize ns)) H Hlt (repeat 0%R (Z.to_nat (prodZ size)))) as (sk & Ek & _ & A).
  { unfold vsize. rewrite repeat_length. lia. }
  exists (built numR PI B size true), sk, h, (fun s => match HistGetResult h s with Ok r => r | _ => f0 end).
  split; [now apply lattice_built|]. split; [exact Ek|]. split; [exact E|].
  split; [intros s Vs; destruct (R s Vs) as (r & -> & _); reflexivity|]. intros i k v Vi Em Hv.
  rewrite (A i k v Vi Em Hv). rewrite nth_repeat, Rplus_0_l.
  pose proof (weighted size ns (fun s => cos (dot k (v s))) (fun s => match HistGetResult h s with Ok r => r | _ => f0 end) (vsize ns * (prodZ size * prodZ size))
    Hs H Hm ltac:(nia) ltac:(intros; apply Rabs_le; apply COS_bound)) as W.
  assert (N1 : IZR (vsize ns) <> 0%R) by (apply not_0_IZR; lia). assert (N2 : IZR (prodZ size * prodZ size) <> 0%R) by (apply not_0_IZR; nia).
  match goal with |- (Rabs (_ - ?x) <= _)%R => replace x with
    (sumR (map (fun s => cos (dot k (v s)) * IZR (correlationZ ns (upto (prodZ size)) (um size s))) (upto (prodZ size))) / IZR (vsize ns * (prodZ size * prodZ size)))%R end.
  - apply W. intros s Vs. destruct (R s Vs) as (r & -> & _ & Bd & Rr). split; [exact Bd|exact Rr].
  - rewrite (mult_IZR (vsize ns)). field. split; assumption.
Qed.
Print Assumptions C112_structure_factor.

(** Occupations 1,0,2,0 and 0,3,1,0 on a chain of four sites: correlations 5 and 10
    on the same site, 3 between neighbours, 4 between second neighbours. *)
Example C112_example :
  sizes_ok [4] /\ Forall (fun n => vsize n = prodZ [4]) [[1; 0; 2; 0]; [0; 3; 1; 0]] /\ squared_magnitudes [[1; 0; 2; 0]; [0; 3; 1; 0]] = 25 /\
  dual_momenta (ChainLattice numR) [4] /\ lattice_ok (ChainLattice numR) [4] /\
  map (fun s => match omapl (GetUnMappedSite (HyperCubicGrid [4] true) s) (upto 4) with
                | Ok l => correlationZ [[1; 0; 2; 0]; [0; 3; 1; 0]] (upto 4) (numberZ l) | _ => 0 end) (upto 4) = [15; 3; 4; 3] /\
  match correlate_all true (HyperCubicGrid [4] true) (map (map of_Z) [[1; 0; 2; 0]; [0; 3; 1; 0]]) with
  | Ok h => match omapl (HistGetResult h) (upto 4) with
            | Ok r => map B2SF r = map (fun c => B2SF (fdiv (of_Z c) (of_Z 32))) [15; 3; 4; 3] | _ => False end
  | _ => False end.
Proof.
  assert (HL : lattice_ok (ChainLattice numR) [4]) by standard_lattice.
  split; [exact (sizes_of _ _ HL)|]. split; [repeat constructor|]. split; [reflexivity|]. split; [apply (C83_built_in [4] 4)|]. split; [exact HL|].
  split; vm_compute; reflexivity.
Qed.
