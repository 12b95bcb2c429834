(** Lemmas about the results of correlation histograms. *)
From Coq Require Import ZArith Reals List Bool Permutation Lia Lra Psatz.
From Flocq Require Import Core.Core IEEE754.BinarySingleNaN.
From Verif Require Import Base F64 Num S_Accum S_Math S_Grid S_Hist S_Corr S_CorrHist M_MathInt M_Grid M_Accum M_Hist M_CorrHist
  L_MathInt L_Grid L_Sum L_Hist L_LatticeK L_Lattice L_Bonds L_LatticeN L_CorrHist L_Space.
From Verif Require L_Bravais L_BravaisAcc L_Fourier L_Sk.
Import ListNotations.
Open Scope Z_scope.
Open Scope out_scope.

(** ** Sums of doubles that are whole numbers *)
Definition whole (x : f64) (z : Z) : Prop := fin x /\ RR x = IZR z.

Local Ltac zstep := try assumption; try lia; try reflexivity.

Lemma neumaier_whole l z : Forall2 whole l z -> (sumZabs z <= 2 ^ 53)%Z ->
  fin (n_sum (neumaier_of l)) /\ RR (n_sum (neumaier_of l)) = IZR (sumZs z) /\
  fin (n_c (neumaier_of l)) /\ RR (n_c (neumaier_of l)) = 0%R.
Proof.
  revert l. induction z as [|x z IH] using rev_ind; intros l F H.
  - inversion F. subst. repeat split; reflexivity.
  - apply Forall2_app_inv_r in F as (l1 & l2 & F1 & F2 & ->). inversion F2 as [|y x' l3 z3 [Fx Ex] F3]; subst. inversion F3; subst.
    rewrite sumZabs_snoc in H. destruct (IH l1 F1) as (Fs & Es & Fc & Ec); [lia|].
    rewrite neumaier_of_snoc, sumZs_snoc. pose proof (sumZ_le_abs z) as Hl.
    destruct (neumaier_of l1) as [s c n]. unfold neumaier_step. cbn [n_sum n_c numF n_sub n_add n_le n_abs] in *.
    destruct (fadd_Z s y (sumZs z) x) as [Ft Et]; zstep.
    destruct (fsub_Z s (fadd s y) (sumZs z) (sumZs z + x)) as [Fd Ed]; zstep.
    destruct (fadd_Z (fsub s (fadd s y)) y (sumZs z - (sumZs z + x)) x) as [Fe Ee]; zstep.
    destruct (fadd_Z c (fadd (fsub s (fadd s y)) y) 0 (sumZs z - (sumZs z + x) + x)) as [Fg Eg]; zstep.
    destruct (fsub_Z y (fadd s y) x (sumZs z + x)) as [Fd' Ed']; zstep.
    destruct (fadd_Z (fsub y (fadd s y)) s (x - (sumZs z + x)) (sumZs z)) as [Fe' Ee']; zstep.
    destruct (fadd_Z c (fadd (fsub y (fadd s y)) s) 0 (x - (sumZs z + x) + sumZs z)) as [Fg' Eg']; zstep.
    repeat split; auto; destruct (fle _ _); auto.
    + rewrite Eg. f_equal. lia.
    + rewrite Eg'. f_equal. lia.
Qed.

Lemma neumaier_sum_whole l z : Forall2 whole l z -> (sumZabs z <= 2 ^ 53)%Z ->
  fin (NeumaierSum numF (neumaier_of l)) /\ RR (NeumaierSum numF (neumaier_of l)) = IZR (sumZs z).
Proof.
  intros F H. destruct (neumaier_whole l z F H) as (Fs & Es & Fc & Ec). pose proof (sumZ_le_abs z) as Hl.
  unfold NeumaierSum. cbn [numF n_add].
  destruct (fadd_Z (n_sum (neumaier_of l)) (n_c (neumaier_of l)) (sumZs z) 0) as [F' E]; zstep. split; [assumption|]. rewrite E. f_equal. lia.
Qed.

(** Quotients of whole numbers round with a relative error. *)
Lemma quotient_error s n : Z.abs s <= 2 ^ 53 -> 1 <= n <= 2 ^ 53 ->
  (Rabs (rnd (IZR s / IZR n) - IZR s / IZR n) <= uro * (Rabs (IZR s) / IZR n))%R.
Proof.
  intros Hs Hn. assert (Pn : (0 < IZR n)%R) by (apply IZR_lt; lia).
  assert (Ea : Rabs (IZR s / IZR n) = (Rabs (IZR s) / IZR n)%R).
  { unfold Rdiv. rewrite Rabs_mult, (Rabs_pos_eq (/ IZR n)); [reflexivity|]. left. now apply Rinv_0_lt_compat. }
  destruct (Z.eq_dec s 0) as [->|Ns].
  - replace (0 / IZR n)%R with 0%R by (field; lra). rewrite (rnd_fmt 0 fmt_0), Rminus_0_r, Rabs_R0.
    apply Rmult_le_pos; [unfold uro; apply bpow_ge_0|]. unfold Rdiv. rewrite Rmult_0_l. lra.
  - rewrite <- Ea. apply rnd_rel. rewrite Ea, <- abs_IZR.
    apply Rle_trans with (/ bpow radix2 53)%R.
    + rewrite <- bpow_opp. apply bpow_le. lia.
    + assert (B : (IZR n <= bpow radix2 53)%R) by (change (bpow radix2 53) with (IZR (2 ^ 53)); apply IZR_le; lia).
      assert (1 <= IZR (Z.abs s))%R by (apply IZR_le; lia).
      apply Rle_trans with (/ IZR n)%R; [apply Rinv_le; lra|]. unfold Rdiv. rewrite <- (Rmult_1_l (/ IZR n)) at 1.
      apply Rmult_le_compat_r; [left; now apply Rinv_0_lt_compat|assumption].
Qed.

Section Grid.
Variable size : list Z.
Hypothesis Hs : sizes_ok size.
Notation g := (HyperCubicGrid size true).
Notation P := (prodZ size).
Notation um := (um size).
Notation mp := (mp size).

Lemma um_comm s t : valid_site size s -> valid_site size t -> um s t = um t s.
Proof.
  intros Vs Vt. destruct (site_coords g s Hs Vs) as (cs & _ & Gs & Es). destruct (site_coords g t Hs Vt) as (ct & _ & Gt & Et).
  change (gsize g) with size in *. pose proof (unmapped_closed g cs ct eq_refl Hs Gt Gs) as U1. pose proof (unmapped_closed g ct cs eq_refl Hs Gs Gt) as U2.
  change (gsize g) with size in U1, U2. unfold L_CorrHist.um. rewrite <- Es, <- Et, U1, U2.
  f_equal. unfold moved_by. clear. revert cs ct. induction size as [|e l IH]; intros [|x xs] [|y ys]; try reflexivity.
  cbn [map3]. rewrite IH. f_equal. f_equal. lia.
Qed.

Lemma um_translation t a b : valid_site size t -> valid_site size a -> valid_site size b -> mp (um t a) (um t b) = mp a b.
Proof.
  intros Vt Va Vb. pose proof (mapped_translation g t a b eq_refl Hs Vt Va Vb) as E.
  rewrite (proj1 (um_ok size Hs t a Vt Va)), (proj1 (um_ok size Hs t b Vt Vb)) in E. cbn [bind] in E.
  unfold L_CorrHist.mp. now rewrite E.
Qed.

(** Going by s and then by t leads where going by um s t leads. *)
Lemma um_um s t a : valid_site size s -> valid_site size t -> valid_site size a -> um s (um t a) = um (um t s) a.
Proof.
  intros Vs Vt Va.
  assert (Vu : valid_site size (um t a)) by apply (um_ok size Hs t a Vt Va).
  assert (Vw : valid_site size (um s a)) by apply (um_ok size Hs s a Vs Va).
  assert (Vx : valid_site size (um t s)) by apply (um_ok size Hs t s Vt Vs).
  (* both are the site a shifted: b with mp (um t a) b = s *)
  assert (E1 : um s (um t a) = um t (um s a)).
  { assert (M : mp (um t a) (um t (um s a)) = s) by (rewrite um_translation by assumption; apply (um_ok size Hs s a Vs Va)).
    rewrite <- M at 1. apply (mp_ok size Hs (um t a) (um t (um s a)) Vu). apply (um_ok size Hs t (um s a) Vt Vw). }
  rewrite E1. rewrite (um_comm s a Vs Va), (um_comm (um t s) a Vx Va).
  (* um t (um a s) = um a (um t s) *)
  assert (Vy : valid_site size (um a s)) by apply (um_ok size Hs a s Va Vs).
  assert (M : mp (um t s) (um t (um a s)) = a) by (rewrite um_translation by assumption; apply (um_ok size Hs a s Va Vs)).
  rewrite <- M at 2. symmetry. apply (mp_ok size Hs (um t s) (um t (um a s)) Vx). apply (um_ok size Hs t (um a s) Vt Vy).
Qed.

Lemma zero_valid : valid_site size 0.
Proof. pose proof (sites_pos size Hs). unfold valid_site. lia. Qed.

Lemma um_zero a : valid_site size a -> um 0 a = a.
Proof.
  intros Va. pose proof zero_valid as V0.
  assert (M : mp a a = 0).
  { destruct (site_coords g a Hs Va) as (ca & _ & Ga & Ea). change (gsize g) with size in *.
    pose proof (mapped_closed g ca ca eq_refl Hs Ga Ga) as U. change (gsize g) with size in U. unfold L_CorrHist.mp. rewrite <- Ea, U. unfold seen_from.
    assert (G : forall l xs, Forall2 (fun s x => 0 <= x < s) l xs -> row_major l (map3 (fun s x y => (y - x) mod s) l xs xs) = 0).
    { clear. induction 1 as [|s x l xs Hx F IH]; [reflexivity|]. cbn [map3 row_major]. rewrite Z.sub_diag, Z.mod_0_l, IH by lia. lia. }
    apply G. exact Ga. }
  rewrite <- M at 1. now apply (mp_ok size Hs a a).
Qed.

Lemma um_opposite s s' a : valid_site size s -> valid_site size s' -> um s s' = 0 -> valid_site size a ->
  um s (um s' a) = a /\ um s' (um s a) = a.
Proof.
  intros Vs Vs' E Va. rewrite !um_um by assumption. rewrite (um_comm s' s Vs' Vs), E. split; apply um_zero; assumption.
Qed.

Lemma um_perm s : valid_site size s -> Permutation (map (um s) (upto P)) (upto P).
Proof.
  intros Vs. apply NoDup_Permutation.
  - apply L_LatticeN.NoDup_map_on; [apply upto_NoDup|]. intros a b Ia Ib E. apply upto_In in Ia, Ib.
    assert (K : forall t, valid_site size t -> mp s (um s t) = t) by (intros t Vt; rewrite um_comm by assumption; apply (um_ok size Hs t s Vt Vs)).
    rewrite <- (K a Ia), <- (K b Ib). now rewrite E.
  - apply upto_NoDup.
  - intros b. rewrite in_map_iff, upto_In. split.
    + intros (a & <- & Ia). apply upto_In in Ia. apply (um_ok size Hs s a Vs Ia).
    + intros Vb. exists (mp s b). destruct (mp_ok size Hs s b Vs Vb) as (_ & Vm & U). rewrite um_comm by assumption.
      split; [exact U|]. now apply upto_In.
Qed.

Lemma correlation_opposite ns s s' : valid_site size s -> valid_site size s' -> um s s' = 0 ->
  correlationZ ns (upto P) (um s) = correlationZ ns (upto P) (um s').
Proof.
  intros Vs Vs' E. unfold correlationZ. apply sumZ_ext. intros n _. cbn beta.
  etransitivity; [symmetry; exact (sumZ_perm _ _ (Permutation_map (fun a => numberZ n a * numberZ n (um s a)) (um_perm s' Vs')))|].
  rewrite map_map. apply sumZ_ext. intros a Ia. apply upto_In in Ia. rewrite (proj1 (um_opposite s s' a Vs Vs' E Ia)). lia.
Qed.

(** ** Results *)
Lemma bin_whole ns s : Forall (fun n => vsize n = P) ns -> squared_magnitudes ns <= 2 ^ 53 -> valid_site size s ->
  Forall2 whole (bin_values size (map (map of_Z) ns) s) (bin_numbers size ns s).
Proof.
  intros H Hm Vs. unfold bin_values, bin_numbers.
  assert (G : forall n, In n ns -> forall a b, Z.abs (numberZ n a) <= 2 ^ 53 /\ Z.abs (numberZ n b) <= 2 ^ 53 /\ Z.abs (numberZ n a * numberZ n b) <= 2 ^ 53).
  { intros n I a b. pose proof (numberZ_abs n a) as Ha. pose proof (numberZ_abs n b) as Hb.
    assert (Q : sumZ (map Z.abs n) * sumZ (map Z.abs n) <= squared_magnitudes ns).
    { unfold squared_magnitudes. clear -I. induction ns as [|m l IH]; [contradiction|]. cbn [map]. rewrite sumZ_cons.
      assert (N : 0 <= sumZ (map (fun n => sumZ (map Z.abs n) * sumZ (map Z.abs n)) l)).
      { clear. induction l as [|m l IH]; [reflexivity|]. cbn [map]. rewrite sumZ_cons. nia. }
      destruct I as [->|I]; [lia|]. specialize (IH I). nia. }
    pose proof (Z.abs_nonneg (numberZ n a)). pose proof (Z.abs_nonneg (numberZ n b)). rewrite Z.abs_mul. repeat split; nia. }
  clear Hm H. induction ns as [|n ns IH]; [constructor|]. cbn [map flat_map]. apply Forall2_app.
  - specialize (G n (or_introl eq_refl)). generalize (upto P). intros l. induction l as [|a l IHl]; [constructor|]. cbn [map].
    constructor; [|exact IHl]. rewrite !at_f_Z. destruct (G a (um s a)) as (G1 & G2 & G3). unfold whole. now apply fmul_Z.
  - apply IH. intros m I. apply G. now right.
Qed.

Lemma squared_pos ns : 0 <= squared_magnitudes ns.
Proof. unfold squared_magnitudes. induction ns as [|n ns IH]; [reflexivity|]. cbn [map]. rewrite sumZ_cons. nia. Qed.

Lemma lengths ns : Forall (fun n => vsize n = P) ns -> Forall (fun n : list f64 => vsize n = P) (map (map of_Z) ns).
Proof. intros H. apply Forall_map. revert H. apply Forall_impl. intros n L. unfold vsize in *. now rewrite map_length. Qed.

Lemma histogram_of_integers chk ns : Forall (fun n => vsize n = P) ns -> squared_magnitudes ns <= 2 ^ 53 ->
  1 <= vsize ns -> vsize ns * (P * P) <= 2 ^ 53 ->
  exists h, correlate_all chk g (map (map of_Z) ns) = Ok h /\
  forall s, valid_site size s -> exists r, HistGetResult h s = Ok r /\ fin r /\
    Z.abs (correlationZ ns (upto P) (um s)) <= correlationZ (map (map Z.abs) ns) (upto P) (um s) <= squared_magnitudes ns /\
    RR r = rnd (IZR (correlationZ ns (upto P) (um s)) / IZR (vsize ns * (P * P))).
Proof.
  intros H Hm H1 Hc. pose proof (sites_pos size Hs) as Pp.
  assert (Lm : vsize (map (map of_Z) ns) = vsize ns) by (unfold vsize; now rewrite map_length).
  destruct (correlated size Hs chk (map (map of_Z) ns) (lengths ns H)) as (h & E & _ & Ec & Eb); [rewrite Lm; unfold two64; lia|].
  exists h. split; [exact E|]. intros s Vs. unfold HistGetResult. rewrite (Eb s Vs). cbn [bind].
  unfold NeumaierCount. rewrite neumaier_count_of, bin_values_length, Lm by assumption.
  rewrite u64_small by (unfold two64; nia). destruct (Z.eqb_spec (vsize ns * P) 0) as [Z0|_]; [nia|].
  unfold HistGetCount in Ec. rewrite Ec, Lm. pose proof (bin_abs_bound size Hs ns s H Vs) as Bb.
  assert (Ez : sumZabs (bin_numbers size ns s) = sumZ (map Z.abs (bin_numbers size ns s))) by reflexivity.
  destruct (neumaier_sum_whole _ _ (bin_whole ns s H Hm Vs)) as [Fs Es]; [lia|].
  pose proof (sumZ_le_abs (bin_numbers size ns s)) as La. change (sumZs (bin_numbers size ns s)) with (sumZ (bin_numbers size ns s)) in Es, La.
  rewrite Ez in La. rewrite bin_numbers_sum in Es, La. rewrite bin_numbers_abs in La, Bb.
  destruct (fdiv_Z _ (vsize ns * (P * P)) _ Fs Es) as [Fd Ed]; [lia|nia|].
  eexists. split; [reflexivity|]. split; [exact Fd|]. split; [lia|exact Ed].
Qed.
End Grid.

(** ** Structure factors *)
From Verif Require Import M_Bravais M_Lattice S_Bravais S_Lattice S_Fourier L_Corr.

Section Sk.
Variables (B : bravais R) (size : list Z).
Hypothesis D : dual_momenta B size.
Hypothesis H : lattice_ok B size.
Notation P := (prodZ size).
Notation L := (built numR PI B size true).
Notation um := (um size).
Notation mp := (mp size).

Lemma sizes_of : sizes_ok size.
Proof. destruct H as (_ & _ & _ & K & _). exact K. Qed.

Lemma vector_of_displacement a b : valid_site size a -> valid_site size b -> GetVector L a b = GetVector L 0 (mp a b).
Proof.
  intros Va Vb. pose proof sizes_of as Hs. pose proof (zero_valid size Hs) as V0.
  destruct (mp_ok size Hs a b Va Vb) as (M & Vm & _). destruct (mp_ok size Hs 0 (mp a b) V0 Vm) as (M0 & _ & _).
  assert (E : mp 0 (mp a b) = mp a b).
  { pose proof (um_comm size Hs (mp a b) 0 Vm V0) as C. rewrite (um_zero size Hs) in C by exact Vm.
    rewrite <- C at 1. apply (um_ok size Hs (mp a b) 0 Vm V0). }
  unfold GetVector. change (l_grid L) with (HyperCubicGrid size true). rewrite M, M0, E. reflexivity.
Qed.

Lemma displacementsR (F : Z -> Z -> Z -> R) :
  sumR (map (fun a => sumR (map (fun b => F a b (mp a b)) (upto P))) (upto P)) =
  sumR (map (fun s => sumR (map (fun a => F a (um s a) s) (upto P))) (upto P)).
Proof.
  pose proof sizes_of as Hs. rewrite <- (L_Bravais.sumR_swap (fun a s => F a (um s a) s)). apply L_Bravais.sumR_ext. intros a Ia. apply upto_In in Ia.
  rewrite <- (L_Fourier.sumR_perm _ _ (Permutation_map (fun s => F a (um s a) s) (sites_seen size Hs a Ia))), map_map.
  apply L_Bravais.sumR_ext. intros b Ib. apply upto_In in Ib. now rewrite (proj2 (proj2 (mp_ok size Hs a b Ia Ib))).
Qed.

Lemma IZR_sumZ {A} (f : A -> Z) l : IZR (sumZ (map f l)) = sumR (map (fun a => IZR (f a)) l).
Proof. induction l as [|a l IH]; [reflexivity|]. cbn [map]. rewrite sumZ_cons, plus_IZR, IH. reflexivity. Qed.

Lemma at_site_Z n a : at_site (map IZR n) a = IZR (numberZ n a).
Proof. unfold at_site, numberZ. now rewrite <- (map_nth IZR). Qed.

Lemma transform_Z n k v : (forall s, valid_site size s -> GetVector L 0 s = Ok (v s)) ->
  forall w, (forall a b, valid_site size a -> valid_site size b -> GetVector L a b = Ok (w a b)) ->
  pair_transform (map IZR n) (upto P) k w =
  sumR (map (fun s => cos (dot k (v s)) * IZR (sumZ (map (fun a => numberZ n a * numberZ n (um s a))%Z (upto P)))) (upto P))%R.
Proof.
  intros Hv w Hw. unfold pair_transform.
  transitivity (sumR (map (fun a => sumR (map (fun b => IZR (numberZ n a * numberZ n b) * cos (dot k (v (mp a b)))) (upto P))) (upto P)))%R.
  - apply L_Bravais.sumR_ext. intros a Ia. apply L_Bravais.sumR_ext. intros b Ib. apply upto_In in Ia, Ib.
    rewrite !at_site_Z, <- mult_IZR. f_equal. f_equal. f_equal.
    pose proof (Hw a b Ia Ib) as E. rewrite vector_of_displacement in E by assumption.
    rewrite Hv in E by apply (mp_ok size sizes_of a b Ia Ib). congruence.
  - rewrite (displacementsR (fun a b s => IZR (numberZ n a * numberZ n b) * cos (dot k (v s)))%R).
    apply L_Bravais.sumR_ext. intros s _. rewrite IZR_sumZ, <- L_Bravais.sumR_scal. apply L_Bravais.sumR_ext. intros a _. ring.
Qed.

Lemma folded ns mult : Forall (fun n => vsize n = P) ns -> P < 2 ^ 32 ->
  forall sk, vsize sk = P ->
  exists sk', ofold (fun sk n => AccumulateSk numR sin cos L (map IZR n) sk mult) ns sk = Ok sk' /\ vsize sk' = P /\
  forall i k v, valid_site size i -> GetMomentum L i = Ok k -> (forall s, valid_site size s -> GetVector L 0 s = Ok (v s)) ->
  (nth (Z.to_nat i) sk' 0 = nth (Z.to_nat i) sk 0 +
   mult * sumR (map (fun s => cos (dot k (v s)) * IZR (correlationZ ns (upto P) (um s))) (upto P)) / IZR (P * P))%R.
Proof.
  intros HF Hlt. pose proof sizes_of as Hs. pose proof (sites_pos size Hs) as Pp.
  assert (NP : IZR (P * P) <> 0%R) by (apply not_0_IZR; nia).
  induction ns as [|n ns IH]; intros sk Lk.
  - exists sk. split; [reflexivity|]. split; [exact Lk|]. intros i k v _ _ _. unfold correlationZ. cbn [map]. unfold sumZ at 1. cbn [fold_right].
    rewrite (L_Bravais.sumR_ext _ (fun _ => 0%R)) by (intros; ring). rewrite L_Bravais.sumR_zero. field. exact NP.
  - apply Forall_cons_iff in HF as [Ln HF]. assert (Lo : vsize (map IZR n) = P) by (unfold vsize in *; now rewrite map_length).
    destruct (accumulated B size D H (map IZR n) sk mult Lo Lk Hlt) as (sk1 & E1 & A1 & _).
    assert (L1 : vsize sk1 = P).
    { destruct (L_Fourier.increments B size H (map IZR n) sk mult Lo Lk Hlt) as (sk2 & E2 & L2 & _). rewrite E1 in E2. injection E2 as <-. exact L2. }
    destruct (IH HF sk1 L1) as (sk' & E & L' & A). exists sk'. cbn [ofold]. rewrite E1. cbn [bind]. split; [exact E|]. split; [exact L'|].
    intros i k v Vi Ek Hv. rewrite (A i k v Vi Ek Hv).
    assert (Hw : forall a b, valid_site size a -> valid_site size b -> GetVector L a b = Ok (v (mp a b))).
    { intros a b Va Vb. rewrite vector_of_displacement by assumption. apply Hv. apply (mp_ok size Hs a b Va Vb). }
    rewrite (A1 i k (fun a b => v (mp a b)) Vi Ek Hw), (transform_Z n k v Hv _ Hw).
    rewrite (L_Bravais.sumR_ext (fun s => cos (dot k (v s)) * IZR (correlationZ (n :: ns) (upto P) (um s)))%R
      (fun s => cos (dot k (v s)) * IZR (sumZ (map (fun a => numberZ n a * numberZ n (um s a))%Z (upto P))) +
                cos (dot k (v s)) * IZR (correlationZ ns (upto P) (um s)))%R).
    + rewrite L_Bravais.sumR_plus. field. exact NP.
    + intros s _. unfold correlationZ. cbn [map]. rewrite sumZ_cons, plus_IZR. ring.
Qed.
End Sk.

(** ** Weighted sums of the bins *)
Lemma weighted size ns (w : Z -> R) (r : Z -> f64) N : sizes_ok size -> Forall (fun n => vsize n = prodZ size) ns ->
  squared_magnitudes ns <= 2 ^ 53 -> 1 <= N <= 2 ^ 53 -> (forall s, Rabs (w s) <= 1)%R ->
  (forall s, valid_site size s -> Z.abs (correlationZ ns (upto (prodZ size)) (um size s)) <= correlationZ (map (map Z.abs) ns) (upto (prodZ size)) (um size s) <= squared_magnitudes ns /\
     RR (r s) = rnd (IZR (correlationZ ns (upto (prodZ size)) (um size s)) / IZR N)) ->
  (Rabs (sumR (map (fun s => w s * RR (r s)) (upto (prodZ size))) -
         sumR (map (fun s => w s * IZR (correlationZ ns (upto (prodZ size)) (um size s))) (upto (prodZ size))) / IZR N)
   <= uro * (IZR (squared_magnitudes ns) / IZR N))%R.
Proof.
  intros Hs H Hm HN Hw Hr. rewrite <- (abs_total size Hs ns H), IZR_sumZ. assert (PN : (0 < / IZR N)%R) by (apply Rinv_0_lt_compat, IZR_lt; lia).
  assert (U : (0 <= uro)%R) by (unfold uro; apply bpow_ge_0).
  set (G := fun s => correlationZ ns (upto (prodZ size)) (um size s)) in *. set (A := fun s => correlationZ (map (map Z.abs) ns) (upto (prodZ size)) (um size s)) in *.
  assert (K : forall s, In s (upto (prodZ size)) -> (Rabs (w s * RR (r s) - w s * IZR (G s) / IZR N) <= uro * (IZR (A s) / IZR N))%R).
  { intros s Is. apply upto_In in Is. destruct (Hr s Is) as ([Ha Hb] & Er). fold (G s) in Ha, Er. fold (A s) in Ha, Hb. rewrite Er.
    pose proof (quotient_error (G s) N ltac:(lia) HN) as Q. specialize (Hw s).
    replace (w s * rnd (IZR (G s) / IZR N) - w s * IZR (G s) / IZR N)%R with (w s * (rnd (IZR (G s) / IZR N) - IZR (G s) / IZR N))%R by (unfold Rdiv; ring).
    rewrite Rabs_mult. apply Rle_trans with (1 * (uro * (Rabs (IZR (G s)) / IZR N)))%R.
    - apply Rmult_le_compat; try apply Rabs_pos; assumption.
    - rewrite Rmult_1_l. apply Rmult_le_compat_l; [exact U|]. apply Rmult_le_compat_r; [lra|]. rewrite <- abs_IZR. apply IZR_le. exact Ha. }
  change (Rabs (sumR (map (fun s => w s * RR (r s)) (upto (prodZ size))) - sumR (map (fun s => w s * IZR (G s)) (upto (prodZ size))) / IZR N)
    <= uro * (sumR (map (fun s => IZR (A s)) (upto (prodZ size))) / IZR N))%R.
  clearbody G A. clear Hr. revert K. generalize (upto (prodZ size)). intros l. induction l as [|s l IH]; intros K.
  - cbn [map]. unfold sumR. cbn [fold_right]. unfold Rdiv. rewrite !Rmult_0_l, Rminus_0_r, Rabs_R0. lra.
  - specialize (IH (fun t I => K t (or_intror I))). specialize (K s (or_introl eq_refl)). cbn [map]. rewrite !L_Sk.sumR_cons.
    replace (w s * RR (r s) + sumR (map (fun s => w s * RR (r s)) l) - (w s * IZR (G s) + sumR (map (fun s => w s * IZR (G s)) l)) / IZR N)%R
      with ((w s * RR (r s) - w s * IZR (G s) / IZR N) + (sumR (map (fun s => w s * RR (r s)) l) - sumR (map (fun s => w s * IZR (G s)) l) / IZR N))%R
      by (unfold Rdiv; ring).
    eapply Rle_trans; [apply Rabs_triang|]. unfold Rdiv in *. rewrite Rmult_plus_distr_r, Rmult_plus_distr_l. lra.
Qed.
