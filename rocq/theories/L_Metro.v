(** Lemmas about Metropolis walkers. *)
From Coq Require Import ZArith Reals List Bool Lia Lra Permutation.
From Flocq Require Import Core.Core.
From Verif Require Import Base F64 Num S_Math S_Accum S_MathF S_Random M_Grid M_Bravais M_Lattice M_MathF M_Random M_Move M_Hop M_Metro S_Grid S_Bravais S_Lattice S_Bonds S_Hop
  S_Move S_Metro L_MathF L_Grid L_Bravais L_Lattice L_Bonds L_Share L_Markov L_Hop L_Move.
Import ListNotations.
Open Scope R_scope.

(** * Acceptance *)
Notation W := (IZR (2 ^ 64)).
Definition acc (p : f64) : R := INR (length (filter (choose_with_probability_rng p) every_word)) / W.

Lemma W_pos : 0 < W. Proof. apply IZR_lt. lia. Qed.
Lemma acc_counted p : counted (fun w => word w /\ choose_with_probability_rng p w = true) (W * acc p).
Proof.
  pose proof W_pos. unfold acc. replace (W * _) with (INR (length (filter (choose_with_probability_rng p) every_word))) by (field; lra).
  apply counted_filter; [apply every_word_NoDup|]. intros w. now rewrite every_word_In.
Qed.
Lemma acc_range p : 0 <= acc p <= 1.
Proof.
  pose proof W_pos. unfold acc. split; [apply Rmult_le_pos; [apply pos_INR|apply Rlt_le, Rinv_0_lt_compat; lra]|].
  apply Rmult_le_reg_r with W; [lra|]. unfold Rdiv. rewrite Rmult_assoc, Rinv_l, Rmult_1_r, Rmult_1_l by lra. rewrite <- every_word_length. apply le_INR, filter_shorter.
Qed.
Lemma acc_all p : fin p -> 1 <= RR p -> acc p = 1.
Proof.
  intros F P. pose proof W_pos. unfold acc. replace (filter (choose_with_probability_rng p) every_word) with every_word; [rewrite every_word_length; field; lra|].
  symmetry. assert (G : forall l, (forall w, In w l -> word w) -> filter (choose_with_probability_rng p) l = l).
  { induction l as [|w l IH]; intros Q; [reflexivity|]. cbn [filter]. rewrite IH by (intros; apply Q; now right).
    assert (Hw : word w) by (apply Q; now left). destruct (draw_unit w Hw) as [Fd D].
    assert (E : choose_with_probability_rng p w = true); [|now rewrite E]. unfold choose_with_probability_rng, choose_with_probability.
    apply flt_R; [exact Fd|exact F|]. change (RR (uniform_real (canonical w) f0 f1)) with (drawn f1 w). rewrite D. pose proof (canonical_range w Hw). lra. }
  apply G. intros w. apply every_word_In.
Qed.
Lemma acc_share p : fin p -> 0 <= RR p <= 1 -> Rabs (acc p - RR p) <= 2 * uro.
Proof.
  intros F P. destruct (with_probability_share p F P) as (N & HN & E). pose proof W_pos.
  assert (C : W * acc p = IZR (N - 0)).
  { exact (counted_unique _ _ _ (acc_counted p) (counted_between _ _ _ HN)). }
  replace (acc p) with (share 0 N); [exact E|]. unfold share. rewrite <- C. field. lra.
Qed.

Lemma eta_uro : eta <= uro.
Proof. unfold eta, uro. apply bpow_le. lia. Qed.
Lemma acceptance_near x y : fin x -> fin y -> bpow radix2 (-500) <= RR x <= bpow radix2 500 -> bpow radix2 (-500) <= RR y <= bpow radix2 500 ->
  Rabs (acc (fdiv y x) - acceptance (RR x) (RR y)) <= 4 * uro.
Proof.
  intros Fx Fy Hx Hy. pose proof (bpow_gt_0 radix2 (-500)) as P. set (r := RR y / RR x). pose proof uro_pos as U.
  assert (R0 : 0 < r) by (apply Rdiv_lt_0_compat; lra).
  assert (R1 : r <= bpow radix2 1000).
  { unfold r. apply Rmult_le_reg_r with (RR x); [lra|]. unfold Rdiv. rewrite Rmult_assoc, Rinv_l, Rmult_1_r by lra.
    apply Rle_trans with (bpow radix2 1000 * bpow radix2 (-500)); [rewrite <- bpow_plus; cbn [Z.add Z.opp Z.pos_sub]; apply Hy|]. apply Rmult_le_compat_l; [apply bpow_ge_0|lra]. }
  destruct (fdiv_ok y x Fy ltac:(lra)) as [E F]; [apply (no_overflow _ 1000); [lia|fold r; rewrite Rabs_pos_eq; lra]|]. fold r in E.
  unfold acceptance. fold r. assert (F1 : fmt 1) by (change 1 with (bpow radix2 0); apply fmt_bpow; lia).
  destruct (Rle_dec r 1) as [L|G].
  - rewrite Rmin_right by exact L. assert (P0 : 0 <= rnd r <= 1) by (split; [rewrite <- rnd_0; apply rnd_le; lra|apply rnd_le_fmt; [exact F1|exact L]]).
    pose proof (acc_share (fdiv y x) F ltac:(rewrite E; exact P0)) as S. rewrite E in S. pose proof (rnd_err r) as Q. rewrite (Rabs_pos_eq r) in Q by lra. pose proof eta_uro.
    apply Rabs_le. apply Rabs_le_inv in S, Q. nra.
  - rewrite Rmin_left by lra. rewrite acc_all; [rewrite Rminus_diag_eq, Rabs_R0 by reflexivity; lra|exact F|]. rewrite E. apply rnd_ge_fmt; [exact F1|lra].
Qed.

Lemma sum_choice (f : Z -> bool) (F : Z -> R) c a l :
  sumR (map (fun w => F (if f w then c else a)) l) = INR (length (filter f l)) * F c + (INR (length l) - INR (length (filter f l))) * F a.
Proof.
  induction l as [|w l IH]; [unfold sumR; cbn; ring|]. cbn [map filter]. unfold sumR in *. cbn [fold_right]. rewrite IH.
  destruct (f w); cbn [length]; rewrite ?S_INR; ring.
Qed.

(** * The walker *)
Section Walker.
Context {T : Type} (N : num T) (pi : T) (B : bravais T) (size : list Z) (cl : bool) (H : lattice_ok B size).
Notation L := (built N pi B size cl).
Notation nn a := (nbrs B size cl (coords_of size a) (upto (b_gamma B))).
Context (Hg : (b_gamma B <= 2 ^ 46)%Z) (Hne : forall a, valid_site size a -> nn a <> []).
Context (weight : list f64) (Vw : vsize weight = prodZ size) (Ow : weights_ok weight).
Notation sites := (upto (prodZ size)).
Notation wf a := (nth (Z.to_nat a) weight f0).
Notation wt a := (RR (wf a)).
Notation pr := (pr N pi B size cl).
Notation qr := (qr B size cl).
Notation dg := (dg B size cl).
Notation target := (target N pi B size cl).

Lemma wt_get a : valid_site size a -> vget weight a = Ok (wf a).
Proof. intros Ha. apply vget_at. rewrite Vw. exact Ha. Qed.
Lemma wt_range a : valid_site size a -> fin (wf a) /\ bpow radix2 (-500) <= wt a <= bpow radix2 500.
Proof. intros Ha. unfold weights_ok in Ow. rewrite Forall_forall in Ow. apply Ow. apply nth_In. unfold vsize in Vw. unfold valid_site in Ha. lia. Qed.
Lemma wt_pos a : valid_site size a -> 0 < wt a.
Proof. intros Ha. destruct (wt_range a Ha) as [_ [Q _]]. pose proof (bpow_gt_0 radix2 (-500)). lra. Qed.

Definition ratio (a b : Z) : f64 := fdiv (wf b) (wf a).
Definition al (a b : Z) : R := acc (ratio a b).
Definition mi (a b : Z) : R := acceptance (wt a) (wt b).
Lemma al_near a b : valid_site size a -> valid_site size b -> Rabs (al a b - mi a b) <= 4 * uro.
Proof. intros Ha Hb. apply acceptance_near; try (now apply wt_range). Qed.
Lemma mi_range a b : valid_site size a -> valid_site size b -> 0 <= mi a b <= 1.
Proof.
  intros Ha Hb. unfold mi, acceptance. pose proof (wt_pos a Ha). pose proof (wt_pos b Hb). split; [|apply Rmin_l].
  apply Rmin_glb; [lra|]. apply Rlt_le, Rdiv_lt_0_compat; assumption.
Qed.

(** The site reached with two words. *)
Definition tgt (a w1 w2 : Z) : Z := let b := target a w1 in if choose_with_probability_rng (ratio a b) w2 then b else a.
Fixpoint walk (a : Z) (ws : list Z) : Z := match ws with w1 :: w2 :: ws' => walk (tgt a w1 w2) ws' | _ => a end.
Lemma tgt_valid a w1 w2 : valid_site size a -> word w1 -> valid_site size (tgt a w1 w2).
Proof.
  intros Ha H1. unfold tgt. destruct (target_valid N pi B size cl H Hg Hne a w1 Ha H1) as [V _].
  destruct (choose_with_probability_rng _ _); [now apply upto_In|exact Ha].
Qed.

(** Bookkeeping. *)
Definition moved (a w1 w2 : Z) : outcome := let b := target a w1 in
  if choose_with_probability_rng (ratio a b) w2 then Oaccepted (ratio a b) else Orejected (ratio a b).
Fixpoint moves (a : Z) (ws : list Z) : list outcome :=
  match ws with w1 :: w2 :: ws' => moved a w1 w2 :: moves (tgt a w1 w2) ws' | _ => [] end.
Lemma metropolis_step chk name o a w1 w2 : valid_site size a -> word w1 -> (chk = true -> (Z.of_nat (length o) < two64 - 1)%Z) ->
  metropolis chk L weight (a, ms_rep name (mkJ false o)) w1 w2 = Ok (tgt a w1 w2, ms_rep name (mkJ false (o ++ [moved a w1 w2]))).
Proof.
  intros Ha H1 Hk. destruct (target_valid N pi B size cl H Hg Hne a w1 Ha H1) as [V E]. apply upto_In in V.
  unfold metropolis. rewrite E. cbn [bind]. rewrite (wt_get _ V), (wt_get a Ha). cbn [bind]. fold (ratio a (target a w1)). unfold tgt, moved, record_move.
  destruct (choose_with_probability_rng (ratio a (target a w1)) w2).
  - change (MS_Add chk (ms_rep name (mkJ false o)) (MR_Accept (ratio a (target a w1)))) with (ms_call chk (ms_rep name (mkJ false o)) (McAdd (MR_Accept (ratio a (target a w1))))).
    rewrite ms_call_rep by exact Hk. reflexivity.
  - change (MS_Add chk (ms_rep name (mkJ false o)) (MR_Reject (ratio a (target a w1)))) with (ms_call chk (ms_rep name (mkJ false o)) (McAdd (MR_Reject (ratio a (target a w1))))).
    rewrite ms_call_rep by exact Hk. reflexivity.
Qed.
Lemma metropolis_runs chk name n : forall ws o a, words (2 * n) ws -> valid_site size a -> (chk = true -> (Z.of_nat (length o + n) < two64)%Z) ->
  metropolis_run chk L weight (a, ms_rep name (mkJ false o)) ws = Ok (walk a ws, ms_rep name (mkJ false (o ++ moves a ws))) /\
  valid_site size (walk a ws) /\ length (moves a ws) = n.
Proof.
  induction n as [|n IH]; intros ws o a [Lw Fw] Ha Hk.
  - destruct ws; [|discriminate Lw]. cbn [metropolis_run walk moves]. rewrite app_nil_r. repeat split; apply Ha.
  - replace (2 * S n)%nat with (S (S (2 * n))) in Lw by lia. destruct ws as [|w1 [|w2 ws]]; try discriminate Lw. inversion Fw as [|x y H1 F1]; subst. inversion F1 as [|x y H2 F2]; subst.
    cbn [metropolis_run walk moves length]. rewrite metropolis_step; [|exact Ha|exact H1|intros E; specialize (Hk E); lia]. cbn [bind].
    destruct (IH ws (o ++ [moved a w1 w2]) (tgt a w1 w2)) as (E & V & Lm).
    + split; [cbn in Lw; lia|exact F2].
    + now apply tgt_valid.
    + intros E. specialize (Hk E). rewrite app_length. cbn [length]. lia.
    + rewrite E, <- app_assoc. cbn [app]. split; [reflexivity|]. split; [exact V|]. now rewrite Lm.
Qed.

(** * The matrices *)
Notation del a b := (if Z.eq_dec a b then 1 else 0).
Definition stay (p m : Z -> Z -> R) (a : Z) : R := sumR (map (fun c => p a c * (1 - m a c)) sites).
Definition mat (p m : Z -> Z -> R) (a b : Z) : R := p a b * m a b + del a b * stay p m a.

Lemma mat_stochastic p m : stochastic sites p -> (forall a b, In a sites -> In b sites -> 0 <= m a b <= 1) -> stochastic sites (mat p m).
Proof.
  intros Hp Hm a Ia. destruct (Hp a Ia) as [P0 P1].
  assert (S0 : 0 <= stay p m a). { apply sum_nonneg. intros c Ic. apply Rmult_le_pos; [now apply P0|]. pose proof (Hm a c Ia Ic). lra. }
  split.
  - intros b Ib. unfold mat. pose proof (Hm a b Ia Ib). pose proof (P0 b Ib). assert (0 <= p a b * m a b) by (apply Rmult_le_pos; lra). destruct (Z.eq_dec a b); lra.
  - unfold mat. rewrite sumR_plus. rewrite (sum_kronecker sites (upto_NoDup _) (fun _ => stay p m a) a Ia). unfold stay. rewrite <- sumR_plus.
    etransitivity; [|exact P1]. apply sumR_ext. intros; ring.
Qed.

Definition mp := mat pr al.
Definition mq := mat qr mi.
Lemma mp_stochastic : stochastic sites mp.
Proof. apply mat_stochastic; [apply (p_stochastic N pi B size cl H Hg Hne)|]. intros. apply acc_range. Qed.
Lemma mq_stochastic : stochastic sites mq.
Proof. apply mat_stochastic; [apply (q_stochastic N pi B size cl H Hne)|]. intros a b Ia Ib. apply upto_In in Ia, Ib. now apply mi_range. Qed.

Notation e := (hop_error (b_gamma B)).
Definition pi_of (a : Z) : R := dg a * wt a.
Lemma pi_pos a : In a sites -> 0 < pi_of a.
Proof. intros Ia. apply upto_In in Ia. apply Rmult_lt_0_compat; [now apply dg_pos|now apply wt_pos]. Qed.

Lemma min_sym x y : 0 < x -> 0 < y -> x * acceptance x y = Rmin x y.
Proof.
  intros Hx Hy. unfold acceptance.  unfold Rmin. destruct (Rle_dec 1 (y / x)) as [L|L], (Rle_dec x y) as [M|M]; try lra.
  - exfalso. apply M. apply Rmult_le_compat_r with (r := x) in L; [|lra]. replace (y / x * x) with y in L by (field; lra). lra.
  - exfalso. apply L. apply Rmult_le_reg_r with x; [lra|]. replace (y / x * x) with y by (field; lra). lra.
  - field. lra.
Qed.
Lemma mq_reversible a b : In a sites -> In b sites -> pi_of a * mq a b = pi_of b * mq b a.
Proof.
  intros Ia Ib. unfold mq, mat. destruct (Z.eq_dec a b) as [Q|Q]; [rewrite <- Q; destruct (Z.eq_dec a a); [reflexivity|congruence]|]. destruct (Z.eq_dec b a) as [Q'|Q']; [congruence|].
  pose proof (reversible N pi B size cl H Hne a b Ia Ib) as R. apply upto_In in Ia, Ib.
  pose proof (min_sym _ _ (wt_pos a Ia) (wt_pos b Ib)) as M1. pose proof (min_sym _ _ (wt_pos b Ib) (wt_pos a Ia)) as M2. rewrite (Rmin_comm (wt b)) in M2.
  unfold pi_of, mi. rewrite !Rmult_0_l, !Rplus_0_r.
  replace (dg a * wt a * (qr a b * acceptance (wt a) (wt b))) with ((dg a * qr a b) * (wt a * acceptance (wt a) (wt b))) by ring.
  replace (dg b * wt b * (qr b a * acceptance (wt b) (wt a))) with ((dg b * qr b a) * (wt b * acceptance (wt b) (wt a))) by ring.
  rewrite R, M1, M2. reflexivity.
Qed.

Lemma sum_part f g a : In a sites -> (forall c, In c sites -> 0 <= f c <= 1) -> (forall c, In c sites -> Rabs (f c - g c) <= 4 * uro) ->
  sumR (map (fun c => Rabs (pr a c * f c - qr a c * g c)) sites) <= e + 4 * uro.
Proof.
  intros Ia Hf Hfg. apply Rle_trans with (sumR (map (fun c => Rabs (pr a c - qr a c) + 4 * uro * qr a c) sites)).
  - apply sum_le. intros c Ic. replace (pr a c * f c - qr a c * g c) with ((pr a c - qr a c) * f c + qr a c * (f c - g c)) by ring.
    destruct (q_stochastic N pi B size cl H Hne a Ia) as [Q0 _]. specialize (Q0 c Ic).
    eapply Rle_trans; [apply Rabs_triang|]. rewrite !Rabs_mult. rewrite (Rabs_pos_eq (f c)) by now apply Hf. rewrite (Rabs_pos_eq (qr a c)) by exact Q0.
    pose proof (Hf c Ic). pose proof (Hfg c Ic). pose proof (Rabs_pos (pr a c - qr a c)). apply Rplus_le_compat; [nra|]. rewrite Rmult_comm. now apply Rmult_le_compat_r.
  - rewrite sumR_plus. rewrite (sumR_scal (4 * uro) (fun c => qr a c)). destruct (q_stochastic N pi B size cl H Hne a Ia) as [_ ->].
    pose proof (row_near N pi B size cl H Hg Hne a Ia). lra.
Qed.
Lemma mrow a : In a sites -> sumR (map (fun b => Rabs (mp a b - mq a b)) sites) <= move_error (b_gamma B).
Proof.
  intros Ia. pose proof Ia as Va. apply upto_In in Va.
  assert (A : forall c, In c sites -> 0 <= al a c <= 1 /\ Rabs (al a c - mi a c) <= 4 * uro).
  { intros c Ic. apply upto_In in Ic. split; [apply acc_range|now apply al_near]. }
  pose proof (sum_part (al a) (mi a) a Ia (fun c Ic => proj1 (A c Ic)) (fun c Ic => proj2 (A c Ic))) as S1.
  assert (S2 : sumR (map (fun c => Rabs (pr a c * (1 - al a c) - qr a c * (1 - mi a c))) sites) <= e + 4 * uro).
  { apply (sum_part (fun c => 1 - al a c) (fun c => 1 - mi a c) a Ia).
    - intros c Ic. destruct (A c Ic). lra.
    - intros c Ic. destruct (A c Ic) as [_ Q]. rewrite Rabs_minus_sym in Q. replace (1 - al a c - (1 - mi a c)) with (mi a c - al a c) by ring. exact Q. }
  unfold move_error. change (bpow radix2 (-53)) with uro.
  apply Rle_trans with (sumR (map (fun b => Rabs (pr a b * al a b - qr a b * mi a b) + del a b * Rabs (stay pr al a - stay qr mi a)) sites)).
  - apply sum_le. intros b _. unfold mp, mq, mat.
    replace (pr a b * al a b + del a b * stay pr al a - (qr a b * mi a b + del a b * stay qr mi a)) with
      ((pr a b * al a b - qr a b * mi a b) + del a b * (stay pr al a - stay qr mi a)) by ring.
    eapply Rle_trans; [apply Rabs_triang|]. rewrite (Rabs_mult (del a b)). rewrite (Rabs_pos_eq (del a b)) by (destruct (Z.eq_dec a b); lra). lra.
  - rewrite sumR_plus. rewrite (sum_kronecker sites (upto_NoDup _) (fun _ => Rabs (stay pr al a - stay qr mi a)) a Ia).
    assert (S3 : Rabs (stay pr al a - stay qr mi a) <= e + 4 * uro).
    { unfold stay. rewrite <- sum_minus. eapply Rle_trans; [apply sum_abs_le|]. exact S2. }
    lra.
Qed.

(** * Counting *)
Definition countm (n : nat) (a b : Z) : R := INR (length (filter (fun ws => (walk a ws =? b)%Z) (tuples (2 * n)))).
Lemma countm_counted chk name n a b : valid_site size a -> (chk = true -> (Z.of_nat n < two64)%Z) ->
  counted (fun ws => words (2 * n) ws /\ exists s, metropolis_run chk L weight (a, MoveStats name) ws = Ok (b, s)) (countm n a b).
Proof.
  intros Ha Hk. apply counted_filter; [apply tuples_NoDup|]. intros ws. rewrite tuples_In. change (MoveStats name) with (ms_rep name (mkJ false [])).
  split; intros [Q1 Q2]; (split; [exact Q1|]); destruct (metropolis_runs chk name n ws [] a Q1 Ha Hk) as (E & _ & _).
  - destruct Q2 as (s & Q2). rewrite E in Q2. injection Q2 as Q2 _. now apply Z.eqb_eq.
  - apply Z.eqb_eq in Q2. eexists. rewrite E, Q2. reflexivity.
Qed.

Lemma countm_pw n : forall a b, valid_site size a -> countm n a b = all_words (2 * n) * pw sites mp n a b.
Proof.
  pose proof W_pos as W0.
  induction n as [|n IH]; intros a b Ha.
  - unfold countm, all_words. cbn [Nat.mul Nat.add tuples filter pw pow walk]. destruct (Z.eqb_spec a b), (Z.eq_dec a b); try congruence; cbn; ring.
  - unfold countm. replace (2 * S n)%nat with (S (S (2 * n))) by lia. cbn [tuples]. rewrite filter_flat.
    rewrite (sumR_ext _ (fun w => W * (al a (target a w) * countm n (target a w) b + (1 - al a (target a w)) * countm n a b))).
    + rewrite (sum_group sites (target a) (fun c => W * (al a c * countm n c b + (1 - al a c) * countm n a b)));
        [|apply upto_NoDup|intros w Iw; apply every_word_In in Iw; now apply (target_valid N pi B size cl H Hg Hne)].
      rewrite (sumR_ext _ (fun c => (W * W * all_words (2 * n)) * (pr a c * al a c * pw sites mp n c b) + (W * W * all_words (2 * n) * pw sites mp n a b) * (pr a c * (1 - al a c)))).
      * rewrite sumR_plus, (sumR_scal (W * W * all_words (2 * n)) (fun c => pr a c * al a c * pw sites mp n c b)), (sumR_scal (W * W * all_words (2 * n) * pw sites mp n a b) (fun c => pr a c * (1 - al a c))).
        cbn [pw]. unfold mp at 3, mat. rewrite (sumR_ext (fun c => (pr a c * al a c + del a c * stay pr al a) * pw sites mp n c b) (fun c => pr a c * al a c * pw sites mp n c b + del a c * (stay pr al a * pw sites mp n c b))) by (intros; ring).
        rewrite sumR_plus, (sum_kronecker sites (upto_NoDup _) (fun c => stay pr al a * pw sites mp n c b) a) by now apply upto_In.
        unfold stay, all_words. cbn [pow]. ring.
      * intros c Ic. apply upto_In in Ic. rewrite (IH c b Ic), (IH a b Ha), <- (count1_target N pi B size cl H Hg Hne a c Ha). unfold L_Hop.pr. field. lra.
    + intros w Iw. apply every_word_In in Iw. rewrite (filter_map_length (fun ws => (walk a ws =? b)%Z) (cons w)). rewrite filter_flat.
      rewrite (sumR_ext _ (fun w2 => countm n (if choose_with_probability_rng (ratio a (target a w)) w2 then target a w else a) b)).
      * rewrite (sum_choice (choose_with_probability_rng (ratio a (target a w))) (fun c => countm n c b)). rewrite every_word_length. unfold al, acc. field. lra.
      * intros w2 _. rewrite (filter_map_length (fun ws => (walk a (w :: ws) =? b)%Z) (cons w2)). reflexivity.
Qed.

Notation me := (move_error (b_gamma B)).
Lemma me_pos : 0 <= me.
Proof. unfold move_error. pose proof (e_pos B size H). pose proof (bpow_gt_0 radix2 (-53)). lra. Qed.

Lemma moves_balanced n a b : valid_site size a -> valid_site size b ->
  Rabs (pi_of a * countm n a b - pi_of b * countm n b a) <= (pi_of a + pi_of b) * (INR n * me) * all_words (2 * n).
Proof.
  intros Ha Hb. rewrite !countm_pw by assumption.
  replace (pi_of a * (all_words (2 * n) * pw sites mp n a b) - pi_of b * (all_words (2 * n) * pw sites mp n b a)) with
    ((pi_of a * pw sites mp n a b - pi_of b * pw sites mp n b a) * all_words (2 * n)) by ring.
  pose proof (all_pos (2 * n)). rewrite Rabs_mult, (Rabs_pos_eq (all_words (2 * n))) by lra. apply Rmult_le_compat_r; [lra|].
  apply (pw_balanced sites (upto_NoDup _) mp mq pi_of me); auto using mp_stochastic, mq_stochastic, mrow, mq_reversible, pi_pos; now apply upto_In.
Qed.

Lemma moves_stationary n b : valid_site size b ->
  Rabs (sumR (map (fun a => pi_of a * countm n a b) sites) - pi_of b * all_words (2 * n)) <= sumR (map pi_of sites) * (INR n * me) * all_words (2 * n).
Proof.
  intros Hb. pose proof Hb as Ib. apply upto_In in Ib. pose proof (all_pos (2 * n)) as A.
  rewrite (sumR_ext _ (fun a => all_words (2 * n) * (pi_of a * pw sites mp n a b))) by (intros a Ia; apply upto_In in Ia; rewrite countm_pw by exact Ia; ring).
  rewrite (sumR_scal (all_words (2 * n)) (fun a => pi_of a * pw sites mp n a b)).
  assert (Q : sumR (map (fun a => pi_of a * pw sites mq n a b) sites) = pi_of b).
  { rewrite (sumR_ext _ (fun a => pi_of b * pw sites mq n b a)).
    - rewrite (sumR_scal (pi_of b) (fun a => pw sites mq n b a)). rewrite (pw_total sites (upto_NoDup _) mq mq_stochastic n b Ib). ring.
    - intros a Ia. now apply (pw_reversible sites (upto_NoDup _) mq pi_of mq_reversible). }
  replace (all_words (2 * n) * sumR (map (fun a => pi_of a * pw sites mp n a b) sites) - pi_of b * all_words (2 * n)) with
    (all_words (2 * n) * sumR (map (fun a => pi_of a * (pw sites mp n a b - pw sites mq n a b)) sites)).
  2:{ rewrite (sumR_ext (fun a => pi_of a * (pw sites mp n a b - pw sites mq n a b)) (fun a => pi_of a * pw sites mp n a b - pi_of a * pw sites mq n a b)) by (intros; ring).
      rewrite sum_minus, Q. ring. }
  rewrite Rabs_mult, (Rabs_pos_eq (all_words (2 * n))) by lra. rewrite Rmult_comm. apply Rmult_le_compat_r; [lra|].
  eapply Rle_trans; [apply sum_abs_le|]. apply Rle_trans with (sumR (map (fun a => (INR n * me) * pi_of a) sites)).
  - apply sum_le. intros a Ia. pose proof (pi_pos a Ia) as P. rewrite Rabs_mult, (Rabs_pos_eq (pi_of a)) by lra. rewrite (Rmult_comm (INR n * me)). apply Rmult_le_compat_l; [lra|].
    apply (pw_near sites (upto_NoDup _) mp mq me); auto using mp_stochastic, mq_stochastic, mrow.
  - rewrite (sumR_scal (INR n * me) pi_of). lra.
Qed.
End Walker.
