(** Lemmas for C88: the variance for reliability weights. *)
From Coq Require Import ZArith Reals List Bool Lia Lra Psatz.
From Flocq Require Import Core.Core IEEE754.BinarySingleNaN.
From Verif Require Import Base F64 Num M_Archive M_Accum S_Accum L_Accum L_Welford L_West.
Import ListNotations.
Open Scope R_scope.

Lemma tw2_snoc l p : total_weight2 (l ++ [p]) = total_weight2 l + snd p ^ 2.
Proof.
  unfold total_weight2, sumR. rewrite map_app, fold_right_app. cbn [map fold_right]. rewrite Rplus_0_r.
  generalize (snd p ^ 2). intros y. induction (map (fun p => snd p ^ 2) l) as [|z m IH]; cbn [fold_right]; lra.
Qed.

Lemma tw2_bounds l : Forall (fun p => 0 < snd p) l -> 0 <= total_weight2 l <= total_weight l ^ 2.
Proof.
  induction l as [|p l IH] using rev_ind; intros H.
  - unfold total_weight2, total_weight, sumR. cbn. lra.
  - rewrite tw2_snoc, tw_snoc. apply Forall_app in H as [H Hp]. apply Forall_inv in Hp. specialize (IH H).
    pose proof (tw_pos l H) as P. assert (0 <= total_weight l * snd p) by (apply Rmult_le_pos; lra). nra.
Qed.

Lemma west_sw2 Wt l : Forall (fun p => fin (snd p) /\ 0 < RR (snd p)) l ->
  total_weight (reals2 l) <= Wt -> bpow radix2 (-100) <= Wt <= bpow radix2 200 -> (Z.of_nat (length l) <= 2 ^ 49)%Z ->
  fin (w_sw2 (west_of l)) /\
  Rabs (RR (w_sw2 (west_of l)) - total_weight2 (reals2 l)) <= INR (length l) * (4 * uro * Wt ^ 2).
Proof.
  pose proof uro_pos as U. pose proof uro_small as US. intros Hl HW Hb. revert Hl HW.
  pose proof (bpow_gt_0 radix2 (-100)) as P100.
  assert (W2 : bpow radix2 (-200) <= Wt ^ 2 <= bpow radix2 400).
  { change (-200)%Z with (-100 + -100)%Z. change 400%Z with (200 + 200)%Z. rewrite !bpow_plus.
    replace (Wt ^ 2) with (Wt * Wt) by ring. split; apply Rmult_le_compat; lra. }
  pose proof (eta_Q (Wt ^ 2) (proj1 W2)) as He. pose proof (bpow_gt_0 radix2 (-200)) as P200.
  induction l as [|p l IH] using rev_ind; intros Hl HW Hn.
  { split; [reflexivity|]. cbn [west_of fold_left west_new w_sw2 numF n_ofZ]. change (RR (of_Z 0)) with 0.
    unfold total_weight2, sumR. cbn. rewrite Rminus_0_r, Rabs_R0. lra. }
  apply Forall_app in Hl. destruct Hl as [Hl Hp]. apply Forall_inv in Hp. destruct Hp as [Fp Pp].
  rewrite reals2_snoc, tw_snoc in *. rewrite tw2_snoc. cbn [real2 snd] in *. rewrite app_length in *. cbn [length] in *.
  assert (HP : Forall (fun p => 0 < snd p) (reals2 l)).
  { apply Forall_map. revert Hl. apply Forall_impl. cbn. tauto. }
  pose proof (tw_pos _ HP) as PW. pose proof (tw2_bounds _ HP) as P2.
  destruct IH as [F E]; [exact Hl|lra|lia|].
  rewrite plus_INR. cbn [INR]. set (W := total_weight (reals2 l)) in *. set (V := total_weight2 (reals2 l)) in *.
  set (n := INR (length l)) in *.
  assert (Hnu : n * uro <= / 16).
  { pose proof (uro_n (length l) 49 ltac:(lia) ltac:(lia)) as K. change (49 - 53)%Z with (-4)%Z in K.
    change (bpow radix2 (-4)) with (/ 16) in K. fold n in K. lra. }
  assert (Pn : 0 <= n) by apply pos_INR.
  rewrite west_of_snoc. cbn [west_add west_step w_sw2 numF n_add n_mul].
  set (s := RR (w_sw2 (west_of l))) in *. set (w := RR (snd p)) in *.
  assert (Hww : V + w ^ 2 <= Wt ^ 2).
  { assert (0 <= W * w) by (apply Rmult_le_pos; lra).
    assert ((W + w) ^ 2 <= Wt ^ 2) by (apply pow_incr; lra). nra. }
  assert (W0 : 0 <= w ^ 2) by apply pow2_ge_0.
  assert (EW : w * w = w ^ 2) by ring.
  destruct (fmul_ok (snd p) (snd p) Fp Fp) as [Em Fm].
  { fold w. rewrite EW. apply (no_overflow _ 400); [lia|]. rewrite Rabs_pos_eq by lra. lra. }
  fold w in Em. rewrite EW in Em. pose proof (rnd_err (w ^ 2)) as Er. rewrite (Rabs_pos_eq (w ^ 2)) in Er by lra.
  assert (Er' : Rabs (rnd (w ^ 2) - w ^ 2) <= 2 * uro * Wt ^ 2).
  { apply Rle_trans with (1 := Er). assert (uro * w ^ 2 <= uro * Wt ^ 2) by (apply Rmult_le_compat_l; lra). lra. }
  set (t := rnd (w ^ 2)) in *.
  assert (NW : n * (4 * uro * Wt ^ 2) <= / 4 * Wt ^ 2).
  { replace (n * (4 * uro * Wt ^ 2)) with (4 * (n * uro) * Wt ^ 2) by ring. apply Rmult_le_compat_r; lra. }
  assert (UW : 2 * uro * Wt ^ 2 <= / 4 * Wt ^ 2) by (apply Rmult_le_compat_r; lra).
  assert (Hab : Rabs (s + t) <= 2 * Wt ^ 2).
  { apply Rabs_le_inv in E, Er'. apply Rabs_le. lra. }
  destruct (fadd_ok (w_sw2 (west_of l)) (fmul (snd p) (snd p)) F Fm) as [Ea Fa].
  { rewrite Em. fold s. apply (no_overflow _ 401); [lia|]. apply Rle_trans with (1 := Hab).
    change 401%Z with (1 + 400)%Z. rewrite bpow_plus. change (bpow radix2 1) with 2. lra. }
  split; [exact Fa|]. rewrite Ea, Em. fold s.
  pose proof (plus_err s t (fmt_RR _) (fmt_rnd _)) as Ep.
  assert (uro * Rabs (s + t) <= uro * (2 * Wt ^ 2)) by (apply Rmult_le_compat_l; lra).
  apply Rabs_le_inv in E, Er', Ep. apply Rabs_le. lra.
Qed.

Lemma west_reliability_error lo hi B l : west_setting lo hi B l ->
  let n := INR (length l) in
  let D := hi - lo in
  let e := drift n B D in
  let W := total_weight (reals2 l) in
  let V := W - total_weight2 (reals2 l) / W in
  let k := W / V in
  0 < V -> k * ((9 * n + 5) * uro) <= / 2 ->
  let v := WestSampleReliabilityVariance numF (west_of l) in
  fin v /\
  Rabs (RR v - wsq_devs (reals2 l) / V) <= 2 * k * ((D + e) ^ 2 - D ^ 2) + (22 * n + 30) * uro * k ^ 2 * (D + e) ^ 2.
Proof.
  intros H n D e W V k PV Hk v. destruct (west_m2_final lo hi B l H) as (F & E & HS & HQ & HQD & Hnu). fold n D e W in E, HS, HQ, HQD, Hnu.
  pose proof uro_pos as U. pose proof uro_small as U2.
  set (Q := (D + e) ^ 2) in *. set (S := wsq_devs (reals2 l)) in *.
  destruct H as [Hl Hn HB HD HW]. fold W in HW. fold D in HD.
  pose proof (bpow_gt_0 radix2 (-100)) as P100. pose proof (bpow_gt_0 radix2 (-200)) as P200.
  assert (PW : 0 < W) by lra. assert (PQ : 0 < Q) by lra.
  assert (Pn : 0 <= n) by apply pos_INR.
  assert (Hl' : Forall (fun p => fin (snd p) /\ 0 < RR (snd p)) l) by (revert Hl; apply Forall_impl; tauto).
  assert (HP : Forall (fun p => 0 < snd p) (reals2 l)) by (apply Forall_map; revert Hl; apply Forall_impl; cbn; tauto).
  destruct (west_sw l Hl') as [Fw Ew].
  { fold W. apply Rle_trans with (1 := proj2 HW). apply bpow_le. lia. }
  { lia. }
  destruct (west_sw2 W l Hl' (Rle_refl _) HW ltac:(lia)) as [Fw2 Ew2].
  fold W n in Ew, Ew2. pose proof (tw2_bounds _ HP) as HW2. fold W in HW2.
  set (W2 := total_weight2 (reals2 l)) in *.
  set (sw := RR (w_sw (west_of l))) in *. set (sw2 := RR (w_sw2 (west_of l))) in *. set (s := RR (w_m2 (west_of l))) in *.
  assert (NW0 : 0 <= n * uro * W) by (apply Rmult_le_pos; [apply Rmult_le_pos; lra|lra]).
  assert (NW1 : n * uro * W <= / 16 * W) by (apply Rmult_le_compat_r; lra).
  assert (UW0 : 0 < uro * W) by (apply Rmult_lt_0_compat; lra).
  assert (UW1 : uro * W <= / 1000000 * W) by (apply Rmult_le_compat_r; lra).
  assert (Psw : W * (7 / 8) <= sw) by (apply Rabs_le_inv in Ew; lra).
  assert (Psw' : 0 < sw) by lra. assert (Pi : 0 < / sw) by now apply Rinv_0_lt_compat.
  assert (Hi : W * / sw <= 8 / 7).
  { apply (Rmult_le_reg_r sw); [lra|]. rewrite Rmult_assoc, Rinv_l, Rmult_1_r by lra. lra. }
  assert (Hi0 : 0 <= W * / sw) by (apply Rmult_le_pos; lra).
  assert (HWW : 0 <= W2 / W <= W).
  { split; [apply Rmult_le_pos; [lra|left; now apply Rinv_0_lt_compat]|].
    apply (Rmult_le_reg_r W); [lra|]. unfold Rdiv. rewrite Rmult_assoc, Rinv_l, Rmult_1_r by lra. lra. }
  (* the quotient sw2 / sw *)
  assert (Hq : Rabs (sw2 / sw - W2 / W) <= 7 * (n * uro * W)).
  { replace (sw2 / sw - W2 / W) with ((sw2 - W2) * / sw + W2 / W * (W - sw) * / sw) by (field; lra).
    assert (A : Rabs ((sw2 - W2) * / sw) <= 8 / 7 * (4 * (n * uro * W))).
    { rewrite Rabs_mult, (Rabs_pos_eq (/ sw)) by lra.
      apply Rle_trans with (n * (4 * uro * W ^ 2) * / sw); [apply Rmult_le_compat_r; lra|].
      replace (n * (4 * uro * W ^ 2) * / sw) with (W * / sw * (4 * (n * uro * W))) by ring. apply Rmult_le_compat_r; lra. }
    assert (A2 : Rabs (W2 / W * (W - sw) * / sw) <= 8 / 7 * (2 * (n * uro * W))).
    { rewrite !Rabs_mult, (Rabs_pos_eq (/ sw)), (Rabs_pos_eq (W2 / W)), (Rabs_minus_sym W sw) by lra.
      apply Rle_trans with (W * (2 * n * uro * W) * / sw).
      - apply Rmult_le_compat_r; [lra|]. apply Rmult_le_compat; try lra. apply Rabs_pos.
      - replace (W * (2 * n * uro * W) * / sw) with (W * / sw * (2 * (n * uro * W))) by ring. apply Rmult_le_compat_r; lra. }
    eapply Rle_trans; [apply Rabs_triang|]. lra. }
  assert (Hqa : Rabs (sw2 / sw) <= 3 / 2 * W).
  { apply Rabs_le_inv in Hq. apply Rabs_le. lra. }
  assert (W200 : 2 * W <= bpow radix2 201).
  { change 201%Z with (1 + 200)%Z. rewrite bpow_plus. change (bpow radix2 1) with 2. lra. }
  destruct (fdiv_ok (w_sw2 (west_of l)) (w_sw (west_of l)) Fw2) as [Eq Fq].
  { fold sw. lra. }
  { fold sw sw2. apply (no_overflow _ 201); [lia|]. lra. }
  fold sw sw2 in Eq. pose proof (rnd_err (sw2 / sw)) as Er1. set (q := rnd (sw2 / sw)) in *.
  assert (HeW : eta <= uro * W) by (apply eta_Q; apply Rle_trans with (2 := proj1 HW); apply bpow_le; lia).
  assert (Eq' : Rabs (q - W2 / W) <= (7 * n + 3) * uro * W).
  { assert (uro * Rabs (sw2 / sw) <= uro * (3 / 2 * W)) by (apply Rmult_le_compat_l; lra).
    apply Rabs_le_inv in Hq, Er1. apply Rabs_le. lra. }
  (* the difference sw - q *)
  assert (Ed0 : Rabs (sw - q - V) <= (9 * n + 3) * uro * W).
  { unfold V. apply Rabs_le_inv in Ew, Eq'. apply Rabs_le. lra. }
  assert (HVW : V <= W) by (unfold V; lra).
  assert (Kp : 1 <= k).
  { unfold k. apply (Rmult_le_reg_r V); [lra|]. unfold Rdiv. rewrite Rmult_assoc, Rinv_l; lra. }
  assert (EkV : W = k * V) by (unfold k; field; lra).
  assert (HdV : (9 * n + 5) * uro * W <= / 2 * V).
  { rewrite EkV at 1. replace ((9 * n + 5) * uro * (k * V)) with (k * ((9 * n + 5) * uro) * V) by ring.
    apply Rmult_le_compat_r; lra. }
  assert (Hda : Rabs (sw - q) <= 3 / 2 * V).
  { apply Rabs_le_inv in Ed0. apply Rabs_le. lra. }
  destruct (fsub_ok (w_sw (west_of l)) (fdiv (w_sw2 (west_of l)) (w_sw (west_of l))) Fw Fq) as [Ed Fd].
  { rewrite Eq. fold sw. apply (no_overflow _ 201); [lia|]. lra. }
  rewrite Eq in Ed. fold sw in Ed.
  pose proof (minus_err sw q (fmt_RR _) (fmt_rnd _)) as Er2. set (d := rnd (sw - q)) in *.
  assert (Ed' : Rabs (d - V) <= (9 * n + 5) * uro * W).
  { assert (uro * Rabs (sw - q) <= uro * (3 / 2 * V)) by (apply Rmult_le_compat_l; lra).
    assert (uro * V <= uro * W) by (apply Rmult_le_compat_l; lra).
    apply Rabs_le_inv in Ed0, Er2. apply Rabs_le. lra. }
  assert (PdV : / 2 * V <= d) by (apply Rabs_le_inv in Ed'; lra).
  assert (Pd : 0 < d) by lra. assert (Pid : 0 < / d) by now apply Rinv_0_lt_compat.
  assert (Hid : W * / d <= 2 * k).
  { apply (Rmult_le_reg_r d); [lra|]. rewrite Rmult_assoc, Rinv_l, Rmult_1_r by lra. rewrite EkV at 1.
    replace (2 * k * d) with (k * (2 * d)) by ring. apply Rmult_le_compat_l; lra. }
  (* the quotient s / d *)
  assert (HnQ : n * uro * Q <= / 16 * Q) by (apply Rmult_le_compat_r; lra).
  assert (HnQ0 : 0 <= n * uro * Q) by (apply Rmult_le_pos; [apply Rmult_le_pos; lra|lra]).
  assert (HuQ : 0 < uro * Q) by (apply Rmult_lt_0_compat; lra).
  assert (HuQ1 : uro * Q <= / 1000000 * Q) by (apply Rmult_le_compat_r; lra).
  set (E2 := Q - D ^ 2 + (2 * n + 6) * uro * Q) in *. assert (D0 : 0 <= D ^ 2) by apply pow2_ge_0.
  assert (PE2 : 0 <= E2 <= 2 * Q) by (unfold E2; lra).
  set (c := (9 * n + 5) * uro) in *. assert (Pc : 0 <= c) by (unfold c; apply Rmult_le_pos; lra).
  assert (Hs : Rabs (s / d - S / V) <= 2 * k * E2 + 2 * k * (k * c) * D ^ 2).
  { replace (s / d - S / V) with ((s - S) * / d + S * (V - d) * / V * / d) by (field; lra).
    assert (A : Rabs ((s - S) * / d) <= 2 * k * E2).
    { rewrite Rabs_mult, (Rabs_pos_eq (/ d)) by lra.
      apply Rle_trans with (W * E2 * / d); [apply Rmult_le_compat_r; lra|].
      replace (W * E2 * / d) with (W * / d * E2) by ring. apply Rmult_le_compat_r; lra. }
    assert (PiV : 0 < / V) by now apply Rinv_0_lt_compat.
    assert (A2 : Rabs (S * (V - d) * / V * / d) <= 2 * k * (k * c) * D ^ 2).
    { rewrite !Rabs_mult, (Rabs_pos_eq (/ d)), (Rabs_pos_eq (/ V)), (Rabs_pos_eq S), (Rabs_minus_sym V d) by lra.
      apply Rle_trans with (W * D ^ 2 * (c * W) * / V * / d).
      - apply Rmult_le_compat_r; [lra|]. apply Rmult_le_compat_r; [lra|]. apply Rmult_le_compat; try lra. apply Rabs_pos.
      - replace (W * D ^ 2 * (c * W) * / V * / d) with (W * / d * (k * c * D ^ 2)) by (unfold k; field; lra).
        replace (2 * k * (k * c) * D ^ 2) with (2 * k * (k * c * D ^ 2)) by ring. apply Rmult_le_compat_r; [|lra].
        apply Rmult_le_pos; [apply Rmult_le_pos|]; lra. }
    eapply Rle_trans; [apply Rabs_triang|]. lra. }
  assert (HSV : 0 <= S / V <= k * Q).
  { split; [apply Rmult_le_pos; [lra|left; now apply Rinv_0_lt_compat]|].
    apply (Rmult_le_reg_r V); [lra|]. unfold Rdiv. rewrite Rmult_assoc, Rinv_l, Rmult_1_r by lra.
    replace (k * Q * V) with (k * V * Q) by ring. rewrite <- EkV. apply Rle_trans with (1 := proj2 HS).
    apply Rmult_le_compat_l; lra. }
  assert (KQ : 0 < k * Q) by (apply Rmult_lt_0_compat; lra).
  assert (KE : 2 * k * E2 <= 4 * (k * Q)).
  { replace (4 * (k * Q)) with (2 * k * (2 * Q)) by ring. apply Rmult_le_compat_l; lra. }
  assert (KD : 0 <= k * D ^ 2 <= k * Q) by (split; [apply Rmult_le_pos; lra|apply Rmult_le_compat_l; lra]).
  assert (KC : 2 * k * (k * c) * D ^ 2 <= k * Q).
  { replace (2 * k * (k * c) * D ^ 2) with (2 * (k * c) * (k * D ^ 2)) by ring.
    apply Rle_trans with (1 * (k * D ^ 2)); [apply Rmult_le_compat_r; lra|lra]. }
  assert (Hab : Rabs (s / d) <= 6 * (k * Q)) by (apply Rabs_le_inv in Hs; apply Rabs_le; lra).
  assert (Ek : k <= bpow radix2 53).
  { apply (Rmult_le_reg_r uro); [lra|]. unfold uro at 2. rewrite <- bpow_plus. change (bpow radix2 (53 + -53)) with 1.
    assert (0 <= k * uro) by (apply Rmult_le_pos; lra).
    assert (0 <= n * (k * uro)) by (apply Rmult_le_pos; lra). unfold c in Hk. lra. }
  assert (Ev : v = fdiv (w_m2 (west_of l)) (fsub (w_sw (west_of l)) (fdiv (w_sw2 (west_of l)) (w_sw (west_of l))))).
  { unfold v, WestSampleReliabilityVariance. rewrite two_count by exact Hn. reflexivity. }
  destruct (fdiv_ok (w_m2 (west_of l)) (fsub (w_sw (west_of l)) (fdiv (w_sw2 (west_of l)) (w_sw (west_of l)))) F) as [Ef Ff].
  { rewrite Ed. lra. }
  { rewrite Ed. fold s. apply (no_overflow _ 460); [lia|]. apply Rle_trans with (1 := Hab).
    change 460%Z with (3 + (53 + 404))%Z. rewrite !bpow_plus. change (bpow radix2 3) with 8.
    assert (k * Q <= bpow radix2 53 * bpow radix2 404) by (apply Rmult_le_compat; lra). lra. }
  rewrite <- Ev, Ed in Ef. rewrite <- Ev in Ff. split; [exact Ff|]. rewrite Ef. fold s.
  pose proof (rnd_err (s / d)) as Er. pose proof (eta_Q Q ltac:(lra)) as He.
  assert (uro * Rabs (s / d) <= uro * (6 * (k * Q))) by (apply Rmult_le_compat_l; lra).
  assert (KK : k <= k ^ 2) by (replace (k ^ 2) with (k * k) by ring; rewrite <- (Rmult_1_r k) at 1; apply Rmult_le_compat_l; lra).
  assert (X1 : uro * Q <= k ^ 2 * (uro * Q)) by (rewrite <- (Rmult_1_l (uro * Q)) at 1; apply Rmult_le_compat_r; lra).
  assert (X2 : k * (uro * Q) <= k ^ 2 * (uro * Q)) by (apply Rmult_le_compat_r; lra).
  assert (X3 : k * (n * uro * Q) <= k ^ 2 * (n * uro * Q)) by (apply Rmult_le_compat_r; lra).
  assert (X4 : 2 * k * (k * c) * D ^ 2 <= 2 * k * (k * c) * Q).
  { apply Rmult_le_compat_l; [|lra]. apply Rmult_le_pos; [lra|]. apply Rmult_le_pos; lra. }
  replace (2 * k * (k * c) * Q) with (18 * (k ^ 2 * (n * uro * Q)) + 10 * (k ^ 2 * (uro * Q))) in X4 by (unfold c; ring).
  replace ((22 * n + 30) * uro * k ^ 2 * Q) with (22 * (k ^ 2 * (n * uro * Q)) + 30 * (k ^ 2 * (uro * Q))) by ring.
  replace (2 * k * E2) with (2 * k * (Q - D ^ 2) + 4 * (k * (n * uro * Q)) + 12 * (k * (uro * Q))) in Hs by (unfold E2; ring).
  apply Rabs_le_inv in Hs, Er. apply Rabs_le. lra.
Qed.

(** * KnuthWelfordAccumulator::Error *)
Lemma kw_error_rounding c (a : kw f64) : fin (KwStandardDeviation numF c a) -> 0 <= RR (KwStandardDeviation numF c a) ->
  (1 <= kw_count a <= 2 ^ 53)%Z ->
  let r := RR (KwStandardDeviation numF c a) / sqrt (IZR (kw_count a)) in
  fin (KwError numF c a) /\ Rabs (RR (KwError numF c a) - r) <= 4 * uro * r + eta.
Proof.
  intros F P Hn r. unfold KwError. cbn [numF n_div n_sqrt n_ofZ].
  set (dev := KwStandardDeviation numF c a) in *. pose proof uro_pos as U. pose proof uro_small as US.
  destruct (of_Z_exact (kw_count a)) as [E1 F1]; [lia|].
  assert (N1 : 1 <= IZR (kw_count a)) by (apply IZR_le; lia).
  destruct (fsqrt_ok (of_Z (kw_count a)) F1) as [E2 F2]; [rewrite E1; lra|]. rewrite E1 in E2.
  set (q := sqrt (IZR (kw_count a))) in *.
  assert (Hq : 1 <= q) by (unfold q; rewrite <- sqrt_1; apply sqrt_le_1_alt; lra).
  pose proof (rnd_err q) as Er. rewrite (Rabs_pos_eq q) in Er by lra.
  assert (He : eta <= uro * 1) by (apply eta_Q; change 1 with (bpow radix2 0); apply bpow_le; lia).
  assert (uq : uro * 1 <= uro * q) by (apply Rmult_le_compat_l; lra).
  assert (Er' : Rabs (rnd q - q) <= 2 * uro * q) by lra. clear Er.
  assert (L : uro * q <= / 1000000 * q) by (apply Rmult_le_compat_r; lra).
  set (t := rnd q) in *. assert (Ht : 99 / 100 * q <= t) by (apply Rabs_le_inv in Er'; lra).
  assert (Ht0 : 0 < t) by lra. assert (Pi : 0 < / t) by now apply Rinv_0_lt_compat.
  assert (R0 : 0 <= r) by (unfold r; apply Rmult_le_pos; [lra|left; apply Rinv_0_lt_compat; lra]).
  assert (UR : 0 <= uro * r) by (apply Rmult_le_pos; lra).
  assert (UR1 : uro * r <= / 1000000 * r) by (apply Rmult_le_compat_r; lra).
  assert (Hd : Rabs (RR dev / t - r) <= 5 / 2 * (uro * r)).
  { replace (RR dev / t - r) with (r * ((q - t) * / t)) by (unfold r; field; lra).
    rewrite !Rabs_mult, (Rabs_pos_eq r), (Rabs_pos_eq (/ t)), (Rabs_minus_sym q t) by lra.
    replace (5 / 2 * (uro * r)) with (r * (5 / 2 * uro)) by ring. apply Rmult_le_compat_l; [lra|].
    apply (Rmult_le_reg_r t); [lra|]. rewrite Rmult_assoc, Rinv_l, Rmult_1_r by lra.
    assert (uro * (99 / 100 * q) <= uro * t) by (apply Rmult_le_compat_l; lra). lra. }
  assert (Ha : Rabs (RR dev / t) <= 101 / 100 * r) by (apply Rabs_le_inv in Hd; apply Rabs_le; lra).
  assert (Hr : t >= 1).
  { apply Rle_ge. unfold t. apply rnd_ge_fmt; [apply (fmt_IZR 1); cbn; lia|exact Hq]. }
  destruct (fdiv_ok dev (fsqrt (of_Z (kw_count a))) F) as [E3 F3].
  { rewrite E2. lra. }
  { rewrite E2. apply Rle_lt_trans with (RR dev).
    - apply rnd_abs_le; [apply fmt_RR|]. unfold Rdiv. rewrite Rabs_mult, (Rabs_pos_eq (RR dev)), (Rabs_pos_eq (/ t)) by lra.
      rewrite <- (Rmult_1_r (RR dev)) at 2. apply Rmult_le_compat_l; [lra|]. rewrite <- Rinv_1. apply Rinv_le; lra.
    - pose proof (RR_lt_fmax dev) as X. rewrite Rabs_pos_eq in X by lra. exact X. }
  split; [exact F3|]. rewrite E3, E2. pose proof (rnd_err (RR dev / t)) as Er.
  assert (uro * Rabs (RR dev / t) <= uro * (101 / 100 * r)) by (apply Rmult_le_compat_l; lra).
  apply Rabs_le_inv in Er, Hd. apply Rabs_le. lra.
Qed.

Lemma fsqrt_fin_nonneg x : fin (fsqrt x) -> 0 <= RR (fsqrt x).
Proof.
  intros F. unfold RR, fsqrt. destruct (Bsqrt_correct 53 1024 _ _ mode_NE x) as (E & _). rewrite E.
  apply rnd_pos. apply sqrt_pos.
Qed.

Lemma kw_error_final c (a : kw f64) : fin (KwStandardDeviation numF c a) -> (1 <= kw_count a <= 2 ^ 53)%Z ->
  let r := RR (KwStandardDeviation numF c a) / sqrt (IZR (kw_count a)) in
  fin (KwError numF c a) /\ Rabs (RR (KwError numF c a) - r) <= 4 * uro * r + eta.
Proof. intros F. apply kw_error_rounding; [exact F|]. now apply fsqrt_fin_nonneg. Qed.
