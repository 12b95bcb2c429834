(** Accuracy of LogSpace: lemmas. *)
From Coq Require Import ZArith Reals List Lia Lra QArith Qreals AltSeries Rtrigo_fun Exp_prop Rtrigo_def.
From Flocq Require Import Core.Core IEEE754.BinarySingleNaN.
From Verif Require Import Base F64 Num L_MathF M_Space S_Space L_Space L_Pi L_Norm S_LogAcc.
Open Scope R_scope.

(** ** The number e *)
Fixpoint zfact (n : nat) : Z := match n with O => 1 | S m => Z.of_nat (S m) * zfact m end.
Lemma zfact_fact n : zfact n = Z.of_nat (fact n).
Proof.
  induction n as [|n IH]; [reflexivity|]. change (fact (S n)) with (S n * fact n)%nat. cbn [zfact].
  rewrite Nat2Z.inj_mul, IH. reflexivity.
Qed.
Definition em1_Q (n : nat) : Q := ((if Nat.even n then 1 else -1) / inject_Z (zfact n))%Q.
Fixpoint sum_em1 (n : nat) : Q := match n with O => em1_Q O | S m => Qred (sum_em1 m + em1_Q (S m))%Q end.

Lemma em1_term n : Q2R (em1_Q n) = tg_alt (fun i => / INR (fact i)) n.
Proof.
  unfold em1_Q, tg_alt. pose proof (lt_O_fact n).
  assert (N : ~ (inject_Z (zfact n) == 0)%Q) by (rewrite zfact_fact; intros E; unfold Qeq in E; cbn -[Z.of_nat] in E; lia).
  rewrite Q2R_div, Q2R_inject, zfact_fact, <- INR_IZR_INZ by exact N. unfold Rdiv. f_equal.
  assert (P : forall m, Q2R (if Nat.even m then 1 else -1) = (-1) ^ m /\ Q2R (if Nat.even (S m) then 1 else -1) = (-1) ^ S m).
  { clear. induction m as [|m [A B]]; [split; unfold Q2R; cbn; lra|]. split; [exact B|]. cbn [Nat.even].
    rewrite A. cbn [pow]. ring. }
  apply P.
Qed.
Lemma em1_sum n : Q2R (sum_em1 n) = sum_f_R0 (tg_alt (fun i => / INR (fact i))) n.
Proof.
  induction n as [|n IH]; cbn [sum_em1 sum_f_R0]; [apply em1_term|].
  rewrite (Qeq_eqR _ _ (Qred_correct _)), Q2R_plus, IH, em1_term. reflexivity.
Qed.

Lemma em1_bounds N : sum_f_R0 (tg_alt (fun i => / INR (fact i))) (S (2 * N)) <= exp (-1) <=
  sum_f_R0 (tg_alt (fun i => / INR (fact i))) (2 * N).
Proof.
  apply alternated_series_ineq.
  - intros n. assert (0 < INR (fact n)) by apply INR_fact_lt_0. apply Rinv_le; [assumption|]. apply le_INR, fact_le. lia.
  - pose proof (cv_speed_pow_fact 1) as H. intros e He. destruct (H e He) as [n0 Hn]. exists n0. intros n L. specialize (Hn n L).
    rewrite pow1 in Hn. unfold Rdiv in Hn. rewrite Rmult_1_l in Hn. exact Hn.
  - unfold exp. destruct (exist_exp (-1)) as [l Hl]. cbn. intros e He. destruct (Hl e He) as [n0 Hn]. exists n0.
    intros n L. specialize (Hn n L). erewrite sum_eq; [exact Hn|]. intros i _. unfold tg_alt. apply Rmult_comm.
Qed.

Lemma RR_M_E : RR M_E = IZR 6121026514868073 / IZR (2 ^ 51) /\ fin M_E.
Proof.
  destruct (RR_dyad 6121026514868073 (-51)) as [A B]; [lia|lia|]. split; [|exact B].
  unfold M_E. rewrite A. unfold F2R. cbn [Fnum Fexp]. unfold Rdiv. f_equal.
Qed.

Lemma M_E_near : Rabs (RR M_E * exp (-1) - 1) <= / 2 * uro.
Proof.
  pose proof (em1_bounds 10) as [L U]. rewrite <- em1_sum in L, U. rewrite (proj1 RR_M_E), uro_val.
  set (m := (inject_Z 6121026514868073 / inject_Z (2 ^ 51))%Q).
  assert (EL : (1 - (1 # 2) / inject_Z (2 ^ 53) <= m * sum_em1 (S (2 * 10)))%Q) by (vm_compute; discriminate).
  assert (EU : (m * sum_em1 (2 * 10) <= 1 + (1 # 2) / inject_Z (2 ^ 53))%Q) by (vm_compute; discriminate).
  apply Qle_Rle in EL, EU. unfold m in EL, EU. rewrite Q2R_minus, Q2R_mult, !Q2R_div, !Q2R_inject in EL by (intros E; discriminate E).
  rewrite Q2R_plus, Q2R_mult, !Q2R_div, !Q2R_inject in EU by (intros E; discriminate E).
  replace (Q2R 1) with 1 in EL, EU by (unfold Q2R; cbn; lra).
  replace (Q2R (1 # 2)) with (/ 2) in EL, EU by (unfold Q2R; cbn; lra).
  assert (Pm : 0 < IZR 6121026514868073 / IZR (2 ^ 51)) by (apply Rdiv_lt_0_compat; apply IZR_lt; lia).
  set (M := IZR 6121026514868073 / IZR (2 ^ 51)) in *.
  pose proof (Rmult_le_compat_l M _ _ (Rlt_le _ _ Pm) L). pose proof (Rmult_le_compat_l M _ _ (Rlt_le _ _ Pm) U).
  apply Rabs_le. unfold Rdiv in EL, EU. lra.
Qed.

(** ** Logarithms near 1 *)
Lemma ln_le_sub x : 0 < x -> ln x <= x - 1.
Proof. intros H. pose proof (exp_ineq1_le (ln x)) as K. rewrite exp_ln in K by exact H. lra. Qed.
Lemma ln_ge_sub x : 0 < x -> 1 - / x <= ln x.
Proof.
  intros H. assert (Hi : 0 < / x) by now apply Rinv_0_lt_compat.
  pose proof (ln_le_sub (/ x) Hi) as K. rewrite ln_Rinv in K by exact H. lra.
Qed.

(** A relative error r moves the logarithm by at most r/(1-r). *)
Lemma ln_near x r : 0 <= r <= / 200 -> Rabs (x - 1) <= r -> 0 < x /\ Rabs (ln x) <= 1.01 * r.
Proof.
  intros Hr H. apply Rabs_le_inv in H. assert (P : 0 < x) by lra. split; [exact P|].
  pose proof (ln_le_sub x P) as A. pose proof (ln_ge_sub x P) as B.
  assert (C : - (1.01 * r) <= 1 - / x).
  { apply Rmult_le_reg_r with x; [exact P|]. rewrite Rmult_minus_distr_r, Rinv_l by lra. nra. }
  apply Rabs_le. lra.
Qed.

Lemma ln_rel y x r : 0 <= r <= / 200 -> 0 < x -> Rabs (y - x) <= r * x -> 0 < y /\ Rabs (ln y - ln x) <= 1.01 * r.
Proof.
  intros Hr Hx H. destruct (ln_near (y / x) r Hr) as [P L].
  { replace (y / x - 1) with ((y - x) / x) by (field; lra). unfold Rdiv. rewrite Rabs_mult, (Rabs_pos_eq (/ x)) by (left; now apply Rinv_0_lt_compat).
    apply Rmult_le_reg_r with x; [exact Hx|]. rewrite Rmult_assoc, Rinv_l by lra. lra. }
  assert (Py : 0 < y). { replace y with (y / x * x) by (field; lra). now apply Rmult_lt_0_compat. }
  split; [exact Py|]. unfold Rdiv in L. rewrite ln_mult, ln_Rinv in L by (auto; now apply Rinv_0_lt_compat).
  unfold Rminus. exact L.
Qed.

Lemma ln_M_E : 0 < RR M_E /\ Rabs (ln (RR M_E) - 1) <= uro.
Proof.
  pose proof M_E_near as H. pose proof uro_small as Us. pose proof uro_pos as U.
  destruct (ln_near (RR M_E * exp (-1)) (/ 2 * uro) ltac:(lra) H) as [P L].
  assert (Pe : 0 < RR M_E). { apply Rmult_lt_reg_r with (exp (-1)); [apply exp_pos|]. lra. }
  split; [exact Pe|]. rewrite ln_mult, ln_exp in L by (auto; apply exp_pos). replace (ln (RR M_E) - 1) with (ln (RR M_E) + -1) by ring. lra.
Qed.

Lemma ln2_bounds : / 2 <= ln 2 <= 1.
Proof. pose proof (ln_le_sub 2 ltac:(lra)). pose proof (ln_ge_sub 2 ltac:(lra)). lra. Qed.

Lemma ln_bpow e : ln (bpow radix2 e) = IZR e * ln 2.
Proof.
  rewrite bpow_exp. change (IZR radix2) with 2. apply ln_exp.
Qed.

Lemma ln_mono x y : 0 < x -> x <= y -> ln x <= ln y.
Proof. intros H [L| ->]; [left; now apply ln_increasing|lra]. Qed.
Lemma ln_mono_inv x y : 0 < x -> 0 < y -> ln x <= ln y -> x <= y.
Proof. intros Hx Hy [L|E]; [left; now apply ln_lt_inv|]. apply ln_inv in E; try assumption. lra. Qed.

(** ** The exponent handed to pow *)
Lemma exponent_err A B lA lB eps n n' d q h :
  0 <= eps <= / 1000 -> 1 <= n -> 0 <= h -> A <= B ->
  Rabs (lA - A) <= eps * Rabs A -> Rabs (lB - B) <= eps * Rabs B ->
  Rabs (n' - n) <= uro * n ->
  Rabs (d - (lB - lA)) <= uro * Rabs (lB - lA) + h ->
  Rabs (q - d / n') <= uro * Rabs (d / n') + h ->
  Rabs (n * q - (B - A)) <= 1.01 * (eps * (Rabs A + Rabs B)) + 3.01 * uro * (B - A) + (n + 3) * h.
Proof.
  intros He Hn Hh HD HA HB Hn' Hd Hq. pose proof uro_pos as U. pose proof uro_small as Us.
  set (S := Rabs A + Rabs B). set (D := B - A). set (s := lB - lA) in *. set (t := d / n') in *.
  assert (P1 : 0 <= S) by (unfold S; pose proof (Rabs_pos A); pose proof (Rabs_pos B); lra).
  assert (E1 : Rabs (s - D) <= eps * S).
  { replace (s - D) with ((lB - B) - (lA - A)) by (unfold s, D; ring). unfold S.
    pose proof (Rabs_triang (lB - B) (- (lA - A))) as T. rewrite Rabs_Ropp in T. unfold Rminus in *. lra. }
  assert (P2 : 0 <= eps * S) by (apply Rmult_le_pos; lra).
  assert (E2 : Rabs s <= D + eps * S).
  { replace s with ((s - D) + D) by ring. pose proof (Rabs_triang (s - D) D). assert (PD : 0 <= D) by (unfold D; lra). rewrite (Rabs_pos_eq D PD) in H. lra. }
  assert (Un : uro * n <= / 1000000 * n) by (apply Rmult_le_compat_r; lra).
  apply Rabs_le_inv in Hn'. assert (Pn' : 0.999 * n <= n') by lra.
  assert (Q1 : 0 < n') by lra.
  assert (E3 : Rabs d <= 1.001 * Rabs s + h).
  { replace d with ((d - s) + s) by ring. pose proof (Rabs_triang (d - s) s) as T.
    assert (uro * Rabs s <= / 1000000 * Rabs s) by (apply Rmult_le_compat_r; [apply Rabs_pos|lra]). pose proof (Rabs_pos s). lra. }
  assert (T1 : Rabs t * n' = Rabs d).
  { unfold t, Rdiv. rewrite Rabs_mult, (Rabs_pos_eq (/ n')) by (left; now apply Rinv_0_lt_compat). field. lra. }
  pose proof (Rabs_pos t) as Pt.
  assert (E4 : n * Rabs t <= 1.0011 * Rabs d).
  { rewrite <- T1. assert (n <= 1.0011 * n') by lra.
    replace (1.0011 * (Rabs t * n')) with (1.0011 * n' * Rabs t) by ring. apply Rmult_le_compat_r; lra. }
  assert (E5 : Rabs (n * t - d) <= uro * (1.0011 * Rabs d)).
  { replace (n * t - d) with (t * (n - n')) by (unfold t; field; lra). rewrite Rabs_mult.
    apply Rle_trans with (Rabs t * (uro * n)).
    - apply Rmult_le_compat_l; [exact Pt|]. apply Rabs_le. lra.
    - replace (Rabs t * (uro * n)) with (uro * (n * Rabs t)) by ring. apply Rmult_le_compat_l; lra. }
  assert (E6 : Rabs (n * q - n * t) <= uro * (1.0011 * Rabs d) + n * h).
  { replace (n * q - n * t) with (n * (q - t)) by ring. rewrite Rabs_mult, (Rabs_pos_eq n) by lra.
    apply Rle_trans with (n * (uro * Rabs t + h)); [apply Rmult_le_compat_l; lra|].
    rewrite Rmult_plus_distr_l. apply Rplus_le_compat_r.
    replace (n * (uro * Rabs t)) with (uro * (n * Rabs t)) by ring. apply Rmult_le_compat_l; lra. }
  assert (E7 : Rabs (n * q - D) <= (uro * (1.0011 * Rabs d) + n * h) + uro * (1.0011 * Rabs d) + (uro * Rabs s + h) + eps * S).
  { replace (n * q - D) with ((n * q - n * t) + (n * t - d) + (d - s) + (s - D)) by ring.
    eapply Rle_trans; [apply Rabs_triang|]. apply Rplus_le_compat; [|exact E1].
    eapply Rle_trans; [apply Rabs_triang|]. apply Rplus_le_compat; [|exact Hd].
    eapply Rle_trans; [apply Rabs_triang|]. now apply Rplus_le_compat. }
  assert (Us3 : uro * Rabs d <= uro * (1.001 * Rabs s + h)) by (apply Rmult_le_compat_l; lra).
  assert (Us4 : uro * Rabs s <= uro * (D + eps * S)) by (apply Rmult_le_compat_l; lra).
  assert (Us5 : uro * h <= / 1000000 * h) by (apply Rmult_le_compat_r; lra).
  assert (Us6 : uro * (eps * S) <= / 1000000 * (eps * S)) by (apply Rmult_le_compat_r; lra).
  fold S D. assert (Us7 : 0 <= uro * Rabs s) by (apply Rmult_le_pos; [lra|apply Rabs_pos]).
  assert (Us8 : 0 <= n * h) by (apply Rmult_le_pos; lra). lra.
Qed.

(** ** The base *)
Section Acc.
Variables (M : transc f64) (eps : R) (first last : f64) (steps : Z).
Hypothesis HL : accurate_log eps M.
Hypothesis HP : accurate_pow eps M.
Hypothesis HE : t_e M = M_E.
Hypothesis Heps : 0 <= eps <= bpow radix2 (-20).
Hypothesis Hs : (1 <= steps <= 2 ^ 49)%Z.
Hypothesis Hse : eps * IZR steps <= / 16.
Hypothesis Ff : fin first.
Hypothesis Fl : fin last.
Hypothesis Hf : bpow radix2 (-1021) <= RR first.
Hypothesis Hfl : RR first <= RR last.
Hypothesis Hl : RR last <= bpow radix2 1022.
Hypothesis Hb : Rpower (RR last / RR first) (/ IZR steps) <= bpow radix2 1022.

Let A := ln (RR first).
Let B := ln (RR last).
Let n := IZR steps.
Let SS := Rabs A + Rabs B.
Let D := B - A.

Local Lemma pos_first : 0 < RR first.
Proof. pose proof (bpow_gt_0 radix2 (-1021)). lra. Qed.
Local Lemma pos_last : 0 < RR last.
Proof. pose proof pos_first. lra. Qed.
Local Lemma n_ge_1 : 1 <= n /\ uro * n <= / 16.
Proof.
  split; [apply (IZR_le 1); lia|]. apply Rle_trans with (uro * IZR (2 ^ 49)).
  - apply Rmult_le_compat_l; [left; apply uro_pos|]. apply IZR_le. lia.
  - rewrite uro_val. apply Req_le. change (2 ^ 53)%Z with (2 ^ 49 * 16)%Z. rewrite mult_IZR. field.
    apply not_0_IZR. lia.
Qed.
Local Lemma eps_small : eps <= / 1000000.
Proof.
  destruct Heps as [_ H]. apply Rle_trans with (1 := H). change (-20)%Z with (- (20))%Z. rewrite bpow_opp, <- IZR_Zpower by lia.
  apply Rinv_le; [lra|]. apply IZR_le. vm_compute. discriminate.
Qed.
Local Lemma AB : -1021 * ln 2 <= A /\ A <= B /\ B <= 1022 * ln 2.
Proof.
  pose proof pos_first. pose proof pos_last. pose proof (bpow_gt_0 radix2 (-1021)). pose proof (bpow_gt_0 radix2 1022). unfold A, B.
  rewrite <- !ln_bpow. repeat split; apply ln_mono; assumption.
Qed.
Local Lemma SS_le : 0 <= D <= SS /\ SS <= 4000.
Proof.
  pose proof AB as (H1 & H2 & H3). pose proof ln2_bounds as [_ L].
  unfold SS, D. unfold Rabs. destruct (Rcase_abs A), (Rcase_abs B); lra.
Qed.
Local Lemma D_n : D / n <= 1022 * ln 2.
Proof.
  rewrite <- ln_bpow. unfold D, A, B, n. pose proof pos_first. pose proof pos_last.
  replace ((ln (RR last) - ln (RR first)) / IZR steps) with (ln (Rpower (RR last / RR first) (/ IZR steps))).
  - apply ln_mono; [apply exp_pos|exact Hb].
  - unfold Rpower. rewrite ln_exp. unfold Rdiv. rewrite ln_mult, ln_Rinv by (auto; now apply Rinv_0_lt_compat). ring.
Qed.

Local Lemma h_small : 2 * eta <= / 1000 * uro.
Proof.
  pose proof uro_pos as U. apply Rle_trans with (bpow radix2 (-10) * uro).
  - unfold eta, uro. change 2 with (bpow radix2 1). rewrite <- !bpow_plus. apply bpow_le. lia.
  - apply Rmult_le_compat_r; [lra|]. change (-10)%Z with (- (10))%Z. rewrite bpow_opp, <- IZR_Zpower by lia.
    apply Rinv_le; [lra|]. apply IZR_le. vm_compute. discriminate.
Qed.

(** The exponent is finite and near D/n. *)
Local Lemma expo : let q := fdiv (fsub (t_log M last) (t_log M first)) (of_Z steps) in
  fin q /\ Rabs (n * RR q - D) <= 101 / 100 * (eps * SS) + 3.01 * uro * D + (n + 3) * eta.
Proof.
  intros q. destruct (HL first Ff pos_first) as [F1 E1]. destruct (HL last Fl pos_last) as [F2 E2].
  pose proof SS_le as [[D0 D1] S4]. pose proof n_ge_1 as [N1 N2]. pose proof eps_small as Es. pose proof uro_pos as U. pose proof uro_small as Us.
  fold A in E1. fold B in E2.
  assert (Pa : Rabs (RR (t_log M first)) <= 8000 /\ Rabs (RR (t_log M last)) <= 8000).
  { assert (K : forall x y, Rabs y <= 4000 -> Rabs (x - y) <= eps * Rabs y -> Rabs x <= 8000).
    { intros x y Hy Hxy. replace x with ((x - y) + y) by ring. eapply Rle_trans; [apply Rabs_triang|].
      assert (eps * Rabs y <= / 1000000 * Rabs y) by (apply Rmult_le_compat_r; [apply Rabs_pos|lra]). lra. }
    unfold SS in S4. pose proof (Rabs_pos A). pose proof (Rabs_pos B). split; eapply K; try eassumption; lra. }
  assert (Pd : Rabs (RR (t_log M last) - RR (t_log M first)) <= bpow radix2 14).
  { pose proof (Rabs_triang (RR (t_log M last)) (- RR (t_log M first))) as T. rewrite Rabs_Ropp in T.
    change (bpow radix2 14) with 16384. unfold Rminus. lra. }
  destruct (fsub_ok _ _ F2 F1 (no_overflow _ 14 ltac:(lia) Pd)) as [Ed Fd].
  destruct (of_Z_exact steps ltac:(lia)) as [En Fn].
  assert (Pd2 : Rabs (RR (fsub (t_log M last) (t_log M first))) <= bpow radix2 14).
  { rewrite Ed. apply rnd_abs_le; [apply fmt_bpow; lia|exact Pd]. }
  assert (Pn : 0 < / n <= 1). { split; [apply Rinv_0_lt_compat; lra|]. rewrite <- Rinv_1. apply Rinv_le; lra. }
  assert (Pq : Rabs (RR (fsub (t_log M last) (t_log M first)) / RR (of_Z steps)) <= bpow radix2 14).
  { rewrite En. fold n. unfold Rdiv. rewrite Rabs_mult, (Rabs_pos_eq (/ n)) by lra.
    rewrite <- (Rmult_1_r (bpow radix2 14)). apply Rmult_le_compat; try lra; apply Rabs_pos. }
  assert (Nz : RR (of_Z steps) <> 0) by (rewrite En; fold n; lra).
  destruct (fdiv_ok _ _ Fd Nz (no_overflow _ 14 ltac:(lia) Pq)) as [Eq Fq].
  split; [exact Fq|].
  apply exponent_err with (lA := RR (t_log M first)) (lB := RR (t_log M last)) (n' := RR (of_Z steps))
    (d := RR (fsub (t_log M last) (t_log M first))); try assumption; try lra.
  - unfold eta. apply bpow_ge_0.
  - unfold D in D0. lra.
  - rewrite En. fold n. unfold Rminus. rewrite Rplus_opp_r, Rabs_R0. apply Rmult_le_pos; lra.
  - rewrite Ed. apply rnd_err.
  - unfold q. rewrite Eq. apply rnd_err.
Qed.

(** Error of the logarithm of the base, per step. *)
Definition base_slack : R := (51 / 50 * (eps * SS) + 201 / 50 * uro * D) / n + 101 / 100 * eps + 1 / 200 * uro.

Local Lemma slack_pos : 0 <= base_slack.
Proof.
  pose proof SS_le as [[D0 D1] S4]. pose proof n_ge_1 as [N1 N2]. pose proof uro_pos as U. unfold base_slack.
  assert (0 <= eps * SS) by (apply Rmult_le_pos; lra). assert (0 <= uro * D) by (apply Rmult_le_pos; lra).
  assert (0 <= (51 / 50 * (eps * SS) + 201 / 50 * uro * D) / n) by (apply Rmult_le_pos; [lra|left; apply Rinv_0_lt_compat; lra]). lra.
Qed.
Local Lemma slack_n : n * (base_slack + 101 / 100 * uro) <= 0.16.
Proof.
  pose proof SS_le as [[D0 D1] S4]. pose proof n_ge_1 as [N1 N2]. pose proof uro_pos as U. unfold base_slack.
  replace (n * ((51 / 50 * (eps * SS) + 201 / 50 * uro * D) / n + 101 / 100 * eps + 1 / 200 * uro + 101 / 100 * uro)) with
    (51 / 50 * (eps * SS) + 201 / 50 * uro * D + 101 / 100 * (eps * n) + 203 / 200 * (uro * n)) by (field; lra).
  fold n in Hse. pose proof eps_small as Es. pose proof uro_small as Us.
  assert (eps * SS <= / 1000000 * 4000) by (apply Rmult_le_compat; lra).
  assert (uro * D <= / 1000000 * 4000) by (apply Rmult_le_compat; lra). lra.
Qed.

Local Lemma base_near : let b := log_base numF M first last steps in
  fin b /\ 0 < RR b /\ Rabs (ln (RR b) - D / n) <= base_slack.
Proof.
  intros b. destruct expo as [Fq Eq]. unfold b, log_base. cbn [numF n_div n_sub n_ofZ]. rewrite HE.
  set (q := fdiv _ _) in *. pose proof SS_le as [[D0 D1] S4]. pose proof n_ge_1 as [N1 N2]. pose proof uro_pos as U.
  pose proof uro_small as Us. pose proof eps_small as Es. pose proof ln_M_E as [Pe Le]. pose proof h_small as Hh.
  assert (E0 : 0 < eta) by apply bpow_gt_0.
  assert (P2 : 0 <= eps * SS) by (apply Rmult_le_pos; lra). assert (P3 : 0 <= uro * D) by (apply Rmult_le_pos; lra).
  assert (Ne : n * eta <= n * (/ 2000 * uro)) by (apply Rmult_le_compat_l; lra).
  set (X := 101 / 100 * (eps * SS) + 3.01 * uro * D + (n + 3) * eta) in *.
  assert (Un : uro <= n * uro) by (rewrite <- (Rmult_1_l uro) at 1; apply Rmult_le_compat_r; lra).
  assert (HX : X <= 101 / 100 * (eps * SS) + 3.01 * uro * D + 0.003 * (n * uro)) by (unfold X; lra).
  assert (HX0 : 0 <= X). { eapply Rle_trans; [|exact Eq]. apply Rabs_pos. }
  (* the logarithm of the power *)
  assert (G : Rabs (n * (RR q * ln (RR M_E)) - D) <= 1.001 * X + uro * D).
  { replace (n * (RR q * ln (RR M_E)) - D) with ((n * RR q - D) + (n * RR q) * (ln (RR M_E) - 1)) by ring.
    eapply Rle_trans; [apply Rabs_triang|]. rewrite (Rabs_mult (n * RR q)).
    assert (Q : Rabs (n * RR q) <= D + X).
    { replace (n * RR q) with ((n * RR q - D) + D) by ring. eapply Rle_trans; [apply Rabs_triang|].
      rewrite (Rabs_pos_eq D) by lra. lra. }
    assert (Rabs (n * RR q) * Rabs (ln (RR M_E) - 1) <= (D + X) * uro) by (apply Rmult_le_compat; try assumption; apply Rabs_pos).
    assert (X * uro <= X * / 1000000) by (apply Rmult_le_compat_l; lra). lra. }
  assert (G2 : Rabs (RR q * ln (RR M_E) - D / n) <= (1.001 * X + uro * D) / n).
  { replace (RR q * ln (RR M_E) - D / n) with ((n * (RR q * ln (RR M_E)) - D) * / n) by (field; lra).
    rewrite Rabs_mult, (Rabs_pos_eq (/ n)) by (left; apply Rinv_0_lt_compat; lra).
    apply Rmult_le_compat_r; [left; apply Rinv_0_lt_compat; lra|exact G]. }
  assert (SN : base_slack = (51 / 50 * (eps * SS) + 201 / 50 * uro * D + 1 / 200 * (n * uro)) / n + 101 / 100 * eps)
    by (unfold base_slack; field; lra).
  assert (G3 : (1.001 * X + uro * D) / n <= (51 / 50 * (eps * SS) + 201 / 50 * uro * D + 1 / 200 * (n * uro)) / n).
  { apply Rmult_le_compat_r; [left; apply Rinv_0_lt_compat; lra|]. lra. }
  pose proof slack_n as Sn. pose proof slack_pos as Sp.
  assert (Sb : base_slack <= 0.16). { assert (0 <= (n - 1) * base_slack) by (apply Rmult_le_pos; lra).
    assert (0 <= n * uro) by lra. lra. }
  pose proof ln2_bounds as [L2 L2'].
  assert (Dn0 : 0 <= D / n) by (apply Rmult_le_pos; [lra|left; apply Rinv_0_lt_compat; lra]). pose proof D_n as Dn1.
  apply Rabs_le_inv in G2.
  assert (Rg : bpow radix2 (-1022) <= Rpower (RR M_E) (RR q) <= bpow radix2 1023).
  { split; apply ln_mono_inv; try apply bpow_gt_0; try apply exp_pos; unfold Rpower; rewrite ln_exp, ln_bpow; lra. }
  destruct (HP M_E q (proj2 RR_M_E) Fq Pe Rg) as [Fb Eb].
  split; [exact Fb|].
  destruct (ln_rel _ _ eps ltac:(lra) (exp_pos _) Eb) as [Pb Lb]. split; [exact Pb|].
  unfold Rpower in Lb. rewrite ln_exp in Lb. apply Rabs_le_inv in Lb. apply Rabs_le. lra.
Qed.

(** ** The values *)
Local Lemma value_near k : (Z.of_nat k <= steps)%Z ->
  let v := log_value numF first (log_base numF M first last steps) k in
  fin v /\ 0 < RR v /\ Rabs (ln (RR v) - (A + INR k * (D / n))) <= INR k * (base_slack + 101 / 100 * uro).
Proof.
  set (b := log_base numF M first last steps). destruct base_near as (Fb & Pb & Lb). fold b in Fb, Pb, Lb.
  pose proof SS_le as [[D0 D1] S4]. pose proof n_ge_1 as [N1 N2]. pose proof uro_pos as U. pose proof slack_pos as Sp. pose proof slack_n as Sn.
  pose proof uro_small as Us. pose proof AB as (A1 & A2 & A3). pose proof ln2_bounds as [L2 L2'].
  induction k as [|k IH]; intros Hk v.
  - unfold v. cbn [log_value]. split; [exact Ff|]. split; [apply pos_first|]. fold A. change (INR 0) with 0.
    replace (A - (A + 0 * (D / n))) with 0 by ring. rewrite Rabs_R0. lra.
  - destruct IH as (Fk & Pk & Lk); [lia|]. unfold v. cbn [log_value numF n_mul].
    set (w := log_value numF first b k) in *. set (x := RR w * RR b).
    assert (Px : 0 < x) by (unfold x; now apply Rmult_lt_0_compat).
    rewrite S_INR.
    assert (Lx : Rabs (ln x - (A + (INR k + 1) * (D / n))) <= INR k * (base_slack + 101 / 100 * uro) + base_slack).
    { unfold x. rewrite ln_mult by assumption.
      replace (ln (RR w) + ln (RR b) - (A + (INR k + 1) * (D / n))) with
        ((ln (RR w) - (A + INR k * (D / n))) + (ln (RR b) - D / n)) by ring.
      eapply Rle_trans; [apply Rabs_triang|]. lra. }
    assert (Kn : INR k + 1 <= n). { rewrite <- S_INR, INR_IZR_INZ. unfold n. now apply IZR_le. }
    pose proof (pos_INR k) as K0.
    assert (Tot : INR k * (base_slack + 101 / 100 * uro) + base_slack <= 0.16).
    { assert (0 <= (n - (INR k + 1)) * (base_slack + 101 / 100 * uro)) by (apply Rmult_le_pos; lra). lra. }
    assert (Kd : 0 <= (INR k + 1) * (D / n) <= D).
    { assert (Hd : 0 <= D / n) by (apply Rmult_le_pos; [lra|left; apply Rinv_0_lt_compat; lra]). split.
      - apply Rmult_le_pos; lra.
      - apply Rle_trans with (n * (D / n)); [apply Rmult_le_compat_r; lra|]. apply Req_le. field. lra. }
    pose proof (Rabs_le_inv _ _ Lx) as Lx2. assert (ED : D = B - A) by reflexivity.
    assert (Xlo : bpow radix2 (-1022) <= Rabs x).
    { rewrite Rabs_pos_eq by lra. apply ln_mono_inv; [apply bpow_gt_0|exact Px|]. rewrite ln_bpow. lra. }
    assert (Xhi : Rabs x <= bpow radix2 1023).
    { rewrite Rabs_pos_eq by lra. apply ln_mono_inv; [exact Px|apply bpow_gt_0|]. rewrite ln_bpow. lra. }
    destruct (fmul_ok _ _ Fk Fb (no_overflow _ 1023 ltac:(lia) Xhi)) as [Em Fm]. split; [exact Fm|].
    pose proof (rnd_rel x Xlo) as R. rewrite (Rabs_pos_eq x) in R by lra. fold x in Em. rewrite Em.
    destruct (ln_rel _ _ uro ltac:(lra) Px R) as [Pr Lr]. split; [exact Pr|].
    replace (ln (rnd x) - (A + (INR k + 1) * (D / n))) with ((ln (rnd x) - ln x) + (ln x - (A + (INR k + 1) * (D / n)))) by ring.
    eapply Rle_trans; [apply Rabs_triang|]. lra.
Qed.

Lemma exp_near y : Rabs y <= 0.165 -> Rabs (exp y - 1) <= 6 / 5 * Rabs y.
Proof.
  intros H. pose proof (exp_ineq1_le y) as E1. pose proof (exp_ineq1_le (- y)) as E2. rewrite exp_Ropp in E2.
  pose proof (exp_pos y) as P. pose proof (Rabs_le_inv _ _ H) as H2.
  assert (E3 : exp y * (1 - y) <= 1).
  { apply Rmult_le_reg_l with (/ exp y); [now apply Rinv_0_lt_compat|]. rewrite <- Rmult_assoc, Rinv_l by lra. lra. }
  destruct (Rle_or_lt 0 y) as [Hy|Hy].
  - rewrite (Rabs_pos_eq y), Rabs_pos_eq by lra. rewrite (Rabs_pos_eq y) in H by lra.
    apply Rmult_le_reg_r with (1 - y); [lra|]. assert (0 <= y * (0.165 - y)) by (apply Rmult_le_pos; lra). lra.
  - rewrite (Rabs_left y) by lra. apply Rabs_le. split; [lra|].
    assert (exp y <= 1); [|lra]. rewrite <- exp_0. left. now apply exp_increasing.
Qed.

Lemma log_accurate k : (Z.of_nat k <= steps)%Z ->
  let v := log_value numF first (log_base numF M first last steps) k in
  let x := log_point (RR first) (RR last) steps k in
  fin v /\ 0 < RR v /\ Rabs (RR v - x) <= log_allowance eps (RR first) (RR last) steps k * x.
Proof.
  intros Hk v x. destruct (value_near k Hk) as (Fv & Pv & Lv). fold v in Fv, Pv, Lv. split; [exact Fv|]. split; [exact Pv|].
  pose proof pos_first as P1. pose proof pos_last as P2. pose proof n_ge_1 as [N1 N2]. pose proof uro_pos as U.
  pose proof slack_pos as Sp. pose proof slack_n as Sn.
  assert (Px : 0 < x) by (unfold x, log_point; apply Rmult_lt_0_compat; [assumption|apply exp_pos]).
  assert (Lnx : ln x = A + INR k * (D / n)).
  { unfold x, log_point. rewrite ln_mult by (auto; apply exp_pos). unfold Rpower. rewrite ln_exp.
    unfold Rdiv at 2. rewrite ln_mult, ln_Rinv by (auto; now apply Rinv_0_lt_compat). fold A B n. unfold D. field. lra. }
  rewrite <- Lnx in Lv. set (y := ln (RR v) - ln x) in *.
  assert (Kn : 0 <= INR k <= n). { split; [apply pos_INR|]. rewrite INR_IZR_INZ. unfold n. now apply IZR_le. }
  assert (Ev : RR v = exp y * x).
  { unfold y, Rminus. rewrite exp_plus, exp_Ropp, !exp_ln by assumption. field. lra. }
  assert (Hy : Rabs y <= 0.165).
  { assert (0 <= (n - INR k) * (base_slack + 101 / 100 * uro)) by (apply Rmult_le_pos; lra). lra. }
  rewrite Ev. replace (exp y * x - x) with ((exp y - 1) * x) by ring. rewrite Rabs_mult, (Rabs_pos_eq x) by lra.
  apply Rmult_le_compat_r; [lra|]. eapply Rle_trans; [apply exp_near, Hy|].
  pose proof SS_le as [[D0 D1] S4].
  unfold log_allowance. fold A B. fold SS. change ulp1 with uro. fold n. change (B - A) with D. rewrite (Rabs_pos_eq D) by lra.
  apply Rle_trans with (6 / 5 * (INR k * (base_slack + 101 / 100 * uro))); [lra|].
  assert (Q1 : 0 <= eps * SS) by (apply Rmult_le_pos; lra). assert (Q2 : 0 <= uro * D) by (apply Rmult_le_pos; lra).
  assert (Q3 : 0 <= INR k / n) by (apply Rmult_le_pos; [lra|left; apply Rinv_0_lt_compat; lra]).
  replace (6 / 5 * (INR k * (base_slack + 101 / 100 * uro))) with
    (6 / 5 * (INR k * (101 / 100 * eps + 203 / 200 * uro) + INR k / n * (51 / 50 * (eps * SS) + 201 / 50 * uro * D))) by (unfold base_slack; field; lra).
  assert (Q4 : INR k * (101 / 100 * eps + 203 / 200 * uro) <= INR k * (51 / 50 * (eps + uro))) by (apply Rmult_le_compat_l; lra).
  assert (Q5 : INR k / n * (51 / 50 * (eps * SS) + 201 / 50 * uro * D) <= INR k / n * (51 / 50 * (eps * SS + 4 * uro * D))) by (apply Rmult_le_compat_l; lra).
  assert (Q6 : 0 <= INR k * (eps + uro)) by (apply Rmult_le_pos; lra).
  assert (Q7 : 0 <= INR k / n * (eps * SS + 4 * uro * D)) by (apply Rmult_le_pos; lra).
  lra.
Qed.
End Acc.

(** ** Ends given by exponents *)
Section AccExp.
Variables (M : transc f64) (eps : R) (base : f64) (start stop steps : Z).
Hypothesis HL : accurate_log eps M.
Hypothesis HP : accurate_pow eps M.
Hypothesis HE : t_e M = M_E.
Hypothesis Heps : 0 <= eps <= bpow radix2 (-20).
Hypothesis Hs : (1 <= steps <= 2 ^ 49)%Z.
Hypothesis Hse : eps * IZR steps <= / 16.
Hypothesis Fb : fin base.
Hypothesis Hb : 1 + 3 * eps <= RR base.
Hypothesis Hss : (start < stop)%Z.
Hypothesis H1 : (Z.abs start <= 2 ^ 53)%Z.
Hypothesis H2 : (Z.abs stop <= 2 ^ 53)%Z.
Hypothesis R1 : bpow radix2 (-1020) <= Rpower (RR base) (IZR start).
Hypothesis R2 : Rpower (RR base) (IZR stop) <= bpow radix2 1021.
Hypothesis R3 : Rpower (RR base) (IZR (stop - start) / IZR steps) <= bpow radix2 1021.

Let L := ln (RR base).
Let first := t_pow M base (of_Z start).
Let last := t_pow M base (of_Z stop).

Local Lemma eps_s : eps <= / 1000000.
Proof. apply (eps_small eps Heps). Qed.
Local Lemma base_pos : 0 < RR base /\ 2.5 * eps <= L.
Proof.
  pose proof eps_s as Es. assert (P : 0 < RR base) by lra. split; [exact P|]. unfold L.
  apply Rle_trans with (1 - / (1 + 3 * eps)).
  - apply Rmult_le_reg_r with (1 + 3 * eps); [lra|]. rewrite Rmult_minus_distr_r, Rinv_l by lra.
    assert (0 <= eps * (1 - 15 * eps)) by (apply Rmult_le_pos; lra). lra.
  - apply Rle_trans with (1 - / RR base); [|now apply ln_ge_sub]. assert (/ RR base <= / (1 + 3 * eps)) by (apply Rinv_le; lra). lra.
Qed.

Local Lemma stst : IZR start + 1 <= IZR stop.
Proof. rewrite <- plus_IZR. apply IZR_le. lia. Qed.

Local Lemma end_near z : (Z.abs z <= 2 ^ 53)%Z -> (start <= z <= stop)%Z ->
  fin (t_pow M base (of_Z z)) /\ 0 < RR (t_pow M base (of_Z z)) /\
  Rabs (ln (RR (t_pow M base (of_Z z))) - IZR z * L) <= 1.01 * eps /\
  -1020 * ln 2 <= IZR z * L <= 1021 * ln 2.
Proof.
  intros Hz Hr. pose proof base_pos as [Pb Lp]. pose proof eps_s as Es. destruct (of_Z_exact z Hz) as [Ez Fz].
  assert (I1 : IZR start <= IZR z) by (apply IZR_le; lia). assert (I2 : IZR z <= IZR stop) by (apply IZR_le; lia).
  assert (B1 : -1020 * ln 2 <= IZR start * L).
  { rewrite <- ln_bpow. pose proof (ln_mono _ _ (bpow_gt_0 radix2 (-1020)) R1) as K. unfold Rpower in K. now rewrite ln_exp in K. }
  assert (B2 : IZR stop * L <= 1021 * ln 2).
  { rewrite <- ln_bpow. pose proof (ln_mono _ _ (exp_pos _) R2) as K. now rewrite ln_exp in K. }
  assert (Z1 : IZR start * L <= IZR z * L) by (apply Rmult_le_compat_r; lra).
  assert (Z2 : IZR z * L <= IZR stop * L) by (apply Rmult_le_compat_r; lra).
  pose proof ln2_bounds.
  assert (Rg : bpow radix2 (-1022) <= Rpower (RR base) (RR (of_Z z)) <= bpow radix2 1023).
  { rewrite Ez. unfold Rpower. fold L. split; apply ln_mono_inv; try apply bpow_gt_0; try apply exp_pos; rewrite ln_exp, ln_bpow; lra. }
  destruct (HP base (of_Z z) Fb Fz Pb Rg) as [Fp Ep]. split; [exact Fp|].
  destruct (ln_rel _ _ eps ltac:(lra) (exp_pos _) Ep) as [Pp Lp2]. split; [exact Pp|].
  unfold Rpower in Lp2. rewrite ln_exp, Ez in Lp2. split; [exact Lp2|lra].
Qed.

Lemma exp_accurate k : (Z.of_nat k <= steps)%Z ->
  let v := log_value numF first (log_base numF M first last steps) k in
  let x := exp_point (RR base) start stop steps k in
  fin v /\ 0 < RR v /\
  Rabs (RR v - x) <= (log_allowance eps (Rpower (RR base) (IZR start)) (Rpower (RR base) (IZR stop)) steps k + 2 * eps) * x.
Proof.
  intros Hk v x. destruct (end_near start H1 ltac:(lia)) as (F1 & P1 & L1 & B1). destruct (end_near stop H2 ltac:(lia)) as (F2 & P2 & L2 & B2).
  fold first in F1, P1, L1. fold last in F2, P2, L2. pose proof base_pos as [Pb Lp]. pose proof eps_s as Es. pose proof stst as St.
  pose proof ln2_bounds as Ln2. apply Rabs_le_inv in L1, L2.
  assert (Hn : 1 <= IZR steps) by (apply (IZR_le 1); lia).
  assert (HH : IZR start * L + L <= IZR stop * L).
  { assert ((IZR start + 1) * L <= IZR stop * L) by (apply Rmult_le_compat_r; lra). lra. }
  assert (G1 : bpow radix2 (-1021) <= RR first) by (apply ln_mono_inv; [apply bpow_gt_0|exact P1|]; rewrite ln_bpow; lra).
  assert (G2 : RR first <= RR last) by (apply ln_mono_inv; [exact P1|exact P2|]; lra).
  assert (G3 : RR last <= bpow radix2 1022) by (apply ln_mono_inv; [exact P2|apply bpow_gt_0|]; rewrite ln_bpow; lra).
  assert (Pi : 0 < / IZR steps <= 1) by (split; [apply Rinv_0_lt_compat; lra|rewrite <- Rinv_1; apply Rinv_le; lra]).
  assert (Q3 : (IZR stop * L - IZR start * L) * / IZR steps <= 1021 * ln 2).
  { rewrite <- ln_bpow. pose proof (ln_mono _ _ (exp_pos _) R3) as K. rewrite ln_exp, minus_IZR in K. unfold Rdiv in K. fold L in K.
    replace ((IZR stop * L - IZR start * L) * / IZR steps) with ((IZR stop - IZR start) * / IZR steps * L) by ring. exact K. }
  assert (G4 : Rpower (RR last / RR first) (/ IZR steps) <= bpow radix2 1022).
  { apply ln_mono_inv; [apply exp_pos|apply bpow_gt_0|]. unfold Rpower. rewrite ln_exp, ln_bpow. unfold Rdiv.
    rewrite ln_mult, ln_Rinv by (auto; now apply Rinv_0_lt_compat).
    apply Rle_trans with (/ IZR steps * ((IZR stop * L - IZR start * L) + 3 * eps)); [apply Rmult_le_compat_l; lra|].
    assert (/ IZR steps * (3 * eps) <= 1 * (3 * eps)) by (apply Rmult_le_compat_r; lra). lra. }
  destruct (log_accurate M eps first last steps HL HP HE Heps Hs Hse F1 F2 G1 G2 G3 G4 k Hk) as (Fv & Pv & Ev).
  fold v in Fv, Pv, Ev. split; [exact Fv|]. split; [exact Pv|].
  set (y := log_point (RR first) (RR last) steps k) in *. set (t := INR k / IZR steps) in *.
  assert (Ht : 0 <= t <= 1).
  { unfold t. split; [apply Rmult_le_pos; [apply pos_INR|lra]|]. apply Rmult_le_reg_r with (IZR steps); [lra|].
    unfold Rdiv. rewrite Rmult_assoc, Rinv_l by lra. rewrite Rmult_1_r, Rmult_1_l, INR_IZR_INZ. now apply IZR_le. }
  assert (Px : 0 < x) by apply exp_pos.
  assert (Py : 0 < y) by (unfold y, log_point; apply Rmult_lt_0_compat; [assumption|apply exp_pos]).
  assert (Lx : ln x = (1 - t) * (IZR start * L) + t * (IZR stop * L)).
  { unfold x, exp_point, Rpower. rewrite ln_exp, minus_IZR. fold L t. ring. }
  assert (Ly : ln y = (1 - t) * ln (RR first) + t * ln (RR last)).
  { unfold y, log_point. rewrite ln_mult by (auto; apply exp_pos). unfold Rpower. rewrite ln_exp. fold t.
    unfold Rdiv. rewrite ln_mult, ln_Rinv by (auto; now apply Rinv_0_lt_compat). ring. }
  assert (Z : Rabs (ln y - ln x) <= 1.01 * eps).
  { rewrite Lx, Ly. apply Rabs_le.
    assert (0 <= (1 - t) * (1.01 * eps - (ln (RR first) - IZR start * L))) by (apply Rmult_le_pos; lra).
    assert (0 <= t * (1.01 * eps - (ln (RR last) - IZR stop * L))) by (apply Rmult_le_pos; lra).
    assert (0 <= (1 - t) * (1.01 * eps + (ln (RR first) - IZR start * L))) by (apply Rmult_le_pos; lra).
    assert (0 <= t * (1.01 * eps + (ln (RR last) - IZR stop * L))) by (apply Rmult_le_pos; lra). lra. }
  set (z := ln y - ln x) in *.
  assert (Ey : y = exp z * x). { unfold z, Rminus. rewrite exp_plus, exp_Ropp, !exp_ln by assumption. field. lra. }
  assert (Ez : Rabs (exp z - 1) <= 1.22 * eps) by (eapply Rle_trans; [apply exp_near; lra|]; lra).
  assert (Exy : Rabs (y - x) <= 1.22 * eps * x).
  { rewrite Ey. replace (exp z * x - x) with ((exp z - 1) * x) by ring. rewrite Rabs_mult, (Rabs_pos_eq x) by lra. apply Rmult_le_compat_r; lra. }
  (* the allowance *)
  set (W := log_allowance eps (RR first) (RR last) steps k) in *.
  set (V := log_allowance eps (Rpower (RR base) (IZR start)) (Rpower (RR base) (IZR stop)) steps k).
  pose proof uro_pos as U. pose proof uro_small as Us.
  assert (EV : V = 5 / 4 * (INR k * (eps + uro) + t * (eps * (Rabs (IZR start * L) + Rabs (IZR stop * L)) + 4 * uro * (IZR stop * L - IZR start * L)))).
  { unfold V, log_allowance, Rpower. rewrite !ln_exp. fold L. rewrite (Rabs_pos_eq (IZR stop * L - IZR start * L)) by lra. reflexivity. }
  assert (EW : W = 5 / 4 * (INR k * (eps + uro) + t * (eps * (Rabs (ln (RR first)) + Rabs (ln (RR last))) + 4 * uro * (ln (RR last) - ln (RR first))))).
  { unfold W, log_allowance. rewrite (Rabs_pos_eq (ln (RR last) - ln (RR first))) by lra. reflexivity. }
  assert (TA : Rabs (ln (RR first)) <= Rabs (IZR start * L) + 1.01 * eps).
  { replace (ln (RR first)) with (IZR start * L + (ln (RR first) - IZR start * L)) by ring. eapply Rle_trans; [apply Rabs_triang|].
    apply Rplus_le_compat_l. apply Rabs_le. lra. }
  assert (TB : Rabs (ln (RR last)) <= Rabs (IZR stop * L) + 1.01 * eps).
  { replace (ln (RR last)) with (IZR stop * L + (ln (RR last) - IZR stop * L)) by ring. eapply Rle_trans; [apply Rabs_triang|].
    apply Rplus_le_compat_l. apply Rabs_le. lra. }
  assert (WV : W <= V + 0.01 * eps).
  { rewrite EW, EV.
    assert (T1 : eps * (Rabs (ln (RR first)) + Rabs (ln (RR last))) <= eps * (Rabs (IZR start * L) + Rabs (IZR stop * L) + 2.02 * eps))
      by (apply Rmult_le_compat_l; lra).
    assert (T2 : uro * (ln (RR last) - ln (RR first)) <= uro * (IZR stop * L - IZR start * L + 2.02 * eps)) by (apply Rmult_le_compat_l; lra).
    assert (T3 : eps * eps <= / 1000000 * eps) by (apply Rmult_le_compat_r; lra).
    assert (T4 : uro * eps <= / 1000000 * eps) by (apply Rmult_le_compat_r; lra).
    assert (T5 : t * (eps * (Rabs (ln (RR first)) + Rabs (ln (RR last))) + 4 * uro * (ln (RR last) - ln (RR first))) <=
                 t * (eps * (Rabs (IZR start * L) + Rabs (IZR stop * L)) + 4 * uro * (IZR stop * L - IZR start * L) + 0.001 * eps))
      by (apply Rmult_le_compat_l; lra).
    assert (T6 : t * (0.001 * eps) <= 1 * (0.001 * eps)) by (apply Rmult_le_compat_r; lra). lra. }
  assert (W5 : 0 <= W <= 1 / 2).
  { rewrite EW. split.
    - assert (0 <= INR k * (eps + uro)) by (apply Rmult_le_pos; [apply pos_INR|lra]).
      assert (0 <= eps * (Rabs (ln (RR first)) + Rabs (ln (RR last)))) by (apply Rmult_le_pos; [lra|]; pose proof (Rabs_pos (ln (RR first))); pose proof (Rabs_pos (ln (RR last))); lra).
      assert (0 <= uro * (ln (RR last) - ln (RR first))) by (apply Rmult_le_pos; lra).
      assert (0 <= t * (eps * (Rabs (ln (RR first)) + Rabs (ln (RR last))) + 4 * uro * (ln (RR last) - ln (RR first)))) by (apply Rmult_le_pos; lra). lra.
    - pose proof (n_ge_1 steps Hs) as [_ N2].
      assert (K : 0 <= INR k <= IZR steps) by (split; [apply pos_INR|rewrite INR_IZR_INZ; now apply IZR_le]).
      assert (K1 : INR k * (eps + uro) <= IZR steps * (eps + uro)) by (apply Rmult_le_compat_r; lra).
      assert (A1 : Rabs (ln (RR first)) <= 2000) by (apply Rabs_le; lra). assert (A2 : Rabs (ln (RR last)) <= 2000) by (apply Rabs_le; lra).
      assert (K2 : eps * (Rabs (ln (RR first)) + Rabs (ln (RR last))) <= / 1000000 * 4000)
        by (apply Rmult_le_compat; try lra; pose proof (Rabs_pos (ln (RR first))); pose proof (Rabs_pos (ln (RR last))); lra).
      assert (K3 : uro * (ln (RR last) - ln (RR first)) <= / 1000000 * 4000) by (apply Rmult_le_compat; lra).
      assert (K4 : t * (eps * (Rabs (ln (RR first)) + Rabs (ln (RR last))) + 4 * uro * (ln (RR last) - ln (RR first))) <= t * 0.1) by (apply Rmult_le_compat_l; lra).
      lra. }
  replace (RR v - x) with ((RR v - y) + (y - x)) by ring. eapply Rle_trans; [apply Rabs_triang|].
  pose proof (Rabs_le_inv _ _ Exy) as Exy2.
  assert (Y1 : W * y <= W * (x + 1.22 * eps * x)) by (apply Rmult_le_compat_l; lra).
  assert (X0 : 0 <= eps * x) by (apply Rmult_le_pos; lra).
  assert (Y2 : W * (1.22 * eps * x) <= 1 / 2 * (1.22 * eps * x)) by (apply Rmult_le_compat_r; lra).
  assert (Y3 : W * x <= (V + 0.01 * eps) * x) by (apply Rmult_le_compat_r; lra).
  lra.
Qed.
End AccExp.

(** ** A correctly rounded library *)
Definition of_R (x : R) : f64 :=
  let r := rnd x in dyad (Ztrunc (scaled_mantissa radix2 (FLT_exp (-1074) 53) r)) (cexp radix2 (FLT_exp (-1074) 53) r).

Lemma of_R_ok x : Rabs (rnd x) < fmax -> RR (of_R x) = rnd x /\ fin (of_R x).
Proof.
  intros H. unfold of_R. set (r := rnd x) in *. assert (G : fmt r) by apply fmt_rnd.
  assert (E : F2R (Float radix2 (Ztrunc (scaled_mantissa radix2 (FLT_exp (-1074) 53) r)) (cexp radix2 (FLT_exp (-1074) 53) r)) = r)
    by (symmetry; exact G).
  destruct (dyad_ok (Ztrunc (scaled_mantissa radix2 (FLT_exp (-1074) 53) r)) (cexp radix2 (FLT_exp (-1074) 53) r)) as [A B].
  - rewrite E, (rnd_fmt r G). exact H.
  - rewrite E, (rnd_fmt r G) in A. split; assumption.
Qed.

Definition crlib : transc f64 := mkTransc f64 (fun x y => of_R (Rpower (RR x) (RR y))) (fun x => of_R (ln (RR x))) M_E.

Lemma crlib_pow : accurate_pow ulp1 crlib.
Proof.
  intros x y Fx Fy Px [H1 H2]. cbn [crlib t_pow]. set (p := Rpower _ _) in *. assert (P : 0 < p) by apply exp_pos.
  destruct (of_R_ok p) as [E F]; [apply no_overflow with 1023%Z; [lia|]; rewrite Rabs_pos_eq; lra|]. split; [exact F|].
  rewrite E. pose proof (rnd_rel p) as K. rewrite (Rabs_pos_eq p) in K by lra. apply K, H1.
Qed.

Lemma fmt_gap_1 x : fmt x -> x <> 1 -> bpow radix2 (-53) <= Rabs (x - 1).
Proof.
  intros G N. assert (G1 : fmt 1) by (apply (fmt_bpow 0); lia).
  destruct (Rtotal_order x 1) as [L|[E|L]]; [|contradiction|].
  - pose proof (pred_ge_gt radix2 (FLT_exp (-1074) 53) x 1 G G1 L) as K.
    change 1 with (bpow radix2 0) in K. rewrite pred_bpow in K. change (FLT_exp (-1074) 53 0) with (-53)%Z in K.
    change (bpow radix2 0) with 1 in K. rewrite Rabs_left by lra. lra.
  - pose proof (succ_le_lt radix2 (FLT_exp (-1074) 53) 1 x G1 G L) as K.
    rewrite succ_eq_pos in K by lra. change 1 with (bpow radix2 0) in K at 2. rewrite ulp_bpow in K.
    change (FLT_exp (-1074) 53 (0 + 1)) with (-52)%Z in K. rewrite Rabs_pos_eq by lra.
    pose proof (bpow_le radix2 (-53) (-52) ltac:(lia)). lra.
Qed.

Lemma crlib_log : accurate_log ulp1 crlib.
Proof.
  intros x Fx Px. cbn [crlib t_log]. set (l := ln (RR x)).
  assert (Hx : RR x <= bpow radix2 1024) by (pose proof (abs_B2R_lt_emax 53 1024 x) as K; apply Rle_trans with (2 := Rlt_le _ _ K), Rle_abs).
  pose proof ln2_bounds as L2.
  assert (Ll : bpow radix2 (-1074) <= RR x).
  { rewrite <- (Rabs_pos_eq (RR x)) by lra. apply fmt_min; [apply fmt_RR|lra]. }
  apply ln_mono in Ll; [|apply bpow_gt_0]. apply ln_mono in Hx; [|exact Px]. rewrite ln_bpow in Ll, Hx. fold l in Ll, Hx.
  assert (Hl : Rabs l <= bpow radix2 11) by (change (bpow radix2 11) with 2048; apply Rabs_le; lra).
  destruct (of_R_ok l (no_overflow l 11 ltac:(lia) Hl)) as [E F]. split; [exact F|]. rewrite E. change ulp1 with uro.
  destruct (Req_dec (RR x) 1) as [E1|N1].
  - unfold l. rewrite E1, ln_1, (rnd_fmt 0) by apply generic_format_0. unfold Rminus. rewrite Rplus_opp_r, Rabs_R0. lra.
  - apply rnd_rel. pose proof (fmt_gap_1 _ (fmt_RR x) N1) as G.
    apply Rle_trans with (bpow radix2 (-55)); [apply bpow_le; lia|].
    pose proof (bpow_gt_0 radix2 (-55)) as B55.
    assert (E53 : bpow radix2 (-53) = 4 * bpow radix2 (-55)) by (change 4 with (bpow radix2 2); now rewrite <- bpow_plus).
    assert (S55 : bpow radix2 (-55) <= / 2) by (change (/ 2) with (bpow radix2 (-1)); apply bpow_le; lia).
    pose proof (ln_le_sub _ Px) as K1. pose proof (ln_ge_sub _ Px) as K2. fold l in K1, K2.
    destruct (Rle_or_lt (RR x) 1) as [C|C].
    + rewrite Rabs_left1 in G by lra. rewrite Rabs_left1 by lra. lra.
    + rewrite Rabs_pos_eq in G by lra.
      assert (K3 : bpow radix2 (-55) <= 1 - / RR x).
      { apply Rmult_le_reg_r with (RR x); [exact Px|]. rewrite Rmult_minus_distr_r, Rinv_l by lra.
        destruct (Rle_or_lt (RR x) 2); nra. }
      rewrite Rabs_pos_eq by lra. lra.
Qed.
