(** C101: how near the values of a LogSpace of doubles are to the points asked for. *)
From Coq Require Import ZArith Reals List Lia Lra.
From Flocq Require Import Core.Core.
From Verif Require Import Base F64 Num M_Space S_Space L_Space P_Space S_LogAcc L_LogAcc.
Import ListNotations.
Open Scope R_scope.

(** Every value of LogSpace(first, last, steps) up to number [steps] is finite,
    positive and near first*(last/first)^(i/steps). *)
Theorem C101_values : forall (M : transc f64) eps first last steps n i v,
  accurate_log eps M -> accurate_pow eps M -> t_e M = M_E ->
  0 <= eps <= bpow radix2 (-20) -> (1 <= steps <= 2 ^ 49)%Z -> eps * IZR steps <= / 16 ->
  fin first -> fin last -> bpow radix2 (-1021) <= RR first -> RR first <= RR last -> RR last <= bpow radix2 1022 ->
  Rpower (RR last / RR first) (/ IZR steps) <= bpow radix2 1022 ->
  nth_error (SpCollect LogDeref (LogIncr numF) (LogSpace numF M first last steps) n) i = Some v ->
  (Z.of_nat i <= steps)%Z ->
  let x := log_point (RR first) (RR last) steps i in
  fin v /\ 0 < RR v /\ Rabs (RR v - x) <= log_allowance eps (RR first) (RR last) steps i * x.
Proof.
  intros M eps first last steps n i v HL HP HE He Hs Hse Ff Fl H1 H2 H3 H4 E Hi x.
  rewrite log_collect in E. apply nth_error_map_seq in E. destruct E as [_ ->]. now apply log_accurate.
Qed.
Print Assumptions C101_values.

(** Value number [steps] is near last. *)
Theorem C101_last : forall (M : transc f64) eps first last steps n v,
  accurate_log eps M -> accurate_pow eps M -> t_e M = M_E ->
  0 <= eps <= bpow radix2 (-20) -> (1 <= steps <= 2 ^ 49)%Z -> eps * IZR steps <= / 16 ->
  fin first -> fin last -> bpow radix2 (-1021) <= RR first -> RR first <= RR last -> RR last <= bpow radix2 1022 ->
  Rpower (RR last / RR first) (/ IZR steps) <= bpow radix2 1022 ->
  nth_error (SpCollect LogDeref (LogIncr numF) (LogSpace numF M first last steps) n) (Z.to_nat steps) = Some v ->
  Rabs (RR v - RR last) <=
  5 / 4 * (IZR steps * (eps + bpow radix2 (-53)) + eps * (Rabs (ln (RR first)) + Rabs (ln (RR last))) +
           4 * bpow radix2 (-53) * (ln (RR last) - ln (RR first))) * RR last.
Proof.
  intros M eps first last steps n v HL HP HE He Hs Hse Ff Fl H1 H2 H3 H4 E.
  destruct (C101_values M eps first last steps n _ v HL HP HE He Hs Hse Ff Fl H1 H2 H3 H4 E ltac:(lia)) as (_ & _ & B).
  assert (Pf : 0 < RR first) by (pose proof (bpow_gt_0 radix2 (-1021)); lra).
  assert (Hn : 1 <= IZR steps) by (apply (IZR_le 1); lia).
  assert (K : INR (Z.to_nat steps) = IZR steps) by (rewrite INR_IZR_INZ, Z2Nat.id; [reflexivity|lia]).
  assert (X : log_point (RR first) (RR last) steps (Z.to_nat steps) = RR last).
  { unfold log_point. rewrite K. unfold Rdiv at 2. rewrite Rinv_r, Rpower_1 by (try lra; apply Rdiv_lt_0_compat; lra). field. lra. }
  rewrite X in B. unfold log_allowance, ulp1 in B. rewrite K in B. unfold Rdiv at 2 in B. rewrite Rinv_r in B by lra.
  assert (L : ln (RR first) <= ln (RR last)) by (apply ln_mono; lra).
  rewrite (Rabs_pos_eq (ln (RR last) - ln (RR first))) in B by lra.
  eapply Rle_trans; [exact B|]. apply Rmult_le_compat_r; lra.
Qed.
Print Assumptions C101_last.

(** The constructor from exponents: near base^(start + (stop-start) i/steps). *)
Theorem C101_exponents : forall (M : transc f64) eps base start stop steps n i v,
  accurate_log eps M -> accurate_pow eps M -> t_e M = M_E ->
  0 <= eps <= bpow radix2 (-20) -> (1 <= steps <= 2 ^ 49)%Z -> eps * IZR steps <= / 16 ->
  fin base -> 1 + 3 * eps <= RR base -> (start < stop)%Z -> (Z.abs start <= 2 ^ 53)%Z -> (Z.abs stop <= 2 ^ 53)%Z ->
  bpow radix2 (-1020) <= Rpower (RR base) (IZR start) -> Rpower (RR base) (IZR stop) <= bpow radix2 1021 ->
  Rpower (RR base) (IZR (stop - start) / IZR steps) <= bpow radix2 1021 ->
  nth_error (SpCollect LogDeref (LogIncr numF) (LogSpaceExp numF M start stop steps base) n) i = Some v ->
  (Z.of_nat i <= steps)%Z ->
  let x := exp_point (RR base) start stop steps i in
  fin v /\ 0 < RR v /\
  Rabs (RR v - x) <= (log_allowance eps (Rpower (RR base) (IZR start)) (Rpower (RR base) (IZR stop)) steps i + 2 * eps) * x.
Proof.
  intros M eps base start stop steps n i v HL HP HE He Hs Hse Fb Hb Hss H1 H2 R1 R2 R3 E Hi x.
  change (LogSpaceExp numF M start stop steps base) with
    (LogSpace numF M (t_pow M base (of_Z start)) (t_pow M base (of_Z stop)) steps) in E.
  rewrite log_collect in E. apply nth_error_map_seq in E. destruct E as [_ ->]. now apply exp_accurate.
Qed.
Print Assumptions C101_exponents.

(** A library whose log and pow round correctly is accurate to 2^-53. *)
Theorem C101_correctly_rounded : accurate_log (bpow radix2 (-53)) crlib /\ accurate_pow (bpow radix2 (-53)) crlib /\ t_e crlib = M_E.
Proof. split; [exact crlib_log|]. split; [exact crlib_pow|reflexivity]. Qed.
Print Assumptions C101_correctly_rounded.

(** With it LogSpace(1, 1000, 3) arrives within 1e-10 of 1000. *)
Example C101_example : forall v,
  nth_error (SpCollect LogDeref (LogIncr numF) (LogSpace numF crlib (of_Z 1) (of_Z 1000) 3) 4) 3 = Some v ->
  Rabs (RR v - 1000) <= 1 / 10000000000.
Proof.
  intros v E. destruct (of_Z_exact 1 ltac:(lia)) as [E1 F1]. destruct (of_Z_exact 1000 ltac:(lia)) as [E2 F2].
  pose proof ln2_bounds as L2. pose proof uro_pos as U0.
  assert (U1 : uro <= / 1000000000000000).
  { rewrite uro_val. apply Rinv_le; [lra|]. apply IZR_le. discriminate. }
  assert (L10 : 0 <= ln 1000 <= 10).
  { split; [rewrite <- ln_1; apply ln_mono; lra|]. apply Rle_trans with (ln (bpow radix2 10)); [apply ln_mono; [lra|change (bpow radix2 10) with 1024; lra]|].
    rewrite ln_bpow. lra. }
  assert (B20 : uro <= bpow radix2 (-20)) by (apply bpow_le; lia).
  assert (G1 : bpow radix2 (-1021) <= 1) by (change 1 with (bpow radix2 0); apply bpow_le; lia).
  assert (G2 : 1024 <= bpow radix2 1022) by (change 1024 with (bpow radix2 10); apply bpow_le; lia).
  assert (G3 : Rpower (1000 / 1) (/ 3) <= bpow radix2 1022).
  { unfold Rpower. apply ln_mono_inv; [apply exp_pos|apply bpow_gt_0|]. rewrite ln_exp, ln_bpow.
    replace (1000 / 1) with 1000 by field. lra. }
  pose proof (C101_last crlib uro (of_Z 1) (of_Z 1000) 3 4 v crlib_log crlib_pow eq_refl ltac:(lra) ltac:(lia)
    ltac:(lra) F1 F2 ltac:(rewrite E1; lra) ltac:(rewrite E1, E2; lra) ltac:(rewrite E2; lra) ltac:(rewrite E1, E2; exact G3) E) as K.
  rewrite E1, E2 in K. change (bpow radix2 (-53)) with uro in K. rewrite ln_1, Rabs_R0, (Rabs_pos_eq (ln 1000)) in K by lra.
  assert (uro * ln 1000 <= uro * 10) by (apply Rmult_le_compat_l; lra). lra.
Qed.
