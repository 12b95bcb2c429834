(** How near the constant M_PI is to pi. *)
From Coq Require Import ZArith Reals List Lia Lra QArith Qpower Qreals Machin Ratan AltSeries.
From Flocq Require Import Core.Core.
From Verif Require Import Base F64 M_Bravais L_MathF.
Open Scope R_scope.

(** Machin's series pi/4 = 2 atan(1/3) + atan(1/7) in rational numbers. *)
Definition machin_Q (n : nat) : Q :=
  ((-1) ^ Z.of_nat n * (2 * ((1 # 3) ^ Z.of_nat (2 * n + 1) / inject_Z (Z.of_nat (2 * n + 1))) +
                        (1 # 7) ^ Z.of_nat (2 * n + 1) / inject_Z (Z.of_nat (2 * n + 1))))%Q.
Fixpoint sum_Q (n : nat) : Q :=
  match n with O => machin_Q O | S m => Qred (sum_Q m + machin_Q (S m))%Q end.

Lemma Q2R_pow q n : ~ (q == 0)%Q -> Q2R (q ^ Z.of_nat n) = Q2R q ^ n.
Proof.
  intros NZ. induction n as [|n IH]; [unfold Q2R; cbn; lra|].
  rewrite Nat2Z.inj_succ. rewrite <- tech_pow_Rmult, <- IH, <- Q2R_mult. apply Qeq_eqR.
  unfold Z.succ. rewrite Qpower_plus by exact NZ. rewrite Qmult_comm. reflexivity.
Qed.

Lemma Q2R_inject z : Q2R (inject_Z z) = IZR z.
Proof. unfold Q2R, inject_Z. cbn. field. Qed.

Lemma machin_term n : Q2R (machin_Q n) = tg_alt PI_2_3_7_tg n.
Proof.
  unfold machin_Q, tg_alt, PI_2_3_7_tg, Ratan_seq.
  assert (N : ~ inject_Z (Z.of_nat (2 * n + 1)) == 0) by (intros E; unfold Qeq in E; cbn -[Z.of_nat] in E; lia).
  rewrite Q2R_mult, Q2R_plus, Q2R_mult, !Q2R_div, !Q2R_pow, Q2R_inject, <- INR_IZR_INZ by (try exact N; discriminate).
  replace (Q2R (-1)) with (-1) by (unfold Q2R; cbn; lra).
  replace (Q2R (1 # 3)) with (/ 3) by (unfold Q2R; cbn; lra).
  replace (Q2R (1 # 7)) with (/ 7) by (unfold Q2R; cbn; lra).
  replace (Q2R 2) with 2 by (unfold Q2R; cbn; lra). reflexivity.
Qed.

Lemma machin_sum n : Q2R (sum_Q n) = sum_f_R0 (tg_alt PI_2_3_7_tg) n.
Proof.
  induction n as [|n IH]; cbn [sum_Q sum_f_R0]; [apply machin_term|].
  rewrite (Qeq_eqR _ _ (Qred_correct _)), Q2R_plus, IH, machin_term. reflexivity.
Qed.

Lemma RR_pi_d : RR pi_d = IZR 884279719003555 / IZR (2 ^ 48) /\ fin pi_d.
Proof.
  destruct (RR_dyad 884279719003555 (-48)) as [A B]; [lia|lia|]. split; [|exact B].
  unfold pi_d. rewrite A. unfold F2R. cbn [Fnum Fexp]. unfold Rdiv. f_equal.
Qed.

(** M_PI differs from pi by less than 1.25 * 2^-53. *)
Lemma pi_d_near : Rabs (RR pi_d - PI) <= 5 / 4 * uro.
Proof.
  pose proof (PI_2_3_7_ineq 9) as [L U]. rewrite <- machin_sum in L, U.
  assert (EL : (inject_Z 884279719003555 / inject_Z (2 ^ 48) - (5 # 4) / inject_Z (2 ^ 53) <= 4 * sum_Q (S (2 * 9)))%Q)
    by (vm_compute; discriminate).
  assert (EU : (4 * sum_Q (2 * 9) <= inject_Z 884279719003555 / inject_Z (2 ^ 48) + (5 # 4) / inject_Z (2 ^ 53))%Q)
    by (vm_compute; discriminate).
  apply Qle_Rle in EL, EU. rewrite Q2R_minus, Q2R_mult, !Q2R_div, !Q2R_inject in EL by (intros E; discriminate E).
  rewrite Q2R_plus, Q2R_mult, !Q2R_div, !Q2R_inject in EU by (intros E; discriminate E).
  replace (Q2R 4) with 4 in EL, EU by (unfold Q2R; cbn; lra).
  replace (Q2R (5 # 4)) with (5 / 4) in EL, EU by (unfold Q2R; cbn; lra).
  rewrite (proj1 RR_pi_d), uro_val. apply Rabs_le. unfold Rdiv at 1 in EL. unfold Rdiv at 3 in EU. lra.
Qed.
