(** Property theorems C67.  Nothing else is proved here. *)
From Coq Require Import ZArith Reals Bool Lia Lra.
From Flocq Require Import Core.Core IEEE754.BinarySingleNaN.
From Verif Require Import Base F64 L_MathF L_Accum M_Approx L_Approx.
Open Scope R_scope.

(** What a client can build: a value with an absolute and a relative tolerance. *)
Definition tol (v ta tr : f64) : approx := SetRel (SetAbs (Approx v) ta) tr.

(** The default tolerances are 0 and 100 epsilon; setters may come in any order,
    the last one of each kind counts, signs are ignored. *)
Theorem C67_settings : forall v ta tr t,
  Approx v = tol v f0 default_rel /\ RR default_rel = 100 * bpow radix2 (-52) /\
  SetAbs (SetRel (Approx v) tr) ta = tol v ta tr /\
  SetAbs (tol v t tr) ta = tol v ta tr /\ SetRel (tol v ta t) tr = tol v ta tr /\
  tol v (fopp ta) (fopp tr) = tol v ta tr.
Proof.
  intros v ta tr t.
  assert (E : fabs default_rel = default_rel) by (apply B2SF_inj; vm_compute; reflexivity).
  split; [unfold tol, SetRel, SetAbs, Approx; cbn [ap_value ap_abs ap_rel]; now rewrite E|].
  split.
  { assert (E2 : B2SF default_rel = B2SF (dyad 100 (-52))) by (vm_compute; reflexivity).
    apply B2SF_inj in E2. rewrite E2. destruct (dyad_ok 100 (-52)) as [K _].
    - rewrite rnd_fmt by (apply fmt_F2R; cbn; lia). unfold F2R. cbn [Fnum Fexp].
      rewrite Rabs_mult, Rabs_pos_eq, Rabs_pos_eq by (try apply bpow_ge_0; lra).
      apply Rle_lt_trans with (bpow radix2 7 * bpow radix2 (-52)).
      + apply Rmult_le_compat_r; [apply bpow_ge_0|]. change (bpow radix2 7) with 128. lra.
      + rewrite <- bpow_plus. apply bpow_lt. lia.
    - rewrite K, rnd_fmt by (apply fmt_F2R; cbn; lia). unfold F2R. cbn [Fnum Fexp]. reflexivity. }
  repeat split. unfold tol, SetRel, SetAbs. cbn [ap_value ap_abs ap_rel].
  replace (fabs (fopp ta)) with (fabs ta) by (destruct ta; reflexivity).
  replace (fabs (fopp tr)) with (fabs tr) by (destruct tr; reflexivity). reflexivity.
Qed.
Print Assumptions C67_settings.

Theorem C67_reflexive : forall x ta tr, fin x -> is_nan ta = false -> eq_da x (tol x ta tr) = true.
Proof. intros x ta tr F N. apply eq_reflexive; [exact F|reflexivity|]. now apply fabs_nonneg. Qed.
Print Assumptions C67_reflexive.

Theorem C67_reflexive_infinity_refuted : exists x, is_nan x = false /\ eq_da x (Approx x) = false /\
  le_da x (Approx x) = false /\ ge_da x (Approx x) = false.
Proof. exists finf. repeat split. Qed.
Print Assumptions C67_reflexive_infinity_refuted.

Theorem C67_operand_order : forall x a,
  eq_ad a x = eq_da x a /\ ne_da x a = negb (eq_da x a) /\ ne_ad a x = negb (eq_ad a x) /\
  le_ad a x = ge_da x a /\ ge_ad a x = le_da x a.
Proof. intros x a. repeat split. Qed.
Print Assumptions C67_operand_order.

Theorem C67_nan : forall x v ta tr, is_nan x = true \/ is_nan v = true ->
  eq_da x (tol v ta tr) = false /\ le_da x (tol v ta tr) = false /\ ge_da x (tol v ta tr) = false.
Proof.
  intros x v ta tr H. assert (E := eq_nan x (tol v ta tr) H). unfold le_da, ge_da, fgt. rewrite E, !orb_false_r.
  change (ap_value (tol v ta tr)) with v. split; [reflexivity|].
  split; apply not_true_iff_false; intros K; apply flt_not_nan in K; destruct H, K; congruence.
Qed.
Print Assumptions C67_nan.

Theorem C67_larger_tolerance : forall x v ta tr ta' tr',
  fle (fabs ta) (fabs ta') = true -> fle (fabs tr) (fabs tr') = true ->
  eq_da x (tol v ta tr) = true -> eq_da x (tol v ta' tr') = true.
Proof.
  intros x v ta tr ta' tr' Ha Hr. destruct (fle_not_nan _ _ Ha) as [Na _]. destruct (fle_not_nan _ _ Hr) as [Nr _].
  rewrite is_nan_fabs in Na, Nr.
  apply eq_mono; [reflexivity|now apply fabs_nonneg|now apply fabs_nonneg|exact Ha|exact Hr].
Qed.
Print Assumptions C67_larger_tolerance.

(** Numbers within either tolerance, in exact arithmetic, are equal. *)
Theorem C67_complete : forall x v ta tr, fin x -> fin v -> fin ta -> fin tr ->
  Rabs (RR x - RR v) <= Rabs (RR ta) \/ Rabs (RR x - RR v) <= Rabs (RR tr) * Rabs (RR v) ->
  eq_da x (tol v ta tr) = true.
Proof.
  intros x v ta tr Fx Fv Fa Fr H. refine (eq_complete x (tol v ta tr) Fx Fv _ _ _).
  - now apply fin_fabs.
  - now apply fin_fabs.
  - change (ap_value (tol v ta tr)) with v. change (ap_abs (tol v ta tr)) with (fabs ta).
    change (ap_rel (tol v ta tr)) with (fabs tr). rewrite !RR_fabs, Rabs_mult, Rabs_Rabsolu. exact H.
Qed.
Print Assumptions C67_complete.

(** Equal numbers are within one of the tolerances, up to rounding. *)
Theorem C67_sound : forall x v ta tr, fin x -> fin v -> fin ta -> fin (fmul (fabs tr) v) ->
  eq_da x (tol v ta tr) = true ->
  Rabs (RR x - RR v) <= (1 + uro) * Rmax (Rabs (RR ta)) ((1 + uro) * (Rabs (RR tr) * Rabs (RR v)) + eta).
Proof.
  intros x v ta tr Fx Fv Fa Fp H.
  pose proof (eq_sound x (tol v ta tr) Fx Fv) as S. cbn [tol SetRel SetAbs Approx ap_value ap_abs ap_rel] in S.
  rewrite !RR_fabs, Rabs_mult, Rabs_Rabsolu in S. apply S; auto. now apply fin_fabs.
Qed.
Print Assumptions C67_sound.

Theorem C67_le_or_ge : forall x v ta tr, is_nan x = false -> is_nan v = false -> is_nan ta = false ->
  fin x \/ fin v ->
  let a := tol v ta tr in
  (le_da x a = true \/ ge_da x a = true) /\
  (eq_da x a = true -> le_da x a = true /\ ge_da x a = true) /\
  (eq_da x a = false -> le_da x a = flt x v /\ ge_da x a = flt v x).
Proof.
  intros x v ta tr Nx Nv Na F a. split; [|split].
  - apply le_or_ge; auto. now apply fabs_nonneg.
  - intros E. unfold le_da, ge_da. rewrite E, !orb_true_r. auto.
  - intros E. unfold le_da, ge_da. rewrite E, !orb_false_r. auto.
Qed.
Print Assumptions C67_le_or_ge.

(** With the default tolerances only zero equals Approx(0). *)
Theorem C67_zero : forall x, eq_da x (Approx f0) = true -> fin x /\ RR x = 0.
Proof.
  intros x H.
  assert (K : fle (fabs (fsub x f0)) f0 = true) by exact H.
  assert (Fs : fin (fsub x f0)) by (destruct (fsub x f0) as [[]|[]| |[]]; try discriminate K; reflexivity).
  destruct (fsub_inv _ _ Fs) as (Fx & _ & Es). split; [exact Fx|].
  apply fle_R in K; [|now apply fin_fabs|reflexivity]. rewrite RR_fabs, Es in K.
  change (RR f0) with 0 in K. rewrite Rminus_0_r, rnd_fmt in K by apply fmt_RR.
  destruct (Req_dec (RR x) 0) as [E|E]; [exact E|]. apply Rabs_pos_lt in E. lra.
Qed.
Print Assumptions C67_zero.

(** The relative tolerance belongs to the Approx: exchanging the two numbers
    can change the answer. *)
Theorem C67_exchange_refuted : exists x v tr,
  eq_da x (tol v f0 tr) = true /\ eq_da v (tol x f0 tr) = false.
Proof. exists f1, (of_Z 2), (dyad 1 (-1)). split; vm_compute; reflexivity. Qed.
Print Assumptions C67_exchange_refuted.

Example C67_example :
  let third := fdiv f1 (of_Z 3) in
  eq_da (fmul third (of_Z 3)) (Approx f1) = true /\
  eq_da (of_Z 101) (Approx (of_Z 100)) = false /\
  eq_da (of_Z 101) (tol (of_Z 100) f0 (dyad 1 (-6))) = true /\
  le_da (of_Z 101) (Approx (of_Z 100)) = false /\
  fle (fabs (of_Z (-2))) (fabs (of_Z 3)) = true /\
  fin (fmul (fabs (dyad 1 (-6))) (of_Z 100)).
Proof. vm_compute. repeat split. Qed.
