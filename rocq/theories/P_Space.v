(** Property theorems C65 and C66.  Nothing else is proved here. *)
From Coq Require Import ZArith Reals List Bool Lia Lra.
From Flocq Require Import Core.Core IEEE754.BinarySingleNaN.
From Verif Require Import Base F64 Num L_Accum M_Space S_Space L_Space.
Import ListNotations.
Open Scope Z_scope.

(** * C65  LinSpace *)

(** Whatever a client calls, in whatever numbers, it sees the sequence
    [lin_value] from its current position on. *)
Theorem C65_calls : forall {T} (N : num T) first last steps h,
  fst (sp_calls LinDeref (LinIncr N) h (LinSpace N first last steps)) =
  fst (seq_calls (lin_value N first last steps) h 0).
Proof.
  intros T N first last steps h.
  pose proof (sp_calls_seq LinDeref (LinIncr N) (LinSpace N first last steps) h 0) as H. cbn [iter] in H.
  assert (E : forall i, LinDeref (iter (LinIncr N) i (LinSpace N first last steps)) = lin_value N first last steps i)
    by (intros i; now rewrite lin_iter).
  rewrite (seq_calls_ext _ _ E) in H.
  destruct (seq_calls (lin_value N first last steps) h 0) as [vs k]. now rewrite H.
Qed.
Print Assumptions C65_calls.

(** begin() restarts and end() stands at last, whatever was called before. *)
Theorem C65_begin_end : forall {T} (N : num T) first last steps h,
  let o := snd (sp_calls LinDeref (LinIncr N) h (LinSpace N first last steps)) in
  LinBegin o = LinSpace N first last steps /\ LinDeref (LinEnd o) = last.
Proof.
  intros T N first last steps h. pose proof (sp_calls_seq LinDeref (LinIncr N) (LinSpace N first last steps) h 0) as H.
  cbn [iter] in H. destruct (seq_calls _ h 0) as [vs k]. rewrite H. cbn [snd]. rewrite lin_begin, lin_end. auto.
Qed.
Print Assumptions C65_begin_end.

(** A loop from begin() to end() visits exactly the first [steps] values. *)
Theorem C65_for : forall {T} (N : num T) first last steps, 0 <= steps < two64 ->
  let o := LinSpace N first last steps in
  sp_for LinDeref (LinIncr N) LinEq (LinBegin o) (LinEnd o) =
  Ok (map (lin_value N first last steps) (seq 0 (Z.to_nat steps))).
Proof.
  intros T N first last steps Hs o. change (LinBegin o) with o.
  rewrite (sp_for_ok LinDeref (LinIncr N) LinEq o (LinEnd o) (Z.to_nat steps)).
  - f_equal. unfold from. apply map_ext. intros i. unfold o. now rewrite lin_iter.
  - lia.
  - intros k Hk. unfold o. rewrite lin_iter. unfold LinEq. cbn [li_step LinEnd LinSpace li_nsteps].
    rewrite u64_small by lia. apply Z.eqb_neq. lia.
  - unfold o. rewrite lin_iter. unfold LinEq. cbn [li_step LinEnd LinSpace li_nsteps].
    rewrite Z2Nat.id, u64_small by lia. apply Z.eqb_refl.
Qed.
Print Assumptions C65_for.

(** The values that Collect(n) returns are the first n of the sequence. *)
Lemma lin_collect {T} (N : num T) first last steps n :
  SpCollect LinDeref (LinIncr N) (LinSpace N first last steps) n = map (lin_value N first last steps) (seq 0 (Z.to_nat n)).
Proof. pose proof (C65_calls N first last steps [ScCollect n]) as H. cbn in H. now injection H. Qed.

(** Doubles: the values that Collect returns start at first and never decrease, for any
    number of steps (0 included) and even when last - first overflows. *)
Theorem C65_monotone : forall first last steps n,
  fin first -> flt first last = true -> 0 <= steps < two64 -> 0 <= n <= two64 ->
  let l := SpCollect LinDeref (LinIncr numF) (LinSpace numF first last steps) n in
  vsize l = n /\ ((0 < n)%Z -> nth_error l 0%nat = Some first) /\
  (forall i j x y, (i <= j)%nat -> nth_error l i = Some x -> nth_error l j = Some y -> fle x y = true).
Proof.
  intros first last steps n Ff Hl Hs Hn l. unfold l. rewrite lin_collect. split.
  - unfold vsize. rewrite map_length, seq_length. lia.
  - split.
    + intros Hp. destruct (Z.to_nat n) eqn:E; [lia|reflexivity].
    + intros i j x y Hij Hx Hy. apply nth_error_map_seq in Hx, Hy. destruct Hx as [_ ->], Hy as [Hj ->].
      apply lin_value_mono; auto. lia.
Qed.
Print Assumptions C65_monotone.

(** Doubles: the values that Collect returns stay close to the exact ones; in particular
    value number [steps] is last up to 5 unit roundoffs of |first| + |last|. *)
Theorem C65_error : forall first last steps n i v,
  fin first -> fin last ->
  (Rabs (RR first) <= bpow radix2 1020)%R -> (Rabs (RR last) <= bpow radix2 1020)%R ->
  1 <= steps <= 2 ^ 53 -> (Z.of_nat i <= steps)%Z ->
  nth_error (SpCollect LinDeref (LinIncr numF) (LinSpace numF first last steps) n) i = Some v ->
  fin v /\
  (Rabs (RR v - (RR first + (RR last - RR first) * IZR (Z.of_nat i) / IZR steps)) <=
   5 * bpow radix2 (-53) * (Rabs (RR first) + Rabs (RR last)) + (4 * IZR (Z.of_nat i) + 2) * bpow radix2 (-1075))%R.
Proof.
  intros first last steps n i v F1 F2 B1 B2 Hs Hi E. rewrite lin_collect in E.
  apply nth_error_map_seq in E. destruct E as [_ ->]. now apply lin_value_error.
Qed.
Print Assumptions C65_error.

(** Exact arithmetic: equally spaced, number [steps] is last. *)
Theorem C65_exact : forall (first last : R) steps n i v, 1 <= steps < two64 -> n <= two64 ->
  nth_error (SpCollect LinDeref (LinIncr numR) (LinSpace numR first last steps) n) i = Some v ->
  v = (first + (last - first) * IZR (Z.of_nat i) / IZR steps)%R /\ (Z.of_nat i = steps -> v = last).
Proof.
  intros first last steps n i v Hs Hn E. rewrite lin_collect in E. apply nth_error_map_seq in E. destruct E as [Hi ->].
  assert (IZR steps <> 0%R) by (apply (IZR_neq steps 0); lia).
  rewrite lin_value_R by lia. split; [field; assumption|]. intros ->. field. assumption.
Qed.
Print Assumptions C65_exact.

(** In doubles value number [steps] need not be last. *)
Theorem C65_reaches_last_refuted : exists first last steps v,
  fin first /\ fin last /\ flt first last = true /\ 1 <= steps < two64 /\
  nth_error (SpCollect LinDeref (LinIncr numF) (LinSpace numF first last steps) (steps + 1)) (Z.to_nat steps) = Some v /\
  feq v last = false.
Proof.
  exists f0, f1, 49, (lin_value numF f0 f1 49 49). split; [reflexivity|]. split; [reflexivity|]. split; [reflexivity|].
  split; [rewrite two64_eq; lia|]. split; [rewrite lin_collect; reflexivity|vm_compute; reflexivity].
Qed.
Print Assumptions C65_reaches_last_refuted.

Example C65_example :
  let o := LinSpace numF f1 (of_Z 2) 4 in
  map (map B2SF) (fst (sp_calls LinDeref (LinIncr numF) [ScCall; ScPre; ScCollect 3; ScPost; ScDeref] o)) =
  map (map B2SF) [[f1]; [dyad 3 (-1)]; [dyad 3 (-1); dyad 7 (-2); of_Z 2]; [dyad 3 (-1)]; [dyad 7 (-2)]] /\
  flt f1 (of_Z 2) = true.
Proof. split; vm_compute; reflexivity. Qed.

(** * C66  LogSpace *)

(** [obj] is what either constructor builds: first, last, base. *)
Theorem C66_calls : forall {T} (N : num T) (M : transc T) first last steps h,
  fst (sp_calls LogDeref (LogIncr N) h (LogSpace N M first last steps)) =
  fst (seq_calls (log_value N first (log_base N M first last steps)) h 0).
Proof.
  intros T N M first last steps h. unfold LogSpace. set (b := log_base N M first last steps).
  pose proof (sp_calls_seq LogDeref (LogIncr N) (mkLog b first first last steps 0) h 0) as H. cbn [iter] in H.
  assert (E : forall i, LogDeref (iter (LogIncr N) i (mkLog b first first last steps 0)) = log_value N first b i)
    by (intros i; now rewrite log_iter).
  rewrite (seq_calls_ext _ _ E) in H.
  destruct (seq_calls (log_value N first b) h 0) as [vs k]. now rewrite H.
Qed.
Print Assumptions C66_calls.

(** The constructor from exponents and a base: in exact arithmetic the values are
    the powers of the base at equally spaced exponents. *)
Theorem C66_exponents : forall start stop steps base h, (0 < base)%R -> 1 <= steps ->
  fst (sp_calls LogDeref (LogIncr numR) h (LogSpaceExp numR transcR start stop steps base)) =
  fst (seq_calls (fun i => Rpower base (IZR start + (IZR stop - IZR start) * INR i / IZR steps)) h 0).
Proof.
  intros start stop steps base h Hb Hs.
  change (LogSpaceExp numR transcR start stop steps base)
    with (LogSpace numR transcR (Rpower base (IZR start)) (Rpower base (IZR stop)) steps).
  rewrite C66_calls. f_equal. apply seq_calls_ext. intros i.
  rewrite log_exact by (auto; unfold Rpower; apply exp_pos).
  assert (1 <= IZR steps)%R by (apply (IZR_le 1); lia).
  unfold Rdiv at 1. rewrite <- Rpower_Ropp, <- Rpower_plus, Rpower_mult, <- Rpower_plus. f_equal. field. lra.
Qed.
Print Assumptions C66_exponents.

Theorem C66_begin_end : forall {T} (N : num T) (M : transc T) first last steps h,
  let o := snd (sp_calls LogDeref (LogIncr N) h (LogSpace N M first last steps)) in
  LogBegin o = LogSpace N M first last steps /\ LogDeref (LogEnd o) = last.
Proof.
  intros T N M first last steps h. unfold LogSpace. set (b := log_base N M first last steps).
  pose proof (sp_calls_seq LogDeref (LogIncr N) (mkLog b first first last steps 0) h 0) as H.
  cbn [iter] in H. destruct (seq_calls _ h 0) as [vs k]. rewrite H. cbn [snd]. rewrite log_iter. split; reflexivity.
Qed.
Print Assumptions C66_begin_end.

Theorem C66_for : forall {T} (N : num T) (M : transc T) first last steps, 0 <= steps < two64 ->
  let o := LogSpace N M first last steps in
  sp_for LogDeref (LogIncr N) LogEq (LogBegin o) (LogEnd o) =
  Ok (map (log_value N first (log_base N M first last steps)) (seq 0 (Z.to_nat steps))).
Proof.
  intros T N M first last steps Hs o. change (LogBegin o) with o. unfold o, LogSpace. set (b := log_base N M first last steps).
  rewrite (sp_for_ok LogDeref (LogIncr N) LogEq _ _ (Z.to_nat steps)).
  - f_equal. unfold from. apply map_ext. intros i. now rewrite log_iter.
  - lia.
  - intros k Hk. rewrite log_iter. unfold LogEq. cbn [lo_step LogEnd lo_nsteps].
    rewrite u64_small by lia. apply Z.eqb_neq. lia.
  - rewrite log_iter. unfold LogEq. cbn [lo_step LogEnd lo_nsteps].
    rewrite Z2Nat.id, u64_small by lia. apply Z.eqb_refl.
Qed.
Print Assumptions C66_for.

Lemma log_collect {T} (N : num T) (M : transc T) first last steps n :
  SpCollect LogDeref (LogIncr N) (LogSpace N M first last steps) n =
  map (log_value N first (log_base N M first last steps)) (seq 0 (Z.to_nat n)).
Proof. pose proof (C66_calls N M first last steps [ScCollect n]) as H. cbn in H. now injection H. Qed.

(** Exact arithmetic: first * (last/first)^(i/steps); number [steps] is last and
    consecutive ratios are constant. *)
Theorem C66_exact : forall first last steps n i x, (0 < first)%R -> (0 < last)%R -> 1 <= steps ->
  let l := SpCollect LogDeref (LogIncr numR) (LogSpace numR transcR first last steps) n in
  nth_error l i = Some x ->
  x = (first * Rpower (last / first) (INR i / IZR steps))%R /\
  (Z.of_nat i = steps -> x = last) /\
  (forall y, nth_error l (S i) = Some y -> (y / x = Rpower (last / first) (/ IZR steps))%R).
Proof.
  intros first last steps n i x Hf Hl Hs l E. unfold l in *. rewrite log_collect in *.
  apply nth_error_map_seq in E. destruct E as [_ ->].
  assert (Hn : (1 <= IZR steps)%R) by (apply (IZR_le 1); lia).
  assert (Q : (0 < last / first)%R) by (apply Rmult_lt_0_compat; [assumption|now apply Rinv_0_lt_compat]).
  rewrite !log_exact by assumption. split; [reflexivity|]. split.
  - intros <-. rewrite INR_IZR_INZ. unfold Rdiv at 2. rewrite Rinv_r by lra. rewrite Rpower_1 by assumption. field. lra.
  - intros y E. apply nth_error_map_seq in E. destruct E as [_ ->]. rewrite log_exact by assumption.
    rewrite S_INR. replace ((INR i + 1) / IZR steps)%R with (INR i / IZR steps + / IZR steps)%R by (field; lra).
    rewrite Rpower_plus. assert (0 < Rpower (last / first) (INR i / IZR steps))%R by apply exp_pos. field. lra.
Qed.
Print Assumptions C66_exact.

(** Doubles: whatever base the library returns, if it is at least 1 and first is
    positive the values are positive and never decrease. *)
Theorem C66_monotone : forall (M : transc f64) first last steps n i x,
  flt f0 first = true -> fle f1 (log_base numF M first last steps) = true ->
  let l := SpCollect LogDeref (LogIncr numF) (LogSpace numF M first last steps) n in
  nth_error l i = Some x ->
  flt f0 x = true /\ (forall y, nth_error l (S i) = Some y -> fle x y = true).
Proof.
  intros M first last steps n i x Hf Hb l E. unfold l in *. rewrite log_collect in *.
  apply nth_error_map_seq in E. destruct E as [_ ->].
  destruct (log_value_pos first (log_base numF M first last steps) i Hf Hb) as [P Q].
  split; [exact P|]. intros y E. apply nth_error_map_seq in E. destruct E as [_ ->]. exact Q.
Qed.
Print Assumptions C66_monotone.

(** Doubles: rounding errors compound to at most (1 + 2^-53)^i. *)
Theorem C66_error : forall (M : transc f64) first last steps n i v,
  let b := log_base numF M first last steps in
  fin first -> fin b -> (bpow radix2 (-1022) <= RR first)%R -> (1 <= RR b)%R ->
  nth_error (SpCollect LogDeref (LogIncr numF) (LogSpace numF M first last steps) n) i = Some v -> fin v ->
  (Rabs (RR v - RR first * RR b ^ i) <= ((1 + bpow radix2 (-53)) ^ i - 1) * (RR first * RR b ^ i))%R.
Proof.
  intros M first last steps n i v b Ff Fb Hf Hb E Fv. rewrite log_collect in E.
  apply nth_error_map_seq in E. destruct E as [_ ->]. now apply log_value_error.
Qed.
Print Assumptions C66_error.

(** A library in which pow(M_E, log 16 / 4) is 2. *)
Example C66_example :
  let M := mkTransc f64 (fun _ _ => of_Z 2) (fun x => x) (of_Z 3) in
  let o := LogSpace numF M f1 (of_Z 16) 4 in
  map (map B2SF) (fst (sp_calls LogDeref (LogIncr numF) [ScCollect 5; ScPost; ScPre] o)) =
  map (map B2SF) [[f1; of_Z 2; of_Z 4; of_Z 8; of_Z 16]; [f1]; [of_Z 4]] /\
  fle f1 (log_base numF M f1 (of_Z 16) 4) = true.
Proof. split; vm_compute; reflexivity. Qed.
