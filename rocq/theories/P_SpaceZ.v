(** Properties of LinSpace over integers (C92). *)
From Coq Require Import ZArith List Bool Lia.
From Verif Require Import Base M_Rational M_Space S_Space M_SpaceZ S_SpaceZ L_SpaceZ.
Import ListNotations.
Open Scope Z_scope.

(** C92: over a signed type of w bits every history of calls shows the values
    first + k * trunc((last - first) / steps), and is undefined exactly when the last
    value it computes (one more than it shows) or its distance from first does not fit. *)
Theorem C92_calls : forall w first last steps h, 1 < w <= 64 ->
  in_type w first -> in_type w (last - first) -> 1 <= steps < 2 ^ (w - 1) -> Z.of_nat (computed h 0) < 2 ^ (w - 1) ->
  exists o, LinSpaceZ w first last steps = Ok o /\
  let m := computed h 0 in
  let fits := in_type w (Z.quot (last - first) steps * Z.of_nat m) /\ in_type w (int_value first last steps m) in
  (fits -> lin_calls_z w h o = Ok (fst (seq_calls (int_value first last steps) h 0))) /\ (~ fits -> lin_calls_z w h o = UB).
Proof. intros w first last steps h Hw Hf Hd Hs Hm. exact (calls_spec w Hw first last steps Hf Hd Hs h Hm). Qed.
Print Assumptions C92_calls.

(** C92: up to position [steps] nothing overflows; the values go from first towards
    last in equal steps and stay between them. *)
Theorem C92_within : forall w first last steps, 1 < w <= 64 ->
  in_type w first -> in_type w last -> in_type w (last - first) -> 1 <= steps < 2 ^ (w - 1) ->
  (forall h, Z.of_nat (computed h 0) <= steps -> exists o, LinSpaceZ w first last steps = Ok o /\
     lin_calls_z w h o = Ok (fst (seq_calls (int_value first last steps) h 0))) /\
  forall i, Z.of_nat i <= steps -> Z.min first last <= int_value first last steps i <= Z.max first last.
Proof.
  intros w first last steps Hw Hf Hl Hd Hs. split.
  - intros h Hm. exists (lz first last steps 0). split; [now apply (lz_new w)|]. rewrite calls_lz; try assumption; try lia.
    + rewrite rep_steps; auto.
    + now apply rep_0.
  - intros i Hi. exact (between w Hw first last steps Hs i Hi).
Qed.
Print Assumptions C92_within.

(** C92: a loop from begin() to end() visits the first [steps] values. *)
Theorem C92_for : forall w first last steps, 1 < w <= 64 ->
  in_type w first -> in_type w last -> in_type w (last - first) -> 1 <= steps < 2 ^ (w - 1) ->
  exists o, LinSpaceZ w first last steps = Ok o /\ lin_for_z w o = Ok (map (int_value first last steps) (seq 0 (Z.to_nat steps))).
Proof.
  intros w first last steps Hw Hf Hl Hd Hs. exists (lz first last steps 0). split; [now apply (lz_new w)|]. now apply for_lz.
Qed.
Print Assumptions C92_for.

(** C92: value number [steps] misses last by less than [steps]; it is last exactly when
    [steps] divides last - first. *)
Theorem C92_last : forall first last steps, 1 <= steps ->
  let v := int_value first last steps (Z.to_nat steps) in
  Z.abs (last - v) < steps /\ (v = last <-> (steps | last - first)).
Proof.
  intros first last steps Hs v.
  unfold v, int_value. rewrite Z2Nat.id by lia. pose proof (Z.quot_rem (last - first) steps ltac:(lia)) as E.
  pose proof (Z.rem_bound_abs (last - first) steps ltac:(lia)) as B. split; [|split].
  - replace (last - (first + Z.quot (last - first) steps * steps)) with (Z.rem (last - first) steps) by lia. lia.
  - intros H. exists (Z.quot (last - first) steps). lia.
  - intros [c Hc]. rewrite Hc, Z.quot_mul by lia. lia.
Qed.
Print Assumptions C92_last.

(** With more steps than last - first the sequence never leaves first. *)
Theorem C92_reaches_last_refuted : forall w first last steps h, 1 < w <= 64 ->
  in_type w first -> in_type w (last - first) -> Z.abs (last - first) < steps < 2 ^ (w - 1) -> Z.of_nat (computed h 0) < 2 ^ (w - 1) ->
  exists o, LinSpaceZ w first last steps = Ok o /\ lin_calls_z w h o = Ok (fst (seq_calls (fun _ => first) h 0)).
Proof.
  intros w first last steps h Hw Hf Hd Hs Hm. assert (Hs' : 1 <= steps < 2 ^ (w - 1)) by lia.
  destruct (calls_spec w Hw first last steps Hf Hd Hs' h Hm) as (o & Eo & P & _). exists o. split; [exact Eo|].
  pose proof (spacing_zero w Hw first last steps Hs' (proj1 Hs)) as Z0. rewrite P.
  - f_equal. f_equal. clear - Z0. generalize 0%nat. induction h as [|c h IH]; intros k; [reflexivity|]. cbn [seq_calls].
    assert (E : seq_call (int_value first last steps) k c = seq_call (fun _ => first) k c).
    { destruct c; cbn [seq_call]; rewrite ?Z0; try reflexivity. unfold from. f_equal. apply map_ext. exact Z0. }
    rewrite E. destruct (seq_call (fun _ : nat => first) k c) as [v k1]. now rewrite (IH k1).
  - rewrite Z0. split; [|exact Hf].
    pose proof (Z0 1%nat) as C. unfold int_value in C. assert (Z.quot (last - first) steps = 0) as -> by lia.
    pose proof (pow_half w Hw). unfold in_type. lia.
Qed.
Print Assumptions C92_reaches_last_refuted.

(** Collect(n) computes one value more than it returns: the two values 0 and the maximum
    of the type cannot be collected. *)
Theorem C92_collect_refuted : forall w, 2 < w <= 64 ->
  let top := 2 ^ (w - 1) - 1 in
  exists o, LinSpaceZ w 0 top 1 = Ok o /\ map (int_value 0 top 1) [0; 1]%nat = [0; top] /\ in_type w 0 /\ in_type w top /\ LinCollectZ w o 2 = UB.
Proof.
  intros w Hw2 top. assert (Hw : 1 < w <= 64) by lia. pose proof (pow_half w Hw) as P. assert (P2 : 2 <= 2 ^ (w - 1)) by (change 2 with (2 ^ 1) at 1; apply Z.pow_le_mono_r; lia).
  assert (T : in_type w top) by (unfold in_type, top; lia). assert (T0 : in_type w 0) by (unfold in_type; lia).
  assert (Hd : in_type w (top - 0)) by now rewrite Z.sub_0_r. exists (lz 0 top 1 0).
  assert (B : 4 <= 2 ^ (w - 1)) by (change 4 with (2 ^ 2); apply Z.pow_le_mono_r; lia).
  split; [apply (lz_new w Hw); [exact Hd|lia]|]. split; [unfold int_value; cbn [map]; rewrite Z.sub_0_r, Z.quot_1_r; f_equal; [lia|f_equal; lia]|].
  split; [exact T0|]. split; [exact T|].
  unfold LinCollectZ. change (Z.to_nat 2) with 2%nat. rewrite generate_lz; try assumption; try lia; [|now apply rep_0].
  assert (rep w 0 top 1 (0 + 2) = false) as ->; [|reflexivity].
  destruct (rep w 0 top 1 (0 + 2)) eqn:R; [|reflexivity]. apply rep_spec in R. destruct R as [R _]. rewrite Z.sub_0_r, Z.quot_1_r in R. unfold in_type, top in R. lia.
Qed.
Print Assumptions C92_collect_refuted.

(** C92: construction is undefined when last - first does not fit or the number of
    steps converts to zero. *)
Theorem C92_undefined : forall w first last steps, 1 < w <= 64 ->
  ~ in_type w (last - first) \/ steps mod 2 ^ w = 0 -> LinSpaceZ w first last steps = UB.
Proof.
  intros w first last steps Hw H. unfold LinSpaceZ. destruct (sint_cases w (last - first)) as [[-> R]|[-> R]]; [|reflexivity]. cbn [bind].
  destruct H as [H|H]; [contradiction|]. unfold sdiv. rewrite (scast_zero w Hw steps H). reflexivity.
Qed.
Print Assumptions C92_undefined.

Example C92_ex :
  (in_type 32 (-3) /\ in_type 32 10 /\ in_type 32 (10 - -3) /\ 1 <= 4 < 2 ^ (32 - 1)) /\
  (o <- LinSpaceZ 32 (-3) 10 4 ;; lin_calls_z 32 [ScCall; ScPre; ScCollect 2; ScPost; ScDeref] o)%out = Ok [[-3]; [3]; [3; 6]; [3]; [6]] /\
  (o <- LinSpaceZ 32 (-3) 10 4 ;; lin_for_z 32 o)%out = Ok [-3; 0; 3; 6] /\ computed [ScCall; ScPre; ScCollect 2; ScPost; ScDeref] 0 = 4%nat /\
  int_value (-3) 10 4 4 = 9.
Proof. split; [unfold in_type; lia|]. split; [reflexivity|]. split; [vm_compute; reflexivity|]. split; reflexivity. Qed.
Example C92_undefined_ex : ~ in_type 64 (9223372036854775807 - -1) /\ 2 ^ 32 mod 2 ^ 32 = 0.
Proof. split; [unfold in_type; lia|reflexivity]. Qed.
Example C92_constant_ex : Z.abs (9 - 0) < 10 < 2 ^ (64 - 1) /\
  (o <- LinSpaceZ 64 0 9 10 ;; LinCollectZ 64 o 4)%out = Ok [0; 0; 0; 0].
Proof. split; [lia|reflexivity]. Qed.
