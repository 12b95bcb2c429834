(** Property theorems C57-C62.  Nothing else is proved here. *)
From Coq Require Import ZArith Reals List Bool Lia Lra.
From Flocq Require Import Core.Core IEEE754.BinarySingleNaN.
From Verif Require Import Base F64 Num M_Archive M_Accum S_Accum L_Sum L_Accum M_Move S_Move L_Move.
Import ListNotations.
Open Scope Z_scope.

(** In the theorems [chk] says whether the accumulator checks its counter
    (then histories are shorter than 2^64 calls). *)

(** * C57  Bookkeeping invariant *)

Theorem C57_bookkeeping : forall chk name h, (chk = true -> Z.of_nat (length h) < two64) ->
  let s := ms_calls chk h (MoveStats name) in
  m_proposed s = u64 (m_accepted s + m_rejected s + m_impossible s + (if m_flag s then 1 else 0)) /\
  KahanCount (m_prob s) = u64 (m_accepted s + m_rejected s + m_impossible s).
Proof.
  intros chk name h Hk s. subst s. rewrite ms_calls_rep by exact Hk. set (j := journal_of h).
  cbn [ms_rep m_proposed m_accepted m_rejected m_impossible m_flag m_prob]. unfold KahanCount.
  rewrite kahan_count_of, map_length.
  rewrite <- (count_all (j_outcomes j)). split.
  - rewrite u64_add3. destruct (j_pending j); reflexivity.
  - rewrite <- (Z.add_0_r (u64 _ + _ + _)), u64_add3, Z.add_0_r. reflexivity.
Qed.
Print Assumptions C57_bookkeeping.

Definition sample_calls : list mcall :=
  [McAccept f1; McPropose; McPropose; McAccept (of_Z 3); McAdd (MR_Reject f1); McAdd MR_Impossible; McPropose; McAdd (MR_Accept f1)].

Example C57_example :
  let s := ms_calls true sample_calls MS_default in
  (m_proposed s, m_accepted s, m_rejected s, m_impossible s, m_flag s, KahanCount (m_prob s)) = (4, 1, 1, 1, true, 3).
Proof. vm_compute. reflexivity. Qed.

(** * C58  Order of calls *)

(** On any object, whatever its history: out of order nothing changes. *)
Theorem C58_out_of_order : forall chk s c,
  match c with
  | McPropose | McAdd _ => m_flag s = true
  | McAccept _ | McReject _ | McImpossible => m_flag s = false
  | McReset => False
  end -> ms_call chk s c = (s, Throw ExMoveInvalidSequence).
Proof.
  intros chk s [|p|p| |r|] H; try contradiction; cbn [ms_call];
  unfold MS_Add, MS_Accept, MS_Reject, MS_Impossible, MS_Propose, UpdateIfProposed, UpdateIfNotProposed; now rewrite H.
Qed.
Print Assumptions C58_out_of_order.

(** After any history, a call in order succeeds. *)
Theorem C58_in_order : forall chk name h c, (chk = true -> Z.of_nat (length h) < two64 - 1) ->
  let s := ms_calls chk h (MoveStats name) in
  match c with
  | McPropose | McAdd _ => m_flag s = false
  | McAccept _ | McReject _ | McImpossible => m_flag s = true
  | McReset => True
  end -> snd (ms_call chk s c) = Ok tt.
Proof.
  intros chk name h c Hk s. subst s. rewrite ms_calls_rep by (intros E; specialize (Hk E); lia).
  cbn [ms_rep m_flag]. intros H. fold (ms_rep name (journal_of h)). rewrite ms_call_rep.
  - cbn [snd]. destruct c; try rewrite H; reflexivity.
  - intros E. specialize (Hk E). pose proof (journal_len h (mkJ false [])) as L. cbn [j_outcomes length] in L.
    unfold journal_of. lia.
Qed.
Print Assumptions C58_in_order.

(** Add is Propose followed by the matching outcome. *)
Theorem C58_add_is_two_calls : forall chk s r, m_flag s = false ->
  let s' := fst (MS_Propose s) in
  snd (MS_Propose s) = Ok tt /\
  (MR_IsAccepted r = true -> MS_Add chk s r = MS_Accept chk s' (MR_Probability r)) /\
  (MR_IsRejected r = true -> MS_Add chk s r = MS_Reject chk s' (MR_Probability r)) /\
  (MR_IsImpossible r = true -> MS_Add chk s r = MS_Impossible chk s').
Proof.
  intros chk s [st p] H. unfold MS_Add, MS_Propose, UpdateIfNotProposed, MR_GetStatus, MR_IsAccepted, MR_IsRejected, MR_IsImpossible.
  rewrite H. cbn [fst snd mr_status]. split; [reflexivity|].
  split; [|split]; intros E; apply Z.eqb_eq in E; subst st; reflexivity.
Qed.
Print Assumptions C58_add_is_two_calls.

Example C58_example :
  let s := ms_calls true [McPropose] MS_default in
  m_flag s = true /\ snd (ms_call true s McPropose) = Throw ExMoveInvalidSequence /\
  snd (ms_call true s (McAccept f1)) = Ok tt /\ snd (ms_call true MS_default (McAdd (MR_Accept f1))) = Ok tt.
Proof. repeat split. Qed.

(** * C59  The statistics are those of the outcomes since Reset *)

Theorem C59_statistics : forall chk name h, (chk = true -> Z.of_nat (length h) < two64) ->
  let s := ms_calls chk h (MoveStats name) in
  let o := j_outcomes (journal_of h) in
  MS_GetName s = name /\ m_flag s = j_pending (journal_of h) /\
  m_proposed s = u64 (Z.of_nat (length o) + Z.b2z (j_pending (journal_of h))) /\
  m_accepted s = u64 (count_if is_acc o) /\ m_rejected s = u64 (count_if is_rej o) /\
  m_impossible s = u64 (count_if is_imp o) /\
  MS_GetAverageProbability s =
    KahanMean numF (fst (apply_accumulator (KahanAdd numF false) (map prob_of o) (kahan_new numF))).
Proof.
  intros chk name h Hk s o. subst s o. rewrite ms_calls_rep by exact Hk.
  rewrite (apply_step (KahanAdd numF false) (kahan_step numF)) by reflexivity. repeat split.
Qed.
Print Assumptions C59_statistics.

Theorem C59_reset : forall s, MS_Reset s = MoveStats (MS_GetName s).
Proof. reflexivity. Qed.
Print Assumptions C59_reset.

Example C59_example :
  journal_of (McAdd (MR_Accept f1) :: McReset :: sample_calls) = mkJ true [Oaccepted (of_Z 3); Orejected f1; Oimpossible] /\
  B2SF (MS_GetAverageProbability (ms_calls false (McAdd (MR_Accept f1) :: McReset :: sample_calls) MS_default)) =
  B2SF (fdiv (of_Z 4) (of_Z 3)).
Proof. split; [reflexivity|vm_compute; reflexivity]. Qed.

(** * C60  Ratios *)

Theorem C60_ratios : forall chk name h, Z.of_nat (length h) < two64 ->
  let s := ms_calls chk h (MoveStats name) in
  0 < m_proposed s ->
  forall r c, In (r, c) [(MS_GetAcceptedRatio s, m_accepted s); (MS_GetRejectedRatio s, m_rejected s);
                         (MS_GetImpossibleRatio s, m_impossible s)] ->
  fin r /\ (0 <= RR r <= 1)%R /\ (m_proposed s <= 2 ^ 53 -> RR r = rnd (IZR c / IZR (m_proposed s))).
Proof.
  intros chk name h Hh s Hp. subst s. rewrite ms_calls_rep in * by (intros _; exact Hh).
  pose proof (rep_counts name h Hh) as R. cbv zeta in R.
  set (s := ms_rep name (journal_of h)) in *. destruct R as (Ha & Hr & Hi & Hl). clearbody s.
  assert (Z0 : m_proposed s =? 0 = false) by (apply Z.eqb_neq; lia).
  intros r c [E|[E|[E|[]]]]; injection E as <- <-.
  - unfold MS_GetAcceptedRatio. rewrite Z0. apply ratio_unit; lia.
  - apply ratio_unit; lia.
  - apply ratio_unit; lia.
Qed.
Print Assumptions C60_ratios.

Theorem C60_before_any_proposal : forall name,
  MS_GetAcceptedRatio (MoveStats name) = f0 /\ MS_GetRejectedRatio (MoveStats name) = fnan /\
  MS_GetImpossibleRatio (MoveStats name) = fnan.
Proof. intros name. repeat split. Qed.
Print Assumptions C60_before_any_proposal.

Example C60_example :
  let s := ms_calls true sample_calls MS_default in
  m_proposed s = 4 /\ B2SF (MS_GetRejectedRatio s) = B2SF (fdiv f1 (of_Z 4)).
Proof. split; vm_compute; reflexivity. Qed.

(** * C61  Archive *)

Theorem C61_archive : forall a b rest,
  exists c, ms_load b (ms_save a ++ rest) = Some (c, rest) /\
  MS_GetName c = MS_GetName b /\
  (forall chk h, let x := ms_calls chk h c in let y := ms_calls chk h a in
     m_flag x = m_flag y /\ m_proposed x = m_proposed y /\ m_accepted x = m_accepted y /\
     m_rejected x = m_rejected y /\ m_impossible x = m_impossible y /\ m_prob x = m_prob y) /\
  (forall chk h m, snd (ms_call chk (ms_calls chk h c) m) = snd (ms_call chk (ms_calls chk h a) m)).
Proof.
  intros a b rest. exists (rename (m_name b) a). split; [apply ms_archive|].
  split; [reflexivity|]. split.
  - intros chk h. cbv zeta. rewrite ms_calls_rename. repeat split.
  - intros chk h m. rewrite ms_calls_rename. apply ms_call_rename.
Qed.
Print Assumptions C61_archive.

Theorem C61_name_is_lost_refuted : exists a c, ms_load MS_default (ms_save a) = Some (c, []) /\ c <> a.
Proof. exists (MoveStats []), MS_default. split; [reflexivity|discriminate]. Qed.
Print Assumptions C61_name_is_lost_refuted.

Example C61_example :
  ms_load (MoveStats [65]) (ms_save (mkMS [66] true 4 1 1 1 (mkKahan f1 f0 3))) =
  Some (mkMS [65] true 4 1 1 1 (mkKahan f1 f0 3), []).
Proof. reflexivity. Qed.

(** * C62  Results *)

Theorem C62_classification : forall st p, In st [Accepted; Rejected; Impossible] ->
  let r := MoveResult st p in
  Z.b2z (MR_IsAccepted r) + Z.b2z (MR_IsRejected r) + Z.b2z (MR_IsImpossible r) = 1 /\
  MR_GetStatus r = st /\ MR_Probability r = p.
Proof. intros st p [<-|[<-|[<-|[]]]]; repeat split. Qed.
Print Assumptions C62_classification.

Theorem C62_builders : forall p,
  MR_IsAccepted (MR_Accept p) = true /\ MR_Probability (MR_Accept p) = p /\
  MR_IsRejected (MR_Reject p) = true /\ MR_Probability (MR_Reject p) = p /\
  MR_IsImpossible MR_Impossible = true /\ MR_Probability MR_Impossible = f0 /\
  MR_IsImpossible MR_default = true /\ MR_Probability MR_default = f0.
Proof. intros p. repeat split. Qed.
Print Assumptions C62_builders.

Example C62_example : In 82 [Accepted; Rejected; Impossible] /\ MR_IsRejected (MoveResult 82 f1) = true.
Proof. split; [cbn; auto|reflexivity]. Qed.
