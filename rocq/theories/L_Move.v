(** Lemmas about move statistics. *)
From Coq Require Import ZArith Reals List Lia Lra Bool.
From Flocq Require Import Core.Core IEEE754.BinarySingleNaN.
From Verif Require Import Base F64 Num M_Archive M_Accum S_Accum L_Sum L_Accum M_Move S_Move.
Import ListNotations.
Open Scope Z_scope.

(** The object that represents a journal. *)
Definition ms_rep (name : list Z) (j : journal) : mstats :=
  let o := j_outcomes j in
  mkMS name (j_pending j) (u64 (Z.of_nat (length o) + Z.b2z (j_pending j)))
    (u64 (count_if is_acc o)) (u64 (count_if is_rej o)) (u64 (count_if is_imp o))
    (kahan_of (map prob_of o)).

Lemma count_if_snoc f l o : count_if f (l ++ [o]) = count_if f l + Z.b2z (f o).
Proof.
  unfold count_if. rewrite filter_app, app_length. cbn [filter]. destruct (f o); cbn [length Z.b2z]; lia.
Qed.

Lemma count_if_le f l : 0 <= count_if f l <= Z.of_nat (length l).
Proof. unfold count_if. pose proof (filter_len f l). lia. Qed.

Lemma count_all l : count_if is_acc l + count_if is_rej l + count_if is_imp l = Z.of_nat (length l).
Proof.
  induction l as [|o l IH] using rev_ind; [reflexivity|]. rewrite !count_if_snoc, app_length. cbn [length].
  destruct o; cbn [is_acc is_rej is_imp Z.b2z]; lia.
Qed.

Lemma kahan_count_of l : k_count (kahan_of l) = u64 (Z.of_nat (length l)).
Proof. apply (count_mod (kahan_step numF) k_count (kahan_new numF)); reflexivity. Qed.

Lemma u64_plus1 z : u64 (u64 z + 1) = u64 (z + 1).
Proof. unfold u64. apply Zplus_mod_idemp_l. Qed.

Definition cnt_of (o : outcome) : counter :=
  match o with Oaccepted _ => CntAccepted | Orejected _ => CntRejected | Oimpossible => CntImpossible end.

Lemma update_rep chk name l o : (chk = true -> Z.of_nat (length l) < two64 - 1) ->
  UpdateIfProposed chk (cnt_of o) (prob_of o) (ms_rep name (mkJ true l)) =
  (ms_rep name (mkJ false (l ++ [o])), Ok tt).
Proof.
  intros Hk. unfold UpdateIfProposed. cbn [ms_rep m_flag negb j_pending j_outcomes].
  assert (E : (chk && (k_count (kahan_of (map prob_of l)) =? ulong_max)) = false).
  { destruct chk; [|reflexivity]. specialize (Hk eq_refl). cbn [andb]. apply Z.eqb_neq.
    rewrite kahan_count_of, map_length, u64_small by lia. unfold ulong_max. lia. }
  assert (EP : m_prob (bump (cnt_of o) (ms_rep name (mkJ true l))) = kahan_of (map prob_of l))
    by (destruct o; reflexivity).
  rewrite EP. unfold KahanAdd. rewrite E. f_equal.
  unfold ms_rep. cbn [j_pending j_outcomes Z.b2z].
  rewrite map_app. cbn [map]. rewrite kahan_of_snoc, !count_if_snoc, app_length. cbn [length].
  replace (Z.of_nat (length l + 1) + 0) with (Z.of_nat (length l) + 1) by lia.
  destruct o; cbn [cnt_of bump m_name m_proposed m_accepted m_rejected m_impossible m_prob is_acc is_rej is_imp Z.b2z prob_of];
    rewrite ?u64_plus1, ?Z.add_0_r; reflexivity.
Qed.

Lemma update_refused chk name l c p :
  UpdateIfProposed chk c p (ms_rep name (mkJ false l)) = (ms_rep name (mkJ false l), Throw ExMoveInvalidSequence).
Proof. reflexivity. Qed.

Lemma propose_rep name l : MS_Propose (ms_rep name (mkJ false l)) = (ms_rep name (mkJ true l), Ok tt).
Proof.
  unfold MS_Propose, UpdateIfNotProposed, ms_rep. cbn [m_flag m_name m_proposed m_accepted m_rejected m_impossible m_prob j_pending j_outcomes Z.b2z].
  rewrite Z.add_0_r, u64_plus1. reflexivity.
Qed.

Lemma propose_refused name l :
  MS_Propose (ms_rep name (mkJ true l)) = (ms_rep name (mkJ true l), Throw ExMoveInvalidSequence).
Proof. reflexivity. Qed.

Lemma ms_call_rep chk name j c : (chk = true -> Z.of_nat (length (j_outcomes j)) < two64 - 1) ->
  ms_call chk (ms_rep name j) c = (ms_rep name (journal_call j c),
    match c with
    | McPropose | McAdd _ => if j_pending j then Throw ExMoveInvalidSequence else Ok tt
    | McReset => Ok tt
    | _ => if j_pending j then Ok tt else Throw ExMoveInvalidSequence
    end).
Proof.
  destruct j as [b l]. cbn [j_outcomes j_pending]. intros Hk.
  destruct c as [|p|p| |[st p]|]; cbn [ms_call journal_call j_pending j_outcomes settle].
  - destruct b; [apply propose_refused|apply propose_rep].
  - destruct b; [exact (update_rep chk name l (Oaccepted p) Hk)|apply update_refused].
  - destruct b; [exact (update_rep chk name l (Orejected p) Hk)|apply update_refused].
  - destruct b; [exact (update_rep chk name l Oimpossible Hk)|apply update_refused].
  - unfold MS_Add. destruct b; [rewrite propose_refused; reflexivity|].
    rewrite propose_rep. unfold MR_GetStatus, MR_Probability. cbn [mr_status mr_prob].
    destruct (st =? Accepted); [exact (update_rep chk name l (Oaccepted p) Hk)|].
    destruct (st =? Rejected); [exact (update_rep chk name l (Orejected p) Hk)|].
    destruct (st =? Impossible); [exact (update_rep chk name l Oimpossible Hk)|reflexivity].
  - reflexivity.
Qed.

Lemma journal_len h : forall j, (length (j_outcomes (fold_left journal_call h j)) <= length (j_outcomes j) + length h)%nat.
Proof.
  induction h as [|c h IH]; intros j; cbn [fold_left length]; [lia|].
  specialize (IH (journal_call j c)).
  assert (length (j_outcomes (journal_call j c)) <= length (j_outcomes j) + 1)%nat; [|lia].
  destruct j as [b l], c as [|p|p| |[st p]|]; unfold journal_call, settle; cbn [j_pending j_outcomes];
    try (destruct b; cbn [j_outcomes]; rewrite ?app_length; cbn [length]; lia); try (cbn [length]; lia).
  destruct b; [cbn [j_outcomes]; lia|].
  repeat (match goal with |- context [if ?x then _ else _] => destruct x end; cbn [j_outcomes]; rewrite ?app_length; cbn [length]; try lia).
Qed.

Lemma ms_calls_rep chk name h : (chk = true -> Z.of_nat (length h) < two64) ->
  ms_calls chk h (MoveStats name) = ms_rep name (journal_of h).
Proof.
  intros Hk. change (MoveStats name) with (ms_rep name (mkJ false [])). unfold journal_of, ms_calls.
  assert (G : forall j, (chk = true -> Z.of_nat (length (j_outcomes j) + length h) < two64) ->
    fold_left (fun s c => fst (ms_call chk s c)) h (ms_rep name j) = ms_rep name (fold_left journal_call h j)).
  { clear Hk. induction h as [|c h IH]; intros j Hk; [reflexivity|]. cbn [fold_left length] in *.
    rewrite ms_call_rep. 2:{ intros E. specialize (Hk E). lia. }
    cbn [fst]. apply IH. intros E. specialize (Hk E).
    pose proof (journal_len [c] j) as L. cbn [fold_left length] in L. lia. }
  apply G. exact Hk.
Qed.

(** ** Ratios *)

Lemma rnd_u64 z : 0 <= z < two64 -> RR (of_Z z) = rnd (IZR z) /\ fin (of_Z z).
Proof.
  intros H. apply of_Z_ok. rewrite Z.abs_eq by lia. apply Z.le_trans with (2 ^ 64); [unfold two64 in H; lia|].
  apply Z.pow_le_mono_r; lia.
Qed.

Lemma ratio_unit a p : 0 <= a <= p -> 0 < p < two64 ->
  fin (fdiv (of_Z a) (of_Z p)) /\ (0 <= RR (fdiv (of_Z a) (of_Z p)) <= 1)%R /\
  (p <= 2 ^ 53 -> RR (fdiv (of_Z a) (of_Z p)) = rnd (IZR a / IZR p)).
Proof.
  intros Ha Hp. destruct (rnd_u64 a) as [Ea Fa]; [lia|]. destruct (rnd_u64 p) as [Ep Fp]; [lia|].
  assert (H1 : (1 <= RR (of_Z p))%R).
  { rewrite Ep. apply rnd_ge_fmt; [apply (fmt_IZR 1); cbn; lia|]. apply (IZR_le 1). lia. }
  assert (Hle : (0 <= RR (of_Z a) <= RR (of_Z p))%R).
  { rewrite Ea, Ep. split; [apply rnd_pos; apply (IZR_le 0); lia|apply rnd_le, IZR_le; lia]. }
  assert (Hq : (0 <= RR (of_Z a) / RR (of_Z p) <= 1)%R).
  { split; [apply Rmult_le_pos; [lra|left; apply Rinv_0_lt_compat; lra]|].
    apply (Rmult_le_reg_r (RR (of_Z p))); [lra|]. unfold Rdiv. rewrite Rmult_assoc, Rinv_l by lra. lra. }
  assert (Hr : (0 <= rnd (RR (of_Z a) / RR (of_Z p)) <= 1)%R).
  { split; [apply rnd_pos; lra|apply rnd_le_fmt; [apply (fmt_IZR 1); cbn; lia|lra]]. }
  destruct (fdiv_ok (of_Z a) (of_Z p) Fa) as [E F]; [lra| |].
  { rewrite Rabs_pos_eq by lra. apply Rle_lt_trans with 1%R; [lra|]. change 1%R with (bpow radix2 0). apply bpow_lt. lia. }
  rewrite E. split; [exact F|]. split; [exact Hr|]. intros H53.
  destruct (of_Z_exact a) as [Ea' _]; [lia|]. destruct (of_Z_exact p) as [Ep' _]; [lia|].
  now rewrite Ea', Ep'.
Qed.

Lemma rep_counts name h : Z.of_nat (length h) < two64 ->
  let s := ms_rep name (journal_of h) in
  0 <= m_accepted s <= m_proposed s /\ 0 <= m_rejected s <= m_proposed s /\
  0 <= m_impossible s <= m_proposed s /\ m_proposed s < two64.
Proof.
  intros Hh. assert (L : Z.of_nat (length (j_outcomes (journal_of h))) + Z.b2z (j_pending (journal_of h)) <= Z.of_nat (length h)).
  { unfold journal_of.
    assert (G : forall h j, Z.of_nat (length (j_outcomes (fold_left journal_call h j))) + Z.b2z (j_pending (fold_left journal_call h j)) <=
      Z.of_nat (length (j_outcomes j)) + Z.b2z (j_pending j) + Z.of_nat (length h)).
    { clear. induction h as [|c h IH]; intros j; cbn [fold_left length]; [lia|].
      specialize (IH (journal_call j c)).
      assert (Z.of_nat (length (j_outcomes (journal_call j c))) + Z.b2z (j_pending (journal_call j c)) <=
              Z.of_nat (length (j_outcomes j)) + Z.b2z (j_pending j) + 1); [|lia].
      destruct j as [b l], c as [|p|p| |[st p]|]; unfold journal_call, settle; cbn [j_pending j_outcomes];
        destruct b; cbn [j_outcomes j_pending Z.b2z]; rewrite ?app_length; cbn [length]; try lia.
      repeat (match goal with |- context [if ?x then _ else _] => destruct x end;
        cbn [j_outcomes j_pending Z.b2z]; rewrite ?app_length; cbn [length]; try lia). }
    specialize (G h (mkJ false [])). cbn [j_outcomes j_pending Z.b2z length] in G. lia. }
  cbn [ms_rep m_accepted m_rejected m_impossible m_proposed]. set (o := j_outcomes (journal_of h)) in *.
  pose proof (count_if_le is_acc o). pose proof (count_if_le is_rej o). pose proof (count_if_le is_imp o).
  assert (0 <= Z.b2z (j_pending (journal_of h))) by (destruct (j_pending (journal_of h)); cbn; lia).
  rewrite !u64_small by lia. lia.
Qed.

(** ** Archive *)

Definition rename (n : list Z) (s : mstats) : mstats :=
  mkMS n (m_flag s) (m_proposed s) (m_accepted s) (m_rejected s) (m_impossible s) (m_prob s).

Lemma ms_archive a b rest : ms_load b (ms_save a ++ rest) = Some (rename (m_name b) a, rest).
Proof. destruct a as [n f p q r s k], b as [? ? ? ? ? ? ?], k. destruct f; reflexivity. Qed.

Lemma ms_call_rename chk n s c :
  fst (ms_call chk (rename n s) c) = rename n (fst (ms_call chk s c)) /\
  snd (ms_call chk (rename n s) c) = snd (ms_call chk s c).
Proof.
  assert (U : forall c p s, fst (UpdateIfProposed chk c p (rename n s)) = rename n (fst (UpdateIfProposed chk c p s)) /\
     snd (UpdateIfProposed chk c p (rename n s)) = snd (UpdateIfProposed chk c p s)).
  { clear. intros c p [nm fl a b d e k]. unfold UpdateIfProposed, rename. cbn [m_flag]. destruct fl; cbn [negb]; [|split; reflexivity].
    destruct c; cbn [bump m_prob m_name m_flag m_proposed m_accepted m_rejected m_impossible];
      destruct (KahanAdd numF chk k p); split; reflexivity. }
  destruct s as [nm fl a b d e k].
  destruct c as [|p|p| |[st p]|]; cbn [ms_call]; try apply U.
  - destruct fl; split; reflexivity.
  - unfold MS_Add, MS_Propose, UpdateIfNotProposed. cbn [rename m_flag]. destruct fl; [split; reflexivity|].
    unfold MR_GetStatus, MR_Probability. cbn [mr_status mr_prob]. 
    destruct (st =? Accepted); [exact (U CntAccepted p (mkMS nm true (u64 (a + 1)) b d e k))|].
    destruct (st =? Rejected); [exact (U CntRejected p (mkMS nm true (u64 (a + 1)) b d e k))|].
    destruct (st =? Impossible); [exact (U CntImpossible f0 (mkMS nm true (u64 (a + 1)) b d e k))|split; reflexivity].
  - split; reflexivity.
Qed.

Lemma ms_calls_rename chk n h : forall s, ms_calls chk h (rename n s) = rename n (ms_calls chk h s).
Proof.
  unfold ms_calls. induction h as [|c h IH]; intros s; cbn [fold_left]; [reflexivity|].
  rewrite (proj1 (ms_call_rename chk n s c)). apply IH.
Qed.

Lemma u64_add3 a b c d : u64 (u64 a + u64 b + u64 c + d) = u64 (a + b + c + d).
Proof.
  unfold u64.
  replace (a mod two64 + b mod two64 + c mod two64 + d) with (a mod two64 + (b mod two64 + c mod two64 + d)) by ring.
  rewrite Zplus_mod_idemp_l. replace (a + (b mod two64 + c mod two64 + d)) with (b mod two64 + (a + c mod two64 + d)) by ring.
  rewrite Zplus_mod_idemp_l. replace (b + (a + c mod two64 + d)) with (c mod two64 + (a + b + d)) by ring.
  rewrite Zplus_mod_idemp_l. f_equal. ring.
Qed.
