(** Property theorems C114 (the streams of std::mt19937_64 engines that are seeded
    differently, as by applications/dumpmt.cpp).  Nothing else is proved here.
    The statements speak of the words drawn only. *)
From Coq Require Import ZArith List Bool Lia.
From Verif Require Import Base F64 S_Rational M_Text L_Text M_Util S_Util L_Util M_Archive M_Dump S_Dump L_Dump P_Dump S_Twister M_Twister L_Twister P_Twister L_Streams.
Import ListNotations.
Open Scope Z_scope.
Open Scope out_scope.

(** 312 words in a row tell everything that an engine will ever hand out: engines in
    any states that hand out the same 312 words hand out the same words forever. *)
Theorem C114_words_determine_stream : forall e1 e2 ws r1 r2,
  length (mt_words e1) = 312%nat -> Forall (fun w => 0 <= w < 2 ^ 64) (mt_words e1) -> 0 <= mt_pos e1 ->
  length (mt_words e2) = 312%nat -> Forall (fun w => 0 <= w < 2 ^ 64) (mt_words e2) -> 0 <= mt_pos e2 ->
  mt_draws 312 e1 = Ok (ws, r1) -> mt_draws 312 e2 = Ok (ws, r2) ->
  forall n, exists vs f1 f2, mt_draws n e1 = Ok (vs, f1) /\ mt_draws n e2 = Ok (vs, f2).
Proof.
  intros [w1 p1] [w2 p2] ws r1 r2. cbn [mt_words mt_pos]. intros L1 R1 P1 L2 R2 P2 D1 D2 n.
  destruct (sequence_exists w1 L1) as [X HX]. destruct (sequence_exists w2 L2) as [Y HY].
  pose proof (recurrent_sequence _ X HX L1 R1) as RX. pose proof (recurrent_sequence _ Y HY L2 R2) as RY.
  destruct (C99_draws w1 p1 X 312 L1 R1 P1 HX) as (e & E). rewrite D1 in E. injection E as E1 _.
  destruct (C99_draws w2 p2 Y 312 L2 R2 P2 HY) as (e' & E'). rewrite D2 in E'. injection E' as E2 _.
  rewrite E1 in E2. pose proof (forward X Y _ _ RX RY (untempered X Y _ _ 312 RX RY E2)) as F.
  destruct (C99_draws w1 p1 X n L1 R1 P1 HX) as (f1 & F1). destruct (C99_draws w2 p2 Y n L2 R2 P2 HY) as (f2 & F2).
  rewrite F1, F2. do 3 eexists. split; [reflexivity|]. f_equal. f_equal. apply map_ext. intros k. now rewrite F.
Qed.
Print Assumptions C114_words_determine_stream.

(** Engines with different seeds never fall into step: however many words both have
    handed out, among the next 312 there is one that differs. *)
Theorem C114_seeds_never_merge : forall s t n us vs e f,
  mt_draws (n + 312) (mt19937_64 s) = Ok (us, e) -> mt_draws (n + 312) (mt19937_64 t) = Ok (vs, f) ->
  skipn n us = skipn n vs <-> s mod 2 ^ 64 = t mod 2 ^ 64.
Proof.
  intros s t n us vs e f D1 D2.
  destruct (seed_sequence s) as (X & RX & X0 & XS & DX). destruct (seed_sequence t) as (Y & RY & Y0 & YS & DY).
  destruct (DX (n + 312)%nat) as (e' & E). rewrite D1 in E. injection E as -> _.
  destruct (DY (n + 312)%nat) as (f' & E). rewrite D2 in E. injection E as -> _.
  split.
  - rewrite (skipn_words (fun k => tempered (X (312 + k)%nat))), (skipn_words (fun k => tempered (Y (312 + k)%nat))). intros E.
    assert (W : forall k, (k < 312)%nat -> X (1 + (311 + n) + k)%nat = Y (1 + (311 + n) + k)%nat).
    { apply (untempered X Y _ _ 312 RX RY). etransitivity; [|etransitivity; [exact E|]];
      apply map_ext; intros k; do 2 f_equal; lia. }
    pose proof (backward X Y 0 0 (311 + n) RX RY (forward X Y _ _ RX RY W) 0%nat) as E1.
    apply (seeds_differ s t X Y RX RY X0 Y0); [exact (XS 1%nat ltac:(lia))|exact (YS 1%nat ltac:(lia))|exact E1].
  - intros M. f_equal. assert (Q : mt19937_64 s = mt19937_64 t).
    { unfold mt19937_64, u64, two64. now rewrite M. }
    rewrite Q in D1. rewrite D1 in D2. injection D2 as -> _. reflexivity.
Qed.
Print Assumptions C114_seeds_never_merge.

(** Engines that load what dumpmt prints for different numbers never fall into step. *)
Theorem C114_dumped : forall b i x t more b' i' x' t' more' target target' n,
  blanks b -> int_text i x -> ~ starts_with_digit t -> - 2 ^ 31 <= x < 2 ^ 31 ->
  blanks b' -> int_text i' x' -> ~ starts_with_digit t' -> - 2 ^ 31 <= x' < 2 ^ 31 ->
  length (mt_words target) = 312%nat -> length (mt_words target') = 312%nat -> x <> x' ->
  exists text text' e e' us vs f f', dumpmt ((b ++ i ++ t) :: more) = Ok (0, text) /\ dumpmt ((b' ++ i' ++ t') :: more') = Ok (0, text') /\
    mt_load target text = (e, Ok tt) /\ mt_load target' text' = (e', Ok tt) /\
    mt_draws (n + 312) e = Ok (us, f) /\ mt_draws (n + 312) e' = Ok (vs, f') /\ skipn n us <> skipn n vs.
Proof.
  intros b i x t more b' i' x' t' more' target target' n Hb Hi Ht Hx Hb' Hi' Ht' Hx' L L' N.
  destruct (C74_output_is_seeded_engine b i x t more target Hb Hi Ht Hx L) as (text & ws & E & EL & HS).
  destruct (C74_output_is_seeded_engine b' i' x' t' more' target' Hb' Hi' Ht' Hx' L') as (text' & ws' & E' & EL' & HS').
  assert (Q : forall s w, mt_state s w -> mkEngine w 312 = mt19937_64 s).
  { intros s w H. destruct (mt_seeded s) as [HS2 P]. rewrite (mt_state_unique _ _ _ H HS2).
    destruct (mt19937_64 s) as [w2 p]. cbn [mt_pos mt_words] in *. now rewrite P. }
  rewrite (Q _ _ HS) in EL. rewrite (Q _ _ HS') in EL'.
  destruct (seed_sequence (x mod 2 ^ 64)) as (X & _ & _ & _ & DX). destruct (seed_sequence (x' mod 2 ^ 64)) as (Y & _ & _ & _ & DY).
  destruct (DX (n + 312)%nat) as (f & F). destruct (DY (n + 312)%nat) as (f' & F').
  do 8 eexists. do 4 (split; [eassumption|]). split; [exact F|]. split; [exact F'|]. intros C.
  apply (C114_seeds_never_merge _ _ _ _ _ _ _ F F') in C. rewrite !Z.mod_mod in C by discriminate. apply N.
  change (2 ^ 64) with 18446744073709551616 in C. change (2 ^ 31) with 2147483648 in *.
  Z.div_mod_to_equations. lia.
Qed.
Print Assumptions C114_dumped.

(** If the stream of one seed somewhere hands out 312 words that the stream of
    another (or the same) seed hands out d places later, then the first stream is the
    other one without its first d words. *)
Theorem C114_overlap : forall s t n d us vs e f,
  mt_draws (n + 312) (mt19937_64 s) = Ok (us, e) -> mt_draws (d + n + 312) (mt19937_64 t) = Ok (vs, f) ->
  skipn n us = skipn (d + n) vs ->
  forall m, exists us' vs' e' f', mt_draws m (mt19937_64 s) = Ok (us', e') /\ mt_draws (d + m) (mt19937_64 t) = Ok (vs', f') /\
    us' = skipn d vs'.
Proof.
  intros s t n d us vs e f D1 D2 E m.
  destruct (seed_sequence s) as (X & RX & _ & _ & DX). destruct (seed_sequence t) as (Y & RY & _ & _ & DY).
  destruct (DX (n + 312)%nat) as (e' & E1). rewrite D1 in E1. injection E1 as -> _.
  destruct (DY (d + n + 312)%nat) as (f' & E2). rewrite D2 in E2. injection E2 as -> _.
  rewrite (skipn_words (fun k => tempered (X (312 + k)%nat))), (skipn_words (fun k => tempered (Y (312 + k)%nat))) in E.
  assert (W : forall k, (k < 312)%nat -> X (1 + (311 + n) + k)%nat = Y (1 + d + (311 + n) + k)%nat).
  { apply (untempered X Y _ _ 312 RX RY). etransitivity; [|etransitivity; [exact E|]];
    apply map_ext; intros k; do 2 f_equal; lia. }
  pose proof (backward X Y 0 d (311 + n) RX RY (forward X Y _ _ RX RY W)) as B.
  destruct (DX m) as (e1 & ->). destruct (DY (d + m)%nat) as (f1 & ->). do 4 eexists. split; [reflexivity|]. split; [reflexivity|].
  rewrite (skipn_words (fun k => tempered (Y (312 + k)%nat))). apply map_ext. intros k. f_equal.
  specialize (B (311 + k)%nat). replace (312 + k)%nat with (1 + (311 + k))%nat by lia. rewrite B. f_equal. lia.
Qed.
Print Assumptions C114_overlap.

(** Every stream is periodic from its first word on: whatever it hands out at its
    beginning it hands out again. *)
Theorem C114_periodic : forall s, exists p, (0 < p)%nat /\ forall n, exists us vs e f,
  mt_draws n (mt19937_64 s) = Ok (us, e) /\ mt_draws (p + n) (mt19937_64 s) = Ok (vs, f) /\ us = skipn p vs.
Proof.
  intros s. destruct (seed_sequence s) as (X & RX & _ & _ & DX). destruct (periodic X RX) as (p & Hp & P).
  exists p. split; [exact Hp|]. intros n. destruct (DX n) as (e & ->). destruct (DX (p + n)%nat) as (f & ->).
  do 4 eexists. split; [reflexivity|]. split; [reflexivity|].
  rewrite (skipn_words (fun k => tempered (X (312 + k)%nat))). apply map_ext. intros k. f_equal.
  replace (312 + k)%nat with (S (311 + k)) by lia. rewrite P. f_equal. lia.
Qed.
Print Assumptions C114_periodic.

(** No seed makes the engine get stuck at zero: among any 312 words in a row one is
    not zero. *)
Theorem C114_never_stuck : forall s n us e, mt_draws (n + 312) (mt19937_64 s) = Ok (us, e) ->
  exists k, (k < 312)%nat /\ nth (n + k) us 0 <> 0.
Proof.
  intros s n us e D. destruct (seed_sequence s) as (X & RX & X0 & XS & DX).
  destruct (DX (n + 312)%nat) as (e' & E). rewrite D in E. injection E as -> _.
  set (U := map (fun k => tempered (X (312 + k)%nat)) (seq 0 (n + 312))).
  destruct (Exists_dec (fun k => nth (n + k) U 0 <> 0) (seq 0 312)) as [H|H].
  - intros k. destruct (Z.eq_dec (nth (n + k) U 0) 0); [right|left]; lia.
  - apply Exists_exists in H. destruct H as (k & Hk & H). apply in_seq in Hk. exists k. split; [lia|exact H].
  - exfalso. set (O := fun _ : nat => 0).
    assert (RO : recurrent O) by (split; [reflexivity|intros i; unfold O; lia]).
    assert (W : forall k, (k < 312)%nat -> X (1 + (311 + n) + k)%nat = O (1 + (311 + n) + k)%nat).
    { intros k Hk. apply tempered_inj; [apply RX|apply RO|]. change (tempered (O (1 + (311 + n) + k)%nat)) with 0.
      destruct (Z.eq_dec (tempered (X (1 + (311 + n) + k)%nat)) 0) as [Q|Q]; [exact Q|]. exfalso. apply H, Exists_exists.
      exists k. split; [apply in_seq; lia|]. unfold U. rewrite (nth_words (fun k => tempered (X (312 + k)%nat))) by lia.
      intros C. apply Q. etransitivity; [|exact C]. do 2 f_equal; lia. }
    pose proof (backward X O 0 0 (311 + n) RX RO (forward X O _ _ RX RO W)) as B.
    pose proof (B 0%nat) as B1. pose proof (B 1%nat) as B2. cbn [Nat.add] in B1, B2.
    rewrite (XS 2%nat) in B2 by lia. cbn [Nat.sub] in B2. rewrite B1 in B2. discriminate B2.
Qed.
Print Assumptions C114_never_stuck.

(** An engine takes its seed modulo 2^64, so that -1 and 2^64 - 1 give the same
    stream; the seeds 1 and 2 give different words. *)
Example C114_example :
  mt19937_64 (-1) = mt19937_64 (2 ^ 64 - 1) /\
  match mt_draws 320 (mt19937_64 1), mt_draws 320 (mt19937_64 2) with
  | Ok (us, _), Ok (vs, _) => nth 8 us 0 <> nth 8 vs 0 /\ length (skipn 8 us) = 312%nat /\ existsb (Z.eqb 0) us = false
  | _, _ => False
  end.
Proof. split; [reflexivity|]. vm_compute. repeat split; discriminate. Qed.
