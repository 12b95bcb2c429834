(** Proofs about dumpmt. *)
From Coq Require Import ZArith List Bool Ascii Lia.
From Verif Require Import Base S_Rational M_Text L_Text M_Util S_Util L_Util M_Dump S_Dump.
Import ListNotations.
Open Scope Z_scope.

Lemma atoi_number b i x t : blanks b -> int_text i x -> ~ starts_with_digit t -> atoi (b ++ i ++ t) = sint 32 x.
Proof.
  intros Hb Hi Ht. unfold atoi. destruct (int_text_head i x Hi) as (c & l' & E & Hc & _).
  rewrite skip_ws_blanks by exact Hb. rewrite E at 1. cbn [app]. rewrite skip_ws_head by exact Hc.
  change (c :: l' ++ t) with ((c :: l') ++ t). rewrite <- E.
  apply int_text_shape in Hi as (neg & ds & pre & -> & Hne & Hall & -> & Hs).
  rewrite (read_sign_shape neg ds pre t Hne Hall Hs). rewrite (read_digits_spec ds t 0 0 Hall Ht). destruct neg; reflexivity.
Qed.

Lemma atoi_no_number b t : blanks b -> ~ starts_with_digit t -> 
  (forall c r, t = c :: r -> blank_char c -> False) ->
  (forall c r, t = c :: r -> c = "-"%char \/ c = "+"%char -> ~ starts_with_digit r) -> atoi (b ++ t) = Ok 0.
Proof.
  intros Hb Ht Hs Hr. unfold atoi. rewrite skip_ws_blanks by exact Hb.
  destruct t as [|c r]; [reflexivity|].
  rewrite skip_ws_head.
  2:{ destruct (is_space c) eqn:E; auto. exfalso. apply (Hs c r eq_refl). now apply is_space_spec. }
  cbn [read_sign]. 
  assert (Z : forall l, ~ starts_with_digit l -> read_digits l 0 0 = (0, 0%nat, l)).
  { intros l Hl. apply (read_digits_spec [] l 0 0); auto. }
  destruct (Ascii.eqb_spec c "-") as [->|]; [rewrite (Z r) by (apply (Hr _ _ eq_refl); auto); reflexivity|].
  destruct (Ascii.eqb_spec c "+") as [->|]; [rewrite (Z r) by (apply (Hr _ _ eq_refl); auto); reflexivity|].
  rewrite (Z _ Ht). reflexivity.
Qed.

Lemma words_from_length n : forall i x, length (mt_words_from n i x) = n.
Proof. induction n; intros; cbn; auto. Qed.

Lemma words_from_nth n : forall i x k, (k < n)%nat ->
  nth k (mt_words_from n i x) 0 = mt_next_word (nth k (x :: mt_words_from n i x) 0) (i + Z.of_nat k).
Proof.
  induction n as [|n IH]; intros i x k Hk; [lia|]. cbn [mt_words_from]. destruct k as [|k].
  - cbn [nth]. f_equal. lia.
  - cbn [nth]. rewrite IH by lia. f_equal. lia.
Qed.

Lemma words_from_range n : forall i x, Forall (fun w => 0 <= w < two64) (mt_words_from n i x).
Proof. induction n as [|n IH]; intros; cbn; constructor; auto. apply Z.mod_pos_bound. reflexivity. Qed.

Lemma next_word_spec x i : 0 <= i < 312 ->
  mt_next_word x i = (6364136223846793005 * Z.lxor x (Z.shiftr x 62) + i) mod 2 ^ 64.
Proof.
  intros Hi. unfold mt_next_word, u64. rewrite Z.shiftr_div_pow2 by lia. rewrite (Z.mod_small i) by lia.
  rewrite Z.add_mod_idemp_l by discriminate. now rewrite Z.mul_comm.
Qed.

Lemma mt_seeded s : mt_state s (mt_words (mt19937_64 s)) /\ mt_pos (mt19937_64 s) = 312.
Proof.
  split; [|reflexivity]. unfold mt_state, mt19937_64. cbn [mt_words].
  set (W := mt_words_from 311 1 (u64 s)). split; [|split].
  - cbn [length]. unfold W. now rewrite words_from_length.
  - reflexivity.
  - intros i Hi. cbv zeta. destruct i as [|i]; [lia|]. cbn [nth]. unfold W at 1. rewrite words_from_nth by lia.
    rewrite next_word_spec by lia. replace (S i - 1)%nat with i by lia.
    f_equal. fold W. f_equal. lia.
Qed.

Lemma mt_state_unique s ws ws' : mt_state s ws -> mt_state s ws' -> ws = ws'.
Proof.
  intros (L & A & B) (L' & A' & B'). apply (nth_ext ws ws' 0 0); [congruence|].
  rewrite L. intros n. induction n as [|n IH]; intros H; [congruence|].
  specialize (B (S n) ltac:(lia)). specialize (B' (S n) ltac:(lia)). cbv zeta in B, B'.
  replace (S n - 1)%nat with n in * by lia. rewrite B, B', IH by lia. reflexivity.
Qed.

Lemma mt_state_range s : Forall (fun w => 0 <= w < two64) (mt_words (mt19937_64 s)).
Proof. constructor; [apply Z.mod_pos_bound; reflexivity|apply words_from_range]. Qed.

Lemma numbers_app s vs r t : numbers s vs r -> ~ starts_with_digit t -> (r = [] \/ vs = []) -> numbers (s ++ t) vs (r ++ t).
Proof.
  intros H Ht. induction H as [r|b i x u vs r Hb Hi Hx Hu Hn IH]; intros Hr; [constructor|].
  assert (Er : r = []) by (destruct Hr; [auto|discriminate]). subst r.
  rewrite <- !app_assoc. constructor; auto.
  intros (c & l & d & E & Hd). destruct u as [|c' u']; [apply Ht; cbn in E; subst; exists c, l, d; auto|].
  apply Hu. injection E as -> _. exists c, u', d. auto.
Qed.

Lemma dumpmt_load a x e t : atoi a = Ok x -> length (mt_words e) = 312%nat ->
  ~ starts_with_digit t ->
  mt_load e (mt_put (mt19937_64 (u64 x)) ++ t) = (mt19937_64 (u64 x), Ok tt).
Proof.
  intros _ L Ht. destruct (mt19937_64 (u64 x)) as [ws p] eqn:E.
  assert (Lw : length ws = length (mt_words e)).
  { destruct (mt_seeded (u64 x)) as [(A & _) _]. rewrite E in A. cbn in A. congruence. }
  apply mt_load_ok with (r := [] ++ t); [exact Lw|].
  apply numbers_app; auto. pose proof (mt_put_numbers (mkEngine ws p)) as N. cbn [mt_words mt_pos] in N. apply N.
  - pose proof (mt_state_range (u64 x)) as R. rewrite E in R. exact R.
  - destruct (mt_seeded (u64 x)) as [_ P]. rewrite E in P. cbn in P. subst p. rewrite two64_eq. lia.
Qed.

Lemma newline_no_digit : ~ starts_with_digit ["010"%char].
Proof. rewrite starts_with_digit_cons. discriminate. Qed.

Lemma atoi_range s r : atoi s = Ok r -> - 2 ^ 31 <= r < 2 ^ 31.
Proof.
  unfold atoi. destruct (read_sign _) as [? l]. destruct (read_digits l 0 0) as [[v ?] ?]. unfold sint.
  destruct (is_sint 32 _) eqn:I; [|discriminate]. intros [= <-].
  unfold is_sint in I. apply andb_prop in I as [I1 I2]. apply Z.leb_le in I1. apply Z.ltb_lt in I2.
  change (32 - 1) with 31 in *. lia.
Qed.

Lemma dumpmt_injective a b n m o : atoi a = Ok n -> atoi b = Ok m ->
  dumpmt [a] = Ok o -> dumpmt [b] = Ok o -> n = m.
Proof.
  intros A B. unfold dumpmt. rewrite A, B. cbn [bind]. intros <-. intros [= E].
  apply app_inv_tail in E.
  pose proof (dumpmt_load a n (mt19937_64 0) ["010"%char] A (proj1 (proj1 (mt_seeded 0))) newline_no_digit) as L1.
  pose proof (dumpmt_load b m (mt19937_64 0) ["010"%char] B (proj1 (proj1 (mt_seeded 0))) newline_no_digit) as L2.
  rewrite <- E, L2 in L1. apply (f_equal (fun r => nth 0 (mt_words (fst r)) 0)) in L1. cbn [fst] in L1.
  destruct (mt_seeded (u64 n)) as [(_ & N0 & _) _]. destruct (mt_seeded (u64 m)) as [(_ & M0 & _) _]. rewrite N0, M0 in L1.
  pose proof (atoi_range _ _ A). pose proof (atoi_range _ _ B). unfold u64 in L1. rewrite two64_eq in L1.
  change (2 ^ 64) with 18446744073709551616 in L1. rewrite !Zmod_mod in L1.
  pose proof (Z.div_mod n 18446744073709551616). pose proof (Z.div_mod m 18446744073709551616). lia.
Qed.
