(** Lemmas about formatted input and output. *)
From Coq Require Import ZArith List Bool Ascii Lia.
From Coq Require Decimal DecimalPos DecimalZ.
From Verif Require Import Base M_Text S_Rational.
Import ListNotations.
Open Scope Z_scope.

Lemma is_space_spec c : is_space c = true <-> blank_char c.
Proof.
  unfold blank_char. split.
  - intros H. destruct c as [[] [] [] [] [] [] [] []]; vm_compute in H; try discriminate;
      simpl; tauto.
  - simpl. intros H. repeat destruct H as [<-|H]; try reflexivity. destruct H.
Qed.

Lemma digit_spec c d : digit c = Some d <-> digit_char c d.
Proof.
  unfold digit_char. split.
  - intros H. destruct c as [[] [] [] [] [] [] [] []]; vm_compute in H; try discriminate;
      injection H as <-; split; (reflexivity || lia).
  - intros [H Hd]. assert (Hlt : (Z.to_nat d < 10)%nat).
    { change 10%nat with (length ["0"; "1"; "2"; "3"; "4"; "5"; "6"; "7"; "8"; "9"]%char).
      apply nth_error_Some. congruence. }
    assert (d < 10) by lia.
    assert (Hc : d = 0 \/ d = 1 \/ d = 2 \/ d = 3 \/ d = 4 \/ d = 5 \/ d = 6 \/ d = 7 \/ d = 8 \/ d = 9)
      by lia.
    repeat destruct Hc as [->|Hc]; try (injection H as <-; reflexivity).
    subst d. injection H as <-. reflexivity.
Qed.

Lemma digit_range c d : digit c = Some d -> 0 <= d <= 9.
Proof.
  unfold digit. set (n := Z.of_N (N_of_ascii c)).
  destruct (Z.leb_spec 48 n), (Z.leb_spec n 57); simpl; intros H'; try discriminate.
  injection H' as <-. lia.
Qed.

Lemma digit_not_space c d : digit c = Some d -> is_space c = false.
Proof.
  intros H. destruct c as [[] [] [] [] [] [] [] []]; vm_compute in H; try discriminate; reflexivity.
Qed.

(** Value of a digit string, most significant digit first. *)
Definition dig (c : ascii) : Z := match digit c with Some d => d | None => 0 end.
Definition dval (l : list ascii) (acc : Z) : Z := fold_left (fun acc c => acc * 10 + dig c) l acc.
Definition is_digit (c : ascii) : bool := match digit c with Some _ => true | None => false end.

Lemma dval_app l1 l2 acc : dval (l1 ++ l2) acc = dval l2 (dval l1 acc).
Proof. apply fold_left_app. Qed.

Lemma starts_with_digit_cons c l : starts_with_digit (c :: l) <-> is_digit c = true.
Proof.
  unfold starts_with_digit, is_digit. split.
  - intros (c' & l' & d & E & Hd). injection E as <- <-. apply digit_spec in Hd. now rewrite Hd.
  - destruct (digit c) as [d|] eqn:E; [|discriminate]. intros _.
    exists c, l, d. split; [reflexivity|]. now apply digit_spec.
Qed.

Lemma starts_with_digit_nil : ~ starts_with_digit [].
Proof. intros (c & l & d & E & _). discriminate. Qed.

Lemma read_digits_spec ds tl acc n :
  Forall (fun c => is_digit c = true) ds -> ~ starts_with_digit tl ->
  read_digits (ds ++ tl) acc n = (dval ds acc, (n + length ds)%nat, tl).
Proof.
  intros H Htl. revert acc n. induction H as [|c ds Hc Hds IH]; intros acc n; simpl.
  - rewrite Nat.add_0_r. destruct tl as [|c tl]; [reflexivity|]. simpl.
    destruct (digit c) eqn:E; [|reflexivity]. exfalso. apply Htl.
    apply starts_with_digit_cons. unfold is_digit. now rewrite E.
  - unfold is_digit in Hc. destruct (digit c) as [d|] eqn:E; [|discriminate].
    rewrite IH. unfold dig. rewrite E. f_equal. f_equal. lia.
Qed.

Lemma split_digits l :
  exists ds tl, l = ds ++ tl /\ Forall (fun c => is_digit c = true) ds /\ ~ starts_with_digit tl.
Proof.
  induction l as [|c l (ds & tl & -> & H1 & H2)].
  - exists [], []. split; [reflexivity|]. split; [constructor|]. apply starts_with_digit_nil.
  - destruct (is_digit c) eqn:E.
    + exists (c :: ds), tl. auto.
    + exists [], (c :: ds ++ tl). split; [reflexivity|]. split; [constructor|].
      rewrite starts_with_digit_cons. congruence.
Qed.

Lemma digits_text_spec l v :
  digits_text l v <-> l <> [] /\ Forall (fun c => is_digit c = true) l /\ v = dval l 0.
Proof.
  split.
  - induction 1 as [c d H|l v c d H (IH1 & IH2 & IH3) Hd].
    + apply digit_spec in H. split; [discriminate|]. unfold is_digit, dval, dig. simpl. rewrite H.
      split; [constructor; [now rewrite H|constructor]|lia].
    + apply digit_spec in Hd. split; [destruct l; discriminate|]. split.
      * apply Forall_app. split; [assumption|]. constructor; [|constructor]. unfold is_digit. now rewrite Hd.
      * rewrite dval_app, <- IH3. unfold dval. cbn [fold_left]. unfold dig. rewrite Hd. lia.
  - intros (Hne & Hall & ->). induction l as [|c l IH] using rev_ind; [congruence|].
    apply Forall_app in Hall as [Hl Hc]. inversion Hc as [|? ? Hc' _]; subst.
    unfold is_digit in Hc'. destruct (digit c) as [d|] eqn:E; [|discriminate].
    apply digit_spec in E as E'.
    rewrite dval_app. unfold dval at 1. cbn [fold_left]. unfold dig. rewrite E.
    destruct l as [|c0 l].
    + simpl. apply dt_one. assumption.
    + replace (dval (c0 :: l) 0 * 10 + d) with (10 * dval (c0 :: l) 0 + d) by lia.
      apply dt_more; [|assumption]. apply IH; [discriminate|assumption].
Qed.

Lemma is_nil_length {A} (l : list A) : is_nil l = true <-> l = [].
Proof. destruct l; simpl; split; congruence. Qed.

Lemma dval_nonneg l acc : 0 <= acc -> 0 <= dval l acc.
Proof.
  revert acc; induction l as [|c l IH]; intros acc H; simpl; [assumption|].
  apply IH. unfold dig. destruct (digit c) eqn:E; [apply digit_range in E|]; lia.
Qed.

(** The first character of an integer text is neither blank nor a slash. *)
Lemma int_text_head l v : int_text l v ->
  exists c l', l = c :: l' /\ is_space c = false /\ c <> "/"%char.
Proof.
  assert (D : forall l v, digits_text l v -> exists c l', l = c :: l' /\ is_space c = false /\ c <> "/"%char).
  { intros l0 v0 H. apply digits_text_spec in H as (Hne & Hall & _).
    destruct l0 as [|c l0]; [congruence|]. inversion Hall as [|? ? Hc _]; subst.
    unfold is_digit in Hc. destruct (digit c) eqn:E; [|discriminate].
    exists c, l0. split; [reflexivity|]. split; [eapply digit_not_space; eauto|].
    intros ->. discriminate. }
  destruct 1 as [l v H|l v H|l v H].
  - eauto.
  - exists "+"%char, l. split; [reflexivity|]. split; [reflexivity|discriminate].
  - exists "-"%char, l. split; [reflexivity|]. split; [reflexivity|discriminate].
Qed.

Lemma sign_not_digit c : is_digit c = true -> Ascii.eqb c "-" = false /\ Ascii.eqb c "+" = false.
Proof.
  intros H. destruct (Ascii.eqb_spec c "-") as [->|]; [discriminate|].
  destruct (Ascii.eqb_spec c "+") as [->|]; [discriminate|]. auto.
Qed.

Definition sgnv (neg : bool) (v : Z) : Z := if neg then - v else v.

(** Shape of any integer text. *)
Lemma int_text_shape i x :
  int_text i x <-> exists neg ds pre, i = pre ++ ds /\ ds <> [] /\
     Forall (fun c => is_digit c = true) ds /\ x = sgnv neg (dval ds 0) /\
     ((neg = false /\ (pre = [] \/ pre = ["+"%char])) \/ (neg = true /\ pre = ["-"%char])).
Proof.
  split.
  - destruct 1 as [l v H|l v H|l v H]; apply digits_text_spec in H as (H1 & H2 & H3).
    + exists false, l, []. simpl. subst v. tauto.
    + exists false, l, ["+"%char]. simpl. subst v. tauto.
    + exists true, l, ["-"%char]. simpl. subst v. tauto.
  - intros (neg & ds & pre & -> & H1 & H2 & -> & [[-> [->| ->]]|[-> ->]]); simpl.
    + apply it_plain, digits_text_spec. auto.
    + apply it_plus, digits_text_spec. auto.
    + apply it_minus, digits_text_spec. auto.
Qed.

Lemma read_sign_shape neg ds pre tl :
  ds <> [] -> Forall (fun c => is_digit c = true) ds ->
  ((neg = false /\ (pre = [] \/ pre = ["+"%char])) \/ (neg = true /\ pre = ["-"%char])) ->
  read_sign ((pre ++ ds) ++ tl) = (neg, ds ++ tl).
Proof.
  intros Hne Hall H. destruct ds as [|c ds]; [congruence|]. inversion Hall; subst.
  destruct (sign_not_digit c) as [E1 E2]; [assumption|].
  destruct H as [[-> [->| ->]]|[-> ->]]; simpl; rewrite ?E1, ?E2; reflexivity.
Qed.

Lemma num_get_int_ok w i x tl :
  int_text i x -> ~ starts_with_digit tl -> is_sint w x = true ->
  num_get_int w (i ++ tl) = (x, mkStream tl (is_nil tl) false).
Proof.
  intros H Htl Hx. apply int_text_shape in H as (neg & ds & pre & -> & Hne & Hall & -> & Hs).
  unfold num_get_int. rewrite (read_sign_shape neg ds pre tl Hne Hall Hs).
  rewrite read_digits_spec by assumption. destruct ds as [|c ds]; [congruence|].
  simpl Nat.add. unfold sgnv in Hx. rewrite Hx. reflexivity.
Qed.

Lemma num_get_int_inv w l x st :
  num_get_int w l = (x, st) -> failb st = false ->
  exists i tl, l = i ++ tl /\ int_text i x /\ ~ starts_with_digit tl /\ is_sint w x = true /\
    st = mkStream tl (is_nil tl) false.
Proof.
  unfold num_get_int. destruct (read_sign l) as [neg l1] eqn:ES.
  destruct (split_digits l1) as (ds & tl & -> & Hds & Htl).
  rewrite read_digits_spec by assumption. simpl Nat.add.
  destruct ds as [|c ds]; cbn [length].
  { intros H Hf. injection H as <- <-. discriminate. }
  destruct (is_sint w (if neg then - dval (c :: ds) 0 else dval (c :: ds) 0)) eqn:EI;
    intros H Hf; injection H as <- <-; [|discriminate].
  assert (Hl : exists pre, l = pre ++ (c :: ds) ++ tl /\
      ((neg = false /\ (pre = [] \/ pre = ["+"%char])) \/ (neg = true /\ pre = ["-"%char]))).
  { destruct l as [|a l]; simpl in ES; [discriminate|].
    destruct (Ascii.eqb_spec a "-") as [->|N1].
    - injection ES as <- E. exists ["-"%char]. simpl. rewrite E. auto.
    - destruct (Ascii.eqb_spec a "+") as [->|N2].
      + injection ES as <- E. exists ["+"%char]. simpl. rewrite E. auto.
      + injection ES as <- -> ->. exists []. simpl. auto. }
  destruct Hl as (pre & -> & Hs). exists (pre ++ c :: ds), tl.
  split; [now rewrite app_assoc|]. split.
  - apply int_text_shape. exists neg, (c :: ds), pre. unfold sgnv. repeat split; auto. discriminate.
  - auto.
Qed.

(** Blanks *)
Lemma skip_ws_blanks b l : blanks b -> skip_ws (b ++ l) = skip_ws l.
Proof.
  induction 1 as [|c b Hc Hb IH]; [reflexivity|]. simpl. apply is_space_spec in Hc. now rewrite Hc.
Qed.

Lemma skip_ws_head c l : is_space c = false -> skip_ws (c :: l) = c :: l.
Proof. intros H. simpl. now rewrite H. Qed.

Lemma skip_ws_split l : exists b, l = b ++ skip_ws l /\ blanks b.
Proof.
  induction l as [|c l (b & E & Hb)]; [exists []; split; [reflexivity|constructor]|]. simpl.
  destruct (is_space c) eqn:Ec.
  - exists (c :: b). simpl. rewrite <- E. split; [reflexivity|]. constructor; [|assumption].
    now apply is_space_spec.
  - exists []. split; [reflexivity|constructor].
Qed.

Lemma get_int_ok w old b i x tl :
  blanks b -> int_text i x -> ~ starts_with_digit tl -> is_sint w x = true ->
  get_int w old (fresh (b ++ i ++ tl)) = (x, mkStream tl (is_nil tl) false).
Proof.
  intros Hb Hi Htl Hx. unfold get_int, sentry, fresh, good. simpl.
  rewrite skip_ws_blanks by assumption.
  destruct (int_text_head i x Hi) as (c & l' & E & Hc & _).
  rewrite E. cbn [app]. rewrite skip_ws_head by assumption. cbn [rest].
  change (c :: l' ++ tl) with ((c :: l') ++ tl). rewrite <- E. now apply num_get_int_ok.
Qed.

Lemma get_int_inv w old st x st' :
  get_int w old st = (x, st') -> failb st' = false ->
  eofb st = false /\ failb st = false /\ exists b i tl, rest st = b ++ i ++ tl /\ blanks b /\ int_text i x /\
    ~ starts_with_digit tl /\ is_sint w x = true /\ st' = mkStream tl (is_nil tl) false.
Proof.
  unfold get_int, sentry, good. destruct st as [l e f]; simpl.
  destruct e, f; simpl; intros H Hf; try (injection H as <- <-; discriminate).
  split; [reflexivity|]. split; [reflexivity|].
  destruct (skip_ws_split l) as (b & E & Hb).
  destruct (skip_ws l) as [|c l'] eqn:EW; [injection H as <- <-; discriminate|].
  simpl in H. apply num_get_int_inv in H as (i & tl & E2 & H2 & H3 & H4 & H5); [|assumption].
  exists b, i, tl. rewrite E, E2. auto 10.
Qed.

(** After a failure nothing succeeds any more. *)
Lemma get_int_failed w old st : failb st = true -> failb (snd (get_int w old st)) = true.
Proof. intros H. unfold get_int, sentry, good. rewrite H, andb_false_r. reflexivity. Qed.

Lemma get_char_failed old st : failb st = true -> failb (snd (get_char old st)) = true.
Proof. intros H. unfold get_char, sentry, good. rewrite H, andb_false_r. reflexivity. Qed.

Lemma get_char_ok old b c tl :
  blanks b -> is_space c = false ->
  get_char old (fresh (b ++ c :: tl)) = (c, fresh tl).
Proof.
  intros Hb Hc. unfold get_char, sentry, fresh, good. simpl. rewrite skip_ws_blanks by assumption.
  rewrite skip_ws_head by assumption. reflexivity.
Qed.

Lemma get_char_inv old st c st' :
  get_char old st = (c, st') -> failb st' = false ->
  eofb st = false /\ failb st = false /\ exists b tl, rest st = b ++ c :: tl /\ blanks b /\
    is_space c = false /\ st' = fresh tl.
Proof.
  unfold get_char, sentry, good. destruct st as [l e f]; simpl.
  destruct e, f; simpl; intros H Hf; try (injection H as <- <-; discriminate).
  split; [reflexivity|]. split; [reflexivity|].
  destruct (skip_ws_split l) as (b & E & Hb).
  destruct (skip_ws l) as [|c' l'] eqn:EW; simpl in H; injection H as <- <-; [discriminate|].
  exists b, l'. repeat split; auto.
  clear -EW. induction l as [|a l IH]; simpl in EW; [discriminate|].
  destruct (is_space a) eqn:Ea; [auto|]. injection EW as <- <-. assumption.
Qed.

(** Output *)
Lemma uint_chars_digits d : Forall (fun c => is_digit c = true) (uint_chars d).
Proof. induction d; simpl; constructor; auto. Qed.

Lemma uint_chars_val d acc : dval (uint_chars d) (Z.pos acc) = Z.pos (Pos.of_uint_acc d acc).
Proof.
  revert acc; induction d as [|d IH|d IH|d IH|d IH|d IH|d IH|d IH|d IH|d IH|d IH]; intros acc;
    [reflexivity|..]; unfold dval in *; cbn [uint_chars fold_left];
    match goal with |- fold_left _ _ ?z = Z.pos (Pos.of_uint_acc ?d' acc) =>
      let q := eval cbn [Pos.of_uint_acc] in (Pos.of_uint_acc d' acc) in
      match q with Pos.of_uint_acc _ ?p => replace z with (Z.pos p) end end;
    try (rewrite IH; reflexivity);
    unfold dig; match goal with |- context [digit ?c] => let e := eval vm_compute in (digit c) in change (digit c) with e end;
    cbv beta iota; lia.
Qed.

Lemma uint_chars_of_uint d : dval (uint_chars d) 0 = Z.of_N (Pos.of_uint d).
Proof.
  induction d as [|d IH|d IH|d IH|d IH|d IH|d IH|d IH|d IH|d IH|d IH]; [reflexivity|exact IH|..];
    unfold dval; cbn [uint_chars fold_left];
    match goal with |- fold_left _ _ ?z = _ => let e := eval vm_compute in z in change z with e end;
    apply uint_chars_val.
Qed.

Lemma put_int_text z : int_text (put_int z) z.
Proof.
  unfold put_int. pose proof (DecimalZ.of_to z) as E. unfold Z.of_int in E.
  destruct (Z.to_int z) as [d|d] eqn:ED; unfold Z.of_uint in E.
  - rewrite <- E. apply it_plain, digits_text_spec. split; [|split; [apply uint_chars_digits|now rewrite uint_chars_of_uint]].
    destruct z; simpl in ED; [injection ED as <-; discriminate| |discriminate].
    injection ED as <-. intros H.
    assert (Pos.to_uint p = Decimal.Nil) by (destruct (Pos.to_uint p); simpl in H; congruence).
    rewrite H0 in E. discriminate.
  - rewrite <- E. apply it_minus, digits_text_spec. split; [|split; [apply uint_chars_digits|now rewrite uint_chars_of_uint]].
    destruct z; simpl in ED; [discriminate|discriminate|].
    injection ED as <-. intros H.
    assert (Pos.to_uint p = Decimal.Nil) by (destruct (Pos.to_uint p); simpl in H; congruence).
    rewrite H0 in E. discriminate.
Qed.
