(** Lemmas about reading rational numbers. *)
From Coq Require Import ZArith List Bool Ascii Lia.
From Verif Require Import Base M_Text M_Rational S_Rational S_RationalObj L_Text L_Rational S_RatRead.
Import ListNotations.
Open Scope Z_scope.

Lemma no_int_head l neg l1 ds tl : read_sign l = (neg, l1) -> l1 = ds ++ tl -> Forall (fun c => is_digit c = true) ds ->
  ~ starts_with_digit tl -> ds = [] -> forall i n t, l = i ++ t -> ~ int_text i n.
Proof.
  intros E -> _ Htl -> i n t -> H. apply int_text_shape in H as (ng & es & pre & -> & Hne & Hall & _ & Hs).
  rewrite (read_sign_shape ng es pre t Hne Hall Hs) in E. injection E as <- E. cbn [app] in E. subst tl.
  destruct es as [|c es]; [congruence|]. apply Htl. cbn [app]. rewrite starts_with_digit_cons. now inversion Hall.
Qed.

Lemma int_text_value i i' n n' tl tl' : int_text i n -> int_text i' n' -> ~ starts_with_digit tl -> ~ starts_with_digit tl' ->
  i ++ tl = i' ++ tl' -> n = n'.
Proof.
  intros H H' Ht Ht' E. apply int_text_shape in H as (ng & es & pre & -> & Hne & Hall & -> & Hs).
  apply int_text_shape in H' as (ng' & es' & pre' & -> & Hne' & Hall' & -> & Hs').
  pose proof (read_sign_shape ng es pre tl Hne Hall Hs) as R. pose proof (read_sign_shape ng' es' pre' tl' Hne' Hall' Hs') as R'.
  rewrite E, R' in R. injection R as -> R. apply (f_equal (fun l => fst (fst (read_digits l 0 0%nat)))) in R.
  rewrite !read_digits_spec in R by assumption. cbn [fst] in R. now rewrite R.
Qed.

Lemma num_get_int_cases w l : 1 <= w ->
  (exists i n tl, l = i ++ tl /\ int_text i n /\ ~ starts_with_digit tl /\
     num_get_int w l = (clamp w n, mkStream tl (is_nil tl) (negb (is_sint w n)))) \/
  ((forall i n tl, l = i ++ tl -> ~ int_text i n) /\ exists st, num_get_int w l = (0, st) /\ failb st = true).
Proof.
  intros Hw. unfold num_get_int. destruct (read_sign l) as [neg l1] eqn:ES.
  destruct (split_digits l1) as (ds & tl & E1 & Hds & Htl).
  rewrite E1, read_digits_spec by assumption. destruct ds as [|c ds].
  { right. split; [apply (no_int_head l neg l1 [] tl ES E1 Hds Htl eq_refl)|]. cbn [length Nat.add]. eauto. }
  left. assert (Hl : exists pre, l = pre ++ (c :: ds) ++ tl /\
      ((neg = false /\ (pre = [] \/ pre = ["+"%char])) \/ (neg = true /\ pre = ["-"%char]))).
  { destruct l as [|a l]; simpl in ES; [injection ES as <- <-; discriminate|].
    destruct (Ascii.eqb_spec a "-") as [->|N1].
    - injection ES as <- E. exists ["-"%char]. simpl. rewrite E, E1. auto.
    - destruct (Ascii.eqb_spec a "+") as [->|N2].
      + injection ES as <- E. exists ["+"%char]. simpl. rewrite E, E1. auto.
      + injection ES as <- E. exists []. simpl. rewrite E, E1. auto. }
  destruct Hl as (pre & -> & Hs). exists (pre ++ c :: ds), (sgnv neg (dval (c :: ds) 0)), tl.
  split; [now rewrite app_assoc|]. split.
  { apply int_text_shape. exists neg, (c :: ds), pre. repeat split; auto. discriminate. }
  split; [exact Htl|]. cbn [length Nat.add]. unfold sgnv. set (x := if neg then _ else _).
  pose proof (dval_nonneg (c :: ds) 0 ltac:(lia)) as Hv.
  assert (P : 1 <= 2 ^ (w - 1)) by (apply (Z.pow_le_mono_r 2 0); lia). unfold clamp.
  destruct (is_sint w x) eqn:EI; cbn [negb].
  - apply is_sint_spec in EI. f_equal. lia.
  - f_equal. assert (N : ~ (- 2 ^ (w - 1) <= x < 2 ^ (w - 1))) by (rewrite <- is_sint_spec; congruence).
    subst x. destruct neg; lia.
Qed.

Lemma skip_ws_nil l : skip_ws l = [] -> blanks l.
Proof. intros H. destruct (skip_ws_split l) as (b & E & Hb). rewrite H, app_nil_r in E. now subst. Qed.
Lemma skip_ws_cons l c l' : skip_ws l = c :: l' -> is_space c = false.
Proof.
  induction l as [|a l IH]; cbn [skip_ws]; [discriminate|]. destruct (is_space a) eqn:E; [exact IH|]. intros H. injection H as <- <-. exact E.
Qed.

Lemma first_half_run w old l tl : first_half w l tl ->
  exists b1 i n b2 b3, get_int w old (fresh l) = (n, fresh (b2 ++ "/"%char :: b3 ++ "/"%char :: tl)) /\ blanks b2 /\ blanks b3 /\
    l = b1 ++ i ++ b2 ++ "/"%char :: b3 ++ "/"%char :: tl /\ int_text i n /\ blanks b1.
Proof.
  intros (b1 & i & n & b2 & b3 & E & Hb1 & Hb2 & Hb3 & Hi & Hn). exists b1, i, n, b2, b3. split; [|repeat split; assumption].
  rewrite E, (get_int_ok w old b1 i n);
    [|assumption|assumption|now apply not_digit_slash|now apply is_sint_spec].
  now replace (is_nil (b2 ++ "/"%char :: b3 ++ "/"%char :: tl)) with false by (destruct b2; reflexivity).
Qed.

Lemma get_int_stored w old s v st : 1 <= w -> get_int w old (fresh s) = (v, st) -> stored w old s v.
Proof.
  intros Hw. unfold get_int, sentry, fresh, good. cbn [eofb failb rest negb andb].
  destruct (skip_ws_split s) as (b & E & Hb). destruct (skip_ws s) as [|c l'] eqn:ES.
  - intros H. injection H as <- <-. apply st_blank. now apply skip_ws_nil.
  - cbn [rest]. pose proof (skip_ws_cons _ _ _ ES) as Hc. intros H.
    destruct (num_get_int_cases w (c :: l') Hw) as [(i & n & tl & El & Hi & Htl & En)|(Hno & st' & En & _)]; rewrite En in H; injection H as <- _.
    + apply (st_int w old s b i n tl); auto. now rewrite <- El.
    + apply (st_other w old s b c l'); auto. rewrite <- is_space_spec. congruence.
Qed.

Lemma FromString_stored w s r0 r o : 1 <= w -> FromString w s r0 = (r, o) ->
  stored w (num r0) s (num r) /\
  ((exists tl, first_half w s tl /\ stored w (den r0) tl (den r)) \/ ((forall tl, ~ first_half w s tl) /\ den r = den r0)).
Proof.
  intros Hw. unfold FromString, rat_get.
  destruct (get_int w (num r0) (fresh s)) as [n st1] eqn:E1. pose proof (get_int_stored w (num r0) s n st1 Hw E1) as S1.
  destruct (get_char zero st1) as [c1 st2] eqn:E2.
  assert (NF : forall tl, first_half w s tl -> c1 = "/"%char /\ get_char "/" st2 = ("/"%char, fresh tl)).
  { intros tl H. destruct (first_half_run w (num r0) s tl H) as (b1 & i & n' & b2 & b3 & G & Hb2 & Hb3 & _).
    rewrite E1 in G. injection G as -> ->. rewrite get_char_ok in E2 by (assumption || reflexivity). injection E2 as <- <-.
    split; [reflexivity|]. now rewrite get_char_ok by (assumption || reflexivity). }
  destruct (Ascii.eqb_spec c1 "/") as [->|N1]; cbn [negb].
  2:{ intros H. injection H as <- _. cbn [num den]. split; [exact S1|]. right. split; [|reflexivity]. intros tl H. apply NF in H as [H _]. contradiction. }
  destruct (get_char "/" st2) as [c2 st3] eqn:E3.
  destruct (Ascii.eqb_spec c2 "/") as [->|N2]; cbn [negb].
  2:{ intros H. injection H as <- _. cbn [num den]. split; [exact S1|]. right. split; [|reflexivity]. intros tl H. apply NF in H as [_ H]. congruence. }
  destruct (get_int w (den r0) st3) as [d st4] eqn:E4. intros H. injection H as <- _. cbn [num den]. split; [exact S1|].
  destruct (failb st3) eqn:F3.
  - right. split; [intros tl H; apply NF in H as [_ H]; injection H as ->; discriminate F3|].
    unfold get_int, sentry, good in E4. rewrite F3, andb_false_r in E4. now injection E4.
  - left. apply get_char_inv in E3 as (_ & F2 & b3 & l3 & R2 & Hb3 & _ & ->); [|assumption].
    apply get_char_inv in E2 as (_ & F1 & b2 & l2 & R1 & Hb2 & _ & ->); [|assumption].
    apply get_int_inv in E1 as (_ & _ & b1 & i1 & tl1 & R0 & Hb1 & Hi1 & _ & Hn & ->); [|assumption].
    cbn [rest fresh] in *. exists l3. split; [|now apply (get_int_stored w (den r0) l3 d st4)].
    subst. exists b1, i1, n, b2, b3. repeat split; auto; now apply is_sint_spec in Hn.
Qed.

(** The specification leaves no choice. *)
Lemma first_half_fun w l t t' : first_half w l t -> first_half w l t' -> t = t'.
Proof.
  intros H H'. destruct (first_half_run w 0 l t H) as (b1 & i & n & b2 & b3 & G & Hb2 & Hb3 & _).
  destruct (first_half_run w 0 l t' H') as (b1' & i' & n' & b2' & b3' & G' & Hb2' & Hb3' & _).
  rewrite G in G'. injection G' as _ E. apply (f_equal (fun l => get_char zero (fresh l))) in E.
  rewrite !get_char_ok in E by (assumption || reflexivity). injection E as E. apply (f_equal (fun l => get_char zero (fresh l))) in E.
  rewrite !get_char_ok in E by (assumption || reflexivity). now injection E.
Qed.

Lemma blanks_nothing b l : blanks (b ++ l) -> blanks l.
Proof. unfold blanks. rewrite Forall_app. tauto. Qed.

Lemma blanks_head b b' c c' l l' : blanks b -> blanks b' -> is_space c = false -> is_space c' = false ->
  b ++ c :: l = b' ++ c' :: l' -> c :: l = c' :: l'.
Proof.
  intros Hb Hb' Hc Hc' E. apply (f_equal skip_ws) in E. now rewrite !skip_ws_blanks, !skip_ws_head in E by assumption.
Qed.

Lemma stored_get w old l v : 1 <= w -> stored w old l v -> fst (get_int w old (fresh l)) = v.
Proof.
  intros Hw H. unfold get_int, sentry, fresh, good. cbn [eofb failb rest negb andb].
  destruct H as [Hb|b i n tl -> Hb Hi Htl|b c l' -> Hb Hc Hno].
  - rewrite <- (app_nil_r l), skip_ws_blanks by assumption. reflexivity.
  - rewrite skip_ws_blanks by assumption. destruct (int_text_head i n Hi) as (c & l' & E & Hc & _).
    rewrite E. cbn [app]. rewrite skip_ws_head by assumption. cbn [rest].
    destruct (num_get_int_cases w (c :: l' ++ tl) Hw) as [(i' & n' & tl' & El & Hi' & Htl' & En)|(Hno & _)].
    2:{ exfalso. apply (Hno i n tl); [now rewrite E|exact Hi]. }
    rewrite En. cbn [fst]. f_equal. apply (int_text_value i' i n' n tl' tl); auto. rewrite <- El, E. reflexivity.
  - rewrite skip_ws_blanks by assumption. rewrite <- is_space_spec in Hc. destruct (is_space c) eqn:Es; [congruence|].
    rewrite skip_ws_head by assumption. cbn [rest].
    destruct (num_get_int_cases w (c :: l') Hw) as [(i & n & tl & El & Hi & _)|(_ & st & En & _)]; [exfalso; now apply (Hno i n tl)|]. now rewrite En.
Qed.

(** Reading one rational after the other. *)
Lemma not_digit_blank l : (match l with [] => True | c :: _ => blank_char c end) -> ~ starts_with_digit l.
Proof.
  destruct l as [|c l]; [intros _; apply starts_with_digit_nil|]. intros H. rewrite starts_with_digit_cons. apply is_space_spec in H.
  unfold is_digit. destruct (digit c) eqn:E; [|discriminate]. apply digit_not_space in E. congruence.
Qed.

Lemma read_all_text w rs l : rationals_text rs l -> Forall (fun r => in_w w (num r) /\ in_w w (den r)) rs ->
  forall e r0 fuel, (e = true -> l = []) -> (length rs < fuel)%nat ->
  read_all fuel w r0 (mkStream l e false) = (rs, mkStream [] true true).
Proof.
  induction 1 as [t Ht|r rs b l Hb Hl IH Hd]; intros HF e r0 fuel He Hn; (destruct fuel as [|fuel]; [cbn [length] in Hn; lia|]); cbn [read_all].
  - assert (G : get_int w (num r0) (mkStream t e false) = (num r0, mkStream [] true true)).
    { unfold get_int, sentry, good. cbn [eofb failb rest]. destruct e.
      - rewrite He by reflexivity. reflexivity.
      - cbn [negb andb]. rewrite <- (app_nil_r t), skip_ws_blanks by assumption. reflexivity. }
    unfold rat_get. rewrite G. reflexivity.
  - inversion HF as [|? ? [Hnr Hdr] HF']; subst.
    assert (e = false) as ->.
    { destruct e; [|reflexivity]. specialize (He eq_refl). apply app_eq_nil in He as [_ He]. apply app_eq_nil in He as [He _].
      unfold rat_put in He. apply app_eq_nil in He as [_ He]. discriminate. }
    fold (fresh (b ++ rat_put r ++ l)).
    rewrite (rat_get_ok w r0 _ (num r) (den r) l).
    + cbn [failb]. rewrite IH; [|exact HF'|intros E; now apply is_nil_length|cbn [length] in Hn; lia]. destruct r; reflexivity.
    + exists b, (put_int (num r)), [], [], [], (put_int (den r)).
      apply is_sint_spec in Hnr, Hdr. split; [unfold rat_put; now rewrite <- app_assoc|].
      split; [exact Hb|]. split; [constructor|]. split; [constructor|]. split; [constructor|].
      split; [apply put_int_text|]. split; [apply put_int_text|]. split; [now apply not_digit_blank|]. split; assumption.
Qed.
