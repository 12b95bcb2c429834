(** Lemmas about enums, files and engines. *)
From Coq Require Import ZArith List Bool Ascii String Lia.
From Verif Require Import Base M_Text S_Rational L_Text M_Util S_Util.
Import ListNotations.
Open Scope Z_scope.

Lemma str_eq_spec a b : str_eq a b = true <-> a = b.
Proof.
  revert b. induction a as [|x a IH]; intros [|y b]; cbn [str_eq]; split; try discriminate; auto.
  - rewrite andb_true_iff, Ascii.eqb_eq, IH. intros [-> ->]. reflexivity.
  - intros [= -> ->]. rewrite Ascii.eqb_refl, (proj2 (IH b) eq_refl). reflexivity.
Qed.

(** * Enums *)

Lemma to_string_nth l : forall i v d, i <= v < i + vsize l ->
  to_string_cases l i v d = nth (Z.to_nat (v - i)) l d.
Proof.
  unfold vsize. induction l as [|e l IH]; intros i v d H; cbn [List.length to_string_cases] in *; [lia|].
  destruct (Z.eqb_spec v i) as [->|N]; [now rewrite Z.sub_diag|].
  rewrite IH by lia. replace (Z.to_nat (v - i)) with (S (Z.to_nat (v - (i + 1)))) by lia. reflexivity.
Qed.

Lemma to_string_default l : forall i v d, ~ (i <= v < i + vsize l) -> to_string_cases l i v d = d.
Proof.
  unfold vsize. induction l as [|e l IH]; intros i v d H; cbn [List.length to_string_cases] in *; [reflexivity|].
  destruct (Z.eqb_spec v i) as [->|N]; [lia|]. apply IH. lia.
Qed.

Lemma from_string_found l : forall i n k, NoDup l -> (k < List.length l)%nat ->
  from_string_ifs l i n (nth k l []) = (i + Z.of_nat k, Ok tt).
Proof.
  induction l as [|e l IH]; intros i n k Hd Hk; cbn [List.length from_string_ifs] in *; [lia|].
  inversion Hd as [|? ? Hn Hd']; subst. destruct k as [|k]; cbn [nth].
  - rewrite (proj2 (str_eq_spec e e) eq_refl). f_equal. lia.
  - destruct (str_eq (nth k l []) e) eqn:E.
    + exfalso. apply str_eq_spec in E. apply Hn. rewrite <- E. apply nth_In. lia.
    + rewrite IH by (auto; lia). f_equal. lia.
Qed.

Lemma from_string_none l : forall i n v, ~ In v l -> from_string_ifs l i n v = (n, Throw ExEnumConversion).
Proof.
  induction l as [|e l IH]; intros i n v H; cbn [from_string_ifs]; [reflexivity|].
  destruct (str_eq v e) eqn:E.
  - exfalso. apply H. left. symmetry. now apply str_eq_spec.
  - apply IH. intros K. apply H. now right.
Qed.

(** * Files *)

Lemma std_equal_spec l1 : forall l2, List.length l1 = List.length l2 ->
  exists b, std_equal l1 l2 = Ok b /\ (b = true <-> l1 = l2).
Proof.
  induction l1 as [|x l1 IH]; intros [|y l2] H; try discriminate H; cbn [std_equal].
  - exists true. tauto.
  - injection H as H. destruct (Ascii.eqb_spec x y) as [->|N].
    + destruct (IH l2 H) as (b & E & Hb). exists b. split; [exact E|]. rewrite Hb. split; [intros ->; reflexivity|intros [= ->]; reflexivity].
    + exists false. split; [reflexivity|]. split; [discriminate|]. intros [= E _]. contradiction.
Qed.

Lemma compare_files_spec fs p q : exists b, compare_files fs p q = Ok b /\
  (b = true <-> exists f, fs p = Some f /\ fs q = Some f).
Proof.
  unfold compare_files. destruct (fs p) as [f1|]; [destruct (fs q) as [f2|]|].
  - destruct (Z.eqb_spec (vsize f1) (vsize f2)) as [E|E]; cbn [negb].
    + unfold vsize in E. destruct (std_equal_spec f1 f2 ltac:(lia)) as (b & Eb & Hb). exists b. split; [exact Eb|].
      rewrite Hb. split; [intros ->; eauto|intros (f & [= ->] & [= ->]); reflexivity].
    + exists false. split; [reflexivity|]. split; [discriminate|]. intros (f & [= ->] & [= ->]). contradiction.
  - exists false. split; [reflexivity|]. split; [discriminate|]. intros (f & _ & H). discriminate.
  - exists false. split; [reflexivity|]. split; [discriminate|]. intros (f & H & _). discriminate.
Qed.

(** * Engines *)

Lemma num_get_uint_ok i x tl :
  int_text i x -> ~ starts_with_digit tl -> Z.abs x < two64 ->
  num_get_uint (i ++ tl) = (x mod two64, mkStream tl (is_nil tl) false).
Proof.
  intros H Htl Hx. apply int_text_shape in H as (neg & ds & pre & -> & Hne & Hall & -> & Hs).
  unfold num_get_uint. rewrite (read_sign_shape neg ds pre tl Hne Hall Hs).
  rewrite read_digits_spec by assumption. pose proof (dval_nonneg ds 0 (Z.le_refl 0)) as P.
  destruct ds as [|c ds]; [congruence|]. cbn [List.length Nat.add].
  set (v := dval (c :: ds) 0) in *.
  assert (Hv : v < two64) by (unfold sgnv in Hx; destruct neg; lia).
  apply Z.ltb_lt in Hv as Hv'. rewrite Hv'. f_equal. unfold sgnv, u64. destruct neg; [reflexivity|].
  symmetry. apply Z.mod_small. lia.
Qed.

Lemma read_sign_inv l neg l1 : read_sign l = (neg, l1) ->
  exists pre, l = pre ++ l1 /\ ((neg = false /\ (pre = [] \/ pre = ["+"%char])) \/ (neg = true /\ pre = ["-"%char])).
Proof.
  destruct l as [|a l]; cbn [read_sign]; intros ES.
  - injection ES as <- <-. exists []. auto.
  - destruct (Ascii.eqb_spec a "-") as [->|N1].
    + injection ES as <- <-. exists ["-"%char]. auto.
    + destruct (Ascii.eqb_spec a "+") as [->|N2]; injection ES as <- <-; [exists ["+"%char]|exists []]; auto.
Qed.

Lemma num_get_uint_inv l v st :
  num_get_uint l = (v, st) -> failb st = false ->
  exists i x tl, l = i ++ tl /\ int_text i x /\ ~ starts_with_digit tl /\ Z.abs x < two64 /\ v = x mod two64 /\
    st = mkStream tl (is_nil tl) false.
Proof.
  unfold num_get_uint. destruct (read_sign l) as [neg l1] eqn:ES.
  destruct (split_digits l1) as (ds & tl & -> & Hds & Htl).
  rewrite read_digits_spec by assumption. cbn [Nat.add].
  destruct ds as [|c ds]; cbn [List.length].
  { intros H Hf. injection H as <- <-. discriminate. }
  pose proof (dval_nonneg (c :: ds) 0 (Z.le_refl 0)) as P. set (d := dval (c :: ds) 0) in *.
  destruct (Z.ltb_spec d two64) as [L|L]; intros H Hf; injection H as <- <-; [|discriminate].
  destruct (read_sign_inv _ _ _ ES) as (pre & -> & Hs).
  exists (pre ++ c :: ds), (sgnv neg d), tl. split; [now rewrite <- app_assoc|].
  split; [apply int_text_shape; exists neg, (c :: ds), pre; repeat split; auto; discriminate|].
  split; [assumption|]. split; [unfold sgnv; destruct neg; lia|]. split; [|reflexivity].
  unfold sgnv, u64. destruct neg; [reflexivity|]. symmetry. apply Z.mod_small. lia.
Qed.

(** The stream left by a successful extraction. *)
Definition after (tl : list ascii) : stream := mkStream tl (is_nil tl) false.

Lemma get_uint_ok old b i x tl : blanks b -> int_text i x -> ~ starts_with_digit tl -> Z.abs x < two64 ->
  get_uint old (after (b ++ i ++ tl)) = (x mod two64, after tl).
Proof.
  intros Hb Hi Htl Hx. unfold get_uint, sentry, after, good.
  destruct (int_text_head i x Hi) as (c & l' & E & Hc & _).
  assert (Nn : is_nil (b ++ i ++ tl) = false) by (rewrite E; destruct b; reflexivity).
  rewrite Nn. cbn [eofb failb negb andb rest].
  rewrite skip_ws_blanks by assumption.
  rewrite E. cbn [app]. rewrite skip_ws_head by assumption. cbn [rest].
  change (c :: l' ++ tl) with ((c :: l') ++ tl). rewrite <- E. now apply num_get_uint_ok.
Qed.

Lemma get_uint_inv old st v st' : get_uint old st = (v, st') -> failb st' = false ->
  eofb st = false /\ failb st = false /\ exists b i x tl, rest st = b ++ i ++ tl /\ blanks b /\ int_text i x /\
    ~ starts_with_digit tl /\ Z.abs x < two64 /\ v = x mod two64 /\ st' = after tl.
Proof.
  unfold get_uint, sentry, good. destruct st as [l e f]; cbn [rest eofb failb].
  destruct e, f; cbn [negb andb]; intros H Hf; try (injection H as <- <-; discriminate).
  split; [reflexivity|]. split; [reflexivity|].
  destruct (skip_ws_split l) as (b & E & Hb).
  destruct (skip_ws l) as [|c l'] eqn:EW; [injection H as <- <-; discriminate|].
  cbn [rest] in H. apply num_get_uint_inv in H as (i & x & tl & E2 & H2 & H3 & H4 & H5 & H6); [|assumption].
  exists b, i, x, tl. rewrite E, E2. auto 10.
Qed.

Lemma get_uint_failed old st : failb st = true -> failb (snd (get_uint old st)) = true.
Proof. intros H. unfold get_uint, sentry, good. rewrite H, andb_false_r. reflexivity. Qed.

Lemma numbers_step s v vs r : numbers s (v :: vs) r ->
  exists b i x t, s = b ++ i ++ t /\ blanks b /\ int_text i x /\ Z.abs x < two64 /\ ~ starts_with_digit t /\
    v = x mod two64 /\ numbers t vs r.
Proof. intros H. inversion H; subst. exists b, i, x, t. repeat split; auto. Qed.

Lemma mt_get_words_ok ws : forall s vs vs' r, List.length vs = List.length ws -> numbers s (vs ++ vs') r ->
  exists t, mt_get_words ws (after s) = (vs, after t) /\ numbers t vs' r.
Proof.
  induction ws as [|w ws IH]; intros s vs vs' r Hl H.
  - destruct vs; [|discriminate]. exists s. auto.
  - destruct vs as [|v vs]; [discriminate|]. injection Hl as Hl. cbn [app] in H.
    apply numbers_step in H as (b & i & x & t & -> & Hb & Hi & Hx & Ht & -> & Hn).
    cbn [mt_get_words]. rewrite (get_uint_ok w b i x t) by assumption.
    destruct (IH t vs vs' r Hl Hn) as (t' & E & Hn'). rewrite E. exists t'. auto.
Qed.

Lemma mt_get_words_failed ws : forall st, failb st = true -> failb (snd (mt_get_words ws st)) = true.
Proof.
  induction ws as [|w ws IH]; intros st H; [exact H|]. cbn [mt_get_words].
  pose proof (get_uint_failed w st H) as F. destruct (get_uint w st) as [v st1]. cbn [snd] in F.
  specialize (IH st1 F). destruct (mt_get_words ws st1) as [vs st2]. exact IH.
Qed.

Lemma mt_get_words_inv ws : forall st vs st', mt_get_words ws st = (vs, st') -> failb st' = false ->
  List.length vs = List.length ws /\ (ws = [] /\ st' = st \/ eofb st = false /\ failb st = false /\
    exists t, st' = after t /\ forall vs' r, numbers t vs' r -> numbers (rest st) (vs ++ vs') r).
Proof.
  induction ws as [|w ws IH]; intros st vs st' H Hf.
  - injection H as <- <-. auto.
  - cbn [mt_get_words] in H. destruct (get_uint w st) as [v st1] eqn:E.
    destruct (mt_get_words ws st1) as [vs1 st2] eqn:E2. injection H as <- <-.
    assert (F1 : failb st1 = false).
    { destruct (failb st1) eqn:F; [|reflexivity]. pose proof (mt_get_words_failed ws st1 F) as K. rewrite E2 in K. cbn [snd] in K. congruence. }
    destruct (IH _ _ _ E2 Hf) as (Hl & Hc).
    apply get_uint_inv in E as (He & Hfl & b & i & x & tl & Er & Hb & Hi & Htl & Hx & -> & ->); [|assumption].
    split; [cbn [List.length]; now rewrite Hl|]. right. split; [assumption|]. split; [assumption|].
    assert (S : forall vs' r, numbers tl vs' r -> numbers (rest st) (x mod two64 :: vs') r).
    { intros vs' r Hn. rewrite Er. now constructor. }
    destruct Hc as [[-> ->]|(_ & _ & t & -> & Hn)].
    + destruct vs1; [|discriminate]. exists tl. split; [reflexivity|]. intros vs' r Hn. now apply S.
    + exists t. split; [reflexivity|]. intros vs' r Hv. cbn [app]. apply S. now apply Hn.
Qed.

Lemma fresh_after s : s <> [] -> fresh s = after s.
Proof. destruct s; [congruence|reflexivity]. Qed.

Lemma numbers_nonempty s v vs r : numbers s (v :: vs) r -> s <> [].
Proof.
  intros H. apply numbers_step in H as (b & i & x & t & -> & _ & Hi & _).
  destruct (int_text_head i x Hi) as (c & l' & -> & _). destruct b; discriminate.
Qed.

Lemma mt_load_ok e s vs p r : List.length vs = List.length (mt_words e) -> numbers s (vs ++ [p]) r ->
  mt_load e s = (mkEngine vs p, Ok tt).
Proof.
  intros Hl Hn. unfold mt_load, mt_get.
  assert (Ns : s <> []) by (destruct vs; cbn [app] in Hn; eapply numbers_nonempty; exact Hn).
  rewrite (fresh_after s Ns).
  destruct (mt_get_words_ok _ _ _ _ _ Hl Hn) as (t & -> & Ht).
  apply numbers_step in Ht as (b & i & x & t' & -> & Hb & Hi & Hx & Htl & -> & _).
  rewrite (get_uint_ok _ b i x t') by assumption. reflexivity.
Qed.

Lemma mt_load_inv e s e' : mt_load e s = (e', Ok tt) ->
  List.length (mt_words e') = List.length (mt_words e) /\ exists r, numbers s (mt_words e' ++ [mt_pos e']) r.
Proof.
  unfold mt_load, mt_get. destruct (mt_get_words (mt_words e) (fresh s)) as [vs st1] eqn:E.
  destruct (get_uint (mt_pos e) st1) as [p st2] eqn:E2. cbn [failb].
  destruct (failb st2) eqn:F; [discriminate|]. intros [= <-]. cbn [mt_words mt_pos].
  apply get_uint_inv in E2 as (He & Hf & b & i & x & tl & Er & Hb & Hi & Htl & Hx & -> & ->); [|assumption].
  destruct (mt_get_words_inv _ _ _ _ E Hf) as (Hl & Hc). split; [exact Hl|]. exists tl.
  assert (N : numbers (rest st1) [x mod two64] tl) by (rewrite Er; apply nums_cons; auto; constructor).
  destruct Hc as [[Ew ->]|(_ & _ & t & -> & Hn)].
  - rewrite Ew in Hl. destruct vs; [|discriminate]. exact N.
  - apply Hn. exact N.
Qed.

Lemma mt_load_throws e s : snd (mt_load e s) = Ok tt \/ snd (mt_load e s) = Throw ExInvalidArgument.
Proof. unfold mt_load. destruct (mt_get e (fresh s)) as [e' st]. cbn [snd]. destruct (failb st); auto. Qed.

Lemma space_no_digit t : ~ starts_with_digit (" "%char :: t).
Proof. rewrite starts_with_digit_cons. discriminate. Qed.

Lemma put_int_number z t vs r : 0 <= z < two64 -> ~ starts_with_digit t -> numbers t vs r ->
  numbers (put_int z ++ t) (z :: vs) r.
Proof.
  intros Hz Ht Hn. rewrite <- (Z.mod_small z two64) at 2 by assumption.
  apply (nums_cons [] (put_int z) z t vs r); auto; [constructor|apply put_int_text|].
  change (2 ^ 64) with two64. lia.
Qed.

Lemma numbers_blank s v vs r : numbers s (v :: vs) r -> numbers (" "%char :: s) (v :: vs) r.
Proof.
  intros H. apply numbers_step in H as (b & i & x & t & -> & Hb & Hi & Hx & Ht & -> & Hn).
  apply (nums_cons (" "%char :: b) i x t vs r); auto. constructor; [cbn; auto|exact Hb].
Qed.

Lemma mt_put_numbers e : Forall (fun w => 0 <= w < two64) (mt_words e) -> 0 <= mt_pos e < two64 ->
  numbers (mt_put e) (mt_words e ++ [mt_pos e]) [].
Proof.
  destruct e as [ws p]. cbn [mt_words mt_pos]. intros Hw Hp. unfold mt_put. cbn [mt_words mt_pos].
  induction Hw as [|w ws Hw Hws IH]; cbn [flat_map app].
  - rewrite <- (app_nil_r (put_int p)). apply put_int_number; [exact Hp|apply starts_with_digit_nil|constructor].
  - rewrite <- !app_assoc. cbn [app]. apply put_int_number; [exact Hw|apply space_no_digit|].
    destruct ws as [|w' ws]; cbn [app] in *; now apply numbers_blank.
Qed.
