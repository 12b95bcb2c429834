(** Lemmas about the printing of doubles. *)
From Coq Require Import ZArith Reals List Bool Ascii Lia Lra.
From Flocq Require Import Core Relative.
From Flocq Require Import IEEE754.BinarySingleNaN.
From Verif Require Import Base F64 S_Rational M_Text M_Obs S_Obs M_Fmt S_Fmt L_Text L_Obs L_Space.
Import ListNotations.
Open Scope Z_scope.

Lemma digits10_zero f : digits10_ f 0 = 0.
Proof. destruct f; reflexivity. Qed.

Lemma digits10_fuel f : forall n, 0 <= n < 2 ^ Z.of_nat f -> let d := digits10_ f n in 0 <= d /\ n < 10 ^ d /\ (0 < n -> 1 <= d /\ 10 ^ (d - 1) <= n).
Proof.
  induction f as [|f IH]; intros n Hn; cbn [digits10_].
  - cbn in Hn. cbn. lia.
  - destruct (Z.leb_spec n 0); [cbn; lia|]. rewrite Nat2Z.inj_succ, Z.pow_succ_r in Hn by lia.
    assert (Q : 0 <= n / 10 < 2 ^ Z.of_nat f) by (split; [apply Z.div_pos; lia|apply Z.div_lt_upper_bound; lia]).
    destruct (IH _ Q) as (D0 & D1 & D2).
    pose proof (Z.div_mod n 10 ltac:(lia)) as M. pose proof (Z.mod_pos_bound n 10 ltac:(lia)) as B.
    destruct (Z.eq_dec (n / 10) 0) as [E|N].
    + rewrite E, digits10_zero in *. cbn. lia.
    + destruct D2 as [D2 D3]; [lia|]. set (d := digits10_ f (n / 10)) in *. clearbody d.
      rewrite Z.pow_add_r by lia. split; [lia|]. split; [lia|]. intros _. split; [lia|]. replace (1 + d - 1) with (1 + (d - 1)) by lia.
      rewrite Z.pow_add_r by lia. lia.
Qed.

Lemma digits10_spec n : 0 <= n -> let d := digits10 n in 0 <= d /\ n < 10 ^ d /\ (0 < n -> 1 <= d /\ 10 ^ (d - 1) <= n).
Proof.
  intros H. apply digits10_fuel. split; [exact H|]. pose proof (Z.log2_nonneg n). rewrite Z2Nat.id by lia.
  destruct (Z.eq_dec n 0) as [->|N]; [reflexivity|]. apply Z.log2_spec. lia.
Qed.

Lemma ten_Z e : 0 <= e -> bpow ten e = IZR (10 ^ e).
Proof. intros H. symmetry. exact (IZR_Zpower ten e H). Qed.

Lemma dec_exp_spec num den : 0 < num -> 0 < den -> let k := dec_exp num den in (bpow ten k <= IZR num / IZR den < bpow ten (k + 1))%R.
Proof.
  intros Hn Hd. unfold dec_exp. assert (Rn : (0 < IZR num)%R) by now apply IZR_lt. assert (Rd : (0 < IZR den)%R) by now apply IZR_lt.
  destruct (Z.leb_spec den num) as [L|L].
  - pose proof (Z.div_mod num den ltac:(lia)) as M. pose proof (Z.mod_pos_bound num den ltac:(lia)) as B.
    assert (Q : 1 <= num / den) by (apply Z.div_le_lower_bound; lia).
    destruct (digits10_spec (num / den)) as (D0 & D1 & D2); [lia|]. destruct D2 as [D2 D3]; [lia|]. cbv zeta.
    set (d := digits10 (num / den)) in *. clearbody d. set (q := num / den) in *. clearbody q. rewrite Z.sub_add, !ten_Z by lia. split.
    + apply Rmult_le_reg_r with (IZR den); [exact Rd|]. unfold Rdiv. rewrite Rmult_assoc, Rinv_l, Rmult_1_r, <- mult_IZR by lra. apply IZR_le. nia.
    + apply Rmult_lt_reg_r with (IZR den); [exact Rd|]. unfold Rdiv. rewrite Rmult_assoc, Rinv_l, Rmult_1_r, <- mult_IZR by lra. apply IZR_lt. nia.
  - pose proof (Z.div_mod (den - 1) num ltac:(lia)) as M. pose proof (Z.mod_pos_bound (den - 1) num ltac:(lia)) as B.
    assert (Q : 1 <= (den - 1) / num) by (apply Z.div_le_lower_bound; lia).
    destruct (digits10_spec ((den - 1) / num)) as (D0 & D1 & D2); [lia|]. destruct D2 as [D2 D3]; [lia|]. cbv zeta.
    set (d := digits10 ((den - 1) / num)) in *. clearbody d. set (q := (den - 1) / num) in *. clearbody q.
    replace (- d + 1) with (- (d - 1)) by lia. rewrite !bpow_opp, !ten_Z by lia.
    assert (P1 : (0 < IZR (10 ^ d))%R) by (apply IZR_lt; lia). assert (P2 : (0 < IZR (10 ^ (d - 1)))%R) by (apply IZR_lt; lia). split.
    + apply Rmult_le_reg_r with (IZR den * IZR (10 ^ d))%R; [now apply Rmult_lt_0_compat|].
      replace (/ IZR (10 ^ d) * (IZR den * IZR (10 ^ d)))%R with (IZR den) by (field; lra).
      replace (IZR num / IZR den * (IZR den * IZR (10 ^ d)))%R with (IZR num * IZR (10 ^ d))%R by (field; lra). rewrite <- mult_IZR. apply IZR_le. nia.
    + apply Rmult_lt_reg_r with (IZR den * IZR (10 ^ (d - 1)))%R; [now apply Rmult_lt_0_compat|].
      replace (/ IZR (10 ^ (d - 1)) * (IZR den * IZR (10 ^ (d - 1))))%R with (IZR den) by (field; lra).
      replace (IZR num / IZR den * (IZR den * IZR (10 ^ (d - 1))))%R with (IZR num * IZR (10 ^ (d - 1)))%R by (field; lra). rewrite <- mult_IZR. apply IZR_lt. nia.
Qed.

Lemma nearest_even_spec a b : 0 < b -> ZnearestE (IZR a / IZR b) = nearest_even a b.
Proof.
  intros Hb. assert (Rb : (0 < IZR b)%R) by now apply IZR_lt. unfold Znearest, nearest_even. rewrite Zfloor_div by lia.
  pose proof (Z.div_mod a b ltac:(lia)) as M. pose proof (Z.mod_pos_bound a b ltac:(lia)) as B. set (q := a / b) in *. set (r := a mod b) in *.
  assert (E : (IZR a / IZR b - IZR q = IZR r / IZR b)%R) by (rewrite M, plus_IZR, mult_IZR; field; lra). rewrite E.
  assert (C : r <> 0 -> Zceil (IZR a / IZR b) = q + 1).
  { intros Hr. apply Zceil_imp. replace (q + 1 - 1) with q by lia. replace (IZR a / IZR b)%R with (IZR q + IZR r / IZR b)%R by lra. rewrite plus_IZR.
    assert (0 < IZR r)%R by (apply IZR_lt; lia). assert (IZR r < IZR b)%R by (apply IZR_lt; lia).
    assert (0 < IZR r / IZR b)%R by (apply Rdiv_lt_0_compat; lra).
    assert (IZR r / IZR b < 1)%R by (apply Rmult_lt_reg_r with (IZR b); [lra|]; unfold Rdiv; rewrite Rmult_assoc, Rinv_l by lra; lra). lra. }
  assert (H2 : forall x y, (x < y)%R -> (x / IZR b < y / IZR b)%R) by (intros; unfold Rdiv; apply Rmult_lt_compat_r; [now apply Rinv_0_lt_compat|assumption]).
  assert (Hh : (/ 2 = IZR b / 2 / IZR b)%R) by (field; lra).
  destruct (Z.ltb_spec (2 * r) b) as [L|L].
  - rewrite Rcompare_Lt; [reflexivity|]. rewrite Hh. apply H2. apply IZR_lt in L. rewrite mult_IZR in L. lra.
  - destruct (Z.ltb_spec b (2 * r)) as [L'|L'].
    + rewrite Rcompare_Gt; [apply C; lia|]. rewrite Hh. apply H2. apply IZR_lt in L'. rewrite mult_IZR in L'. lra.
    + rewrite Rcompare_Eq.
      * destruct (Z.even q); cbn [negb]; [reflexivity|apply C; lia].
      * rewrite Hh. f_equal. assert (Eb : b = 2 * r) by lia. rewrite Eb at 1. rewrite mult_IZR. field.
Qed.

(** Rounding to p+1 significant decimal digits, ties to even. *)
Definition rnd10 (p : Z) (x : R) : R := round ten (FLX_exp (p + 1)) ZnearestE x.

Lemma sci_digits_spec p num den : 0 <= p -> 0 < num -> 0 < den -> let '(n, k) := sci_digits p num den in
  10 ^ p <= n < 10 ^ (p + 1) /\ (IZR n * bpow ten (k - p))%R = rnd10 p (IZR num / IZR den).
Proof.
  intros Hp Hn Hd. unfold sci_digits. pose proof (dec_exp_spec num den Hn Hd) as K. cbv zeta in K. set (k := dec_exp num den) in *. clearbody k.
  assert (Rn : (0 < IZR num)%R) by now apply IZR_lt. assert (Rd : (0 < IZR den)%R) by now apply IZR_lt.
  set (x := (IZR num / IZR den)%R) in *. assert (Px : (0 < x)%R) by (apply Rdiv_lt_0_compat; lra).
  set (n := if p <=? k then _ else _).
  assert (N : n = ZnearestE (x * bpow ten (p - k))).
  { unfold n. destruct (Z.leb_spec p k) as [L|L].
    - rewrite <- nearest_even_spec by (apply Z.mul_pos_pos; [lia|apply Z.pow_pos_nonneg; lia]). f_equal. unfold x.
      replace (p - k) with (- (k - p)) by lia. rewrite bpow_opp, ten_Z, mult_IZR by lia. field. split; apply IZR_neq; [apply Z.pow_nonzero; lia|lia].
    - rewrite <- nearest_even_spec by lia. f_equal. unfold x. rewrite ten_Z, mult_IZR by lia. field. apply IZR_neq. lia. }
  clearbody n.
  assert (B : 10 ^ p <= n <= 10 ^ (p + 1)).
  { rewrite N. rewrite <- (Zrnd_IZR ZnearestE (10 ^ p)), <- (Zrnd_IZR ZnearestE (10 ^ (p + 1))). rewrite <- !ten_Z by lia. split; apply Zrnd_le; auto with typeclass_instances.
    - replace p with (k + (p - k)) at 1 by lia. rewrite bpow_plus. apply Rmult_le_compat_r; [apply bpow_ge_0|apply K].
    - replace (p + 1) with (k + 1 + (p - k)) by lia. rewrite bpow_plus. apply Rmult_le_compat_r; [apply bpow_ge_0|]. apply Rlt_le, K. }
  assert (M : mag ten x = k + 1 :> Z) by (apply mag_unique_pos; replace (k + 1 - 1) with k by lia; exact K).
  assert (R : rnd10 p x = (IZR n * bpow ten (k - p))%R).
  { unfold rnd10, round, F2R, scaled_mantissa, cexp, FLX_exp. rewrite M. cbn [Fnum Fexp]. replace (k + 1 - (p + 1)) with (k - p) by lia.
    replace (- (k - p)) with (p - k) by lia. now rewrite <- N. }
  destruct (Z.eqb_spec n (10 ^ (p + 1))) as [E|E].
  - split; [rewrite Z.pow_add_r by lia; assert (0 < 10 ^ p) by (apply Z.pow_pos_nonneg; lia); lia|]. rewrite R, E, <- !ten_Z, <- !bpow_plus by lia. f_equal. lia.
  - split; [lia|]. now rewrite R.
Qed.

(** The value and sign of a finite double. *)
Lemma finite_value s m e B : RR (B754_finite s m e B) = ((if s then - 1 else 1) * (IZR (Z.pos m * 2 ^ Z.max e 0) / IZR (2 ^ Z.max (- e) 0)))%R.
Proof.
  unfold RR. cbn [B2R]. unfold F2R. cbn [Fnum Fexp].
  assert (E : bpow radix2 e = (IZR (2 ^ Z.max e 0) / IZR (2 ^ Z.max (- e) 0))%R).
  { destruct (Z_le_gt_dec 0 e) as [H|H].
    - rewrite Z.max_l, Z.max_r by lia. rewrite <- (IZR_Zpower radix2) by exact H. cbn. field.
    - rewrite Z.max_r, Z.max_l by lia. rewrite <- (Z.opp_involutive e) at 1. rewrite bpow_opp, <- (IZR_Zpower radix2) by lia. cbn [Z.pow]. unfold Rdiv. rewrite Rmult_1_l. reflexivity. }
  rewrite E, mult_IZR. destruct s; cbn [cond_Zopp]; [change (Z.neg m) with (- Z.pos m); rewrite opp_IZR|]; unfold Rdiv; ring.
Qed.

Lemma rnd10_opp p x : rnd10 p (- x) = (- rnd10 p x)%R.
Proof. apply round_NE_opp. Qed.
Lemma rnd10_0 p : rnd10 p 0 = 0%R.
Proof. unfold rnd10. apply round_0. auto with typeclass_instances. Qed.

(** ** Digits as text *)
Lemma put_digits_length w : forall n, length (put_digits w n) = w.
Proof. induction w as [|w IH]; intros n; [reflexivity|]. cbn [put_digits]. rewrite app_length, IH. cbn [length]. lia. Qed.

Lemma digit_ascii d : 0 <= d < 10 -> digit_char (ascii_of_nat (Z.to_nat (48 + d))) d.
Proof.
  intros H. assert (d = 0 \/ d = 1 \/ d = 2 \/ d = 3 \/ d = 4 \/ d = 5 \/ d = 6 \/ d = 7 \/ d = 8 \/ d = 9) as C by lia.
  unfold digit_char. split; [|lia]. repeat (destruct C as [->|C]; [reflexivity|]). subst d. reflexivity.
Qed.

Lemma put_digits_text w : forall n, (0 < w)%nat -> 0 <= n < 10 ^ Z.of_nat w -> digits_text (put_digits w n) n.
Proof.
  induction w as [|w IH]; intros n Hw Hn; [lia|]. cbn [put_digits].
  pose proof (Z.div_mod n 10 ltac:(lia)) as M. pose proof (Z.mod_pos_bound n 10 ltac:(lia)) as B. destruct w as [|w].
  - cbn in Hn. cbn [put_digits app]. rewrite (Z.mod_small n 10) by lia. apply dt_one, digit_ascii. lia.
  - rewrite M at 3. apply dt_more; [|now apply digit_ascii]. apply IH; [lia|]. rewrite (Nat2Z.inj_succ (S w)), Z.pow_succ_r in Hn by lia.
    split; [apply Z.div_pos; lia|apply Z.div_lt_upper_bound; lia].
Qed.

Lemma put_digits_split w : forall v n, put_digits (v + w) n = put_digits v (n / 10 ^ Z.of_nat w) ++ put_digits w n.
Proof.
  induction w as [|w IH]; intros v n.
  - rewrite Nat.add_0_r, Z.div_1_r. cbn [put_digits]. now rewrite app_nil_r.
  - rewrite Nat.add_succ_r. cbn [put_digits]. rewrite IH, Z.div_div by lia. rewrite (Nat2Z.inj_succ w), Z.pow_succ_r by lia. now rewrite app_assoc.
Qed.

Lemma put_int_digits z : 0 <= z -> digits_text (put_int z) z.
Proof.
  intros H. pose proof (put_int_text z) as T. inversion T as [l v D E1 E2|l v D E1 E2|l v D E1 E2]; subst; [exact D| |].
  - exfalso. unfold put_int in E1. destruct (Z.to_int z) as [u|u]; [|discriminate E1]. pose proof (uint_chars_digits u) as F. rewrite <- E1 in F. inversion F as [|? ? F1 _]; subst. discriminate F1.
  - exfalso. unfold put_int in E1. destruct (Z.to_int (- v)) as [u|u] eqn:Eu.
    + pose proof (uint_chars_digits u) as F. rewrite <- E1 in F. inversion F as [|? ? F1 _]; subst. discriminate F1.
    + injection E1 as E1. destruct v as [|v|v]; cbn in Eu; try discriminate Eu. lia.
Qed.

Lemma digits_text_zero l v : digits_text l v -> digits_text ("0"%char :: l) v.
Proof.
  intros D. apply digits_text_spec in D as (Ne & F & ->). apply digits_text_spec. split; [discriminate|]. split; [constructor; [reflexivity|exact F]|].
  unfold dval. cbn [fold_left]. reflexivity.
Qed.

Lemma put_exponent_text k : exponent_text (put_exponent k) k.
Proof.
  unfold put_exponent, exponent_text. set (ds := if Z.abs k <? 10 then _ else _).
  assert (D : digits_text ds (Z.abs k) /\ (2 <= length ds)%nat).
  { unfold ds. pose proof (put_int_digits (Z.abs k) ltac:(lia)) as T. destruct (Z.ltb_spec (Z.abs k) 10) as [L|L].
    - split; [now apply digits_text_zero|]. cbn [length]. apply digits_text_spec in T as (Ne & _). destruct (put_int (Z.abs k)); [now elim Ne|cbn [length]; lia].
    - split; [exact T|]. apply digits_text_spec in T as (Ne & F & E). destruct (put_int (Z.abs k)) as [|c [|c' l]]; [now elim Ne| |cbn [length]; lia].
      exfalso. unfold dval in E. cbn [fold_left] in E. unfold dig in E. destruct (digit c) as [d|] eqn:Ed; [|lia]. apply digit_range in Ed. lia. }
  destruct D as [D D2]. exists ds, (Z.abs k). split; [exact D|]. split; [exact D2|]. destruct (Z.ltb_spec k 0); [right|left]; split; auto; lia.
Qed.

Lemma put_sci_text p s n k : 0 <= p -> 0 <= n < 10 ^ (p + 1) -> sci_text p (put_sci p s n k) s n k.
Proof.
  intros Hp Hn. unfold put_sci.
  pose proof (put_digits_split (Z.to_nat p) 1 n) as S. rewrite Z2Nat.id in S by exact Hp.
  pose proof (put_digits_length 1 (n / 10 ^ p)) as L1. destruct (put_digits 1 (n / 10 ^ p)) as [|c [|]]; try discriminate L1.
  exists c, (put_digits (Z.to_nat p) n), (put_exponent k). split; [reflexivity|]. split; [rewrite put_digits_length; lia|]. split; [|apply put_exponent_text].
  change (c :: put_digits (Z.to_nat p) n) with ([c] ++ put_digits (Z.to_nat p) n). rewrite <- S. apply put_digits_text; [lia|].
  replace (Z.of_nat (1 + Z.to_nat p)) with (p + 1) by lia. exact Hn.
Qed.

(** The main fact: the text is a numeral for the correctly rounded value. *)
Lemma fmt_sci_spec p x : 0 <= p -> fin x -> exists n k, sci_text p (fmt_sci p x) (Bsign x) n k /\
  sci_value p (Bsign x) n k = rnd10 p (RR x) /\ (RR x = 0%R -> n = 0 /\ k = 0) /\ (RR x <> 0%R -> 10 ^ p <= n < 10 ^ (p + 1)).
Proof.
  intros Hp Fx. destruct x as [s|s| |s m e B]; try discriminate Fx.
  - exists 0, 0. split; [apply put_sci_text; [exact Hp|]; split; [lia|apply Z.pow_pos_nonneg; lia]|]. cbn [Bsign]. change (RR (B754_zero s)) with 0%R.
    split; [rewrite rnd10_0; unfold sci_value; ring|]. split; [auto|]. intros N. now elim N.
  - pose proof (sci_digits_spec p (Z.pos m * 2 ^ Z.max e 0) (2 ^ Z.max (- e) 0) Hp) as D. cbn [fmt_sci Bsign].
    assert (P1 : 0 < Z.pos m * 2 ^ Z.max e 0) by (apply Z.mul_pos_pos; [lia|apply Z.pow_pos_nonneg; lia]). assert (P2 : 0 < 2 ^ Z.max (- e) 0) by (apply Z.pow_pos_nonneg; lia).
    specialize (D P1 P2). destruct (sci_digits _ _ _) as [n k]. destruct D as [Bn V]. exists n, k.
    split; [apply put_sci_text; [exact Hp|]; assert (0 < 10 ^ p) by (apply Z.pow_pos_nonneg; lia); lia|].
    rewrite finite_value. set (q := (IZR (Z.pos m * 2 ^ Z.max e 0) / IZR (2 ^ Z.max (- e) 0))%R) in *.
    assert (Q : (0 < q)%R) by (apply Rdiv_lt_0_compat; now apply IZR_lt). split.
    + unfold sci_value. rewrite V. destruct s; [|now rewrite !Rmult_1_l].
      replace (-1 * q)%R with (- q)%R by ring. rewrite rnd10_opp. ring.
    + split; [|auto]. intros E. exfalso. destruct s; lra.
Qed.

(** ** Numerals denote one value *)
Lemma digits_text_fun l v w : digits_text l v -> digits_text l w -> v = w.
Proof. intros A B. apply digits_text_spec in A as (_ & _ & ->). apply digits_text_spec in B as (_ & _ & ->). reflexivity. Qed.

Lemma exponent_fun l k k' : exponent_text l k -> exponent_text l k' -> k = k'.
Proof.
  intros (ds & v & D & _ & [[-> ->]|[-> ->]]) (ds' & v' & D' & _ & [[E ->]|[E ->]]); try discriminate E; injection E as <-.
  - eapply digits_text_fun; eassumption.
  - f_equal. eapply digits_text_fun; eassumption.
Qed.

Definition no_e (l : list ascii) : Prop := ~ In "e"%char l.
Lemma split_e a b c d : no_e a -> no_e c -> a ++ "e"%char :: b = c ++ "e"%char :: d -> a = c /\ b = d.
Proof.
  revert c. induction a as [|x a IH]; intros [|y c] Ha Hc E.
  - injection E as ->. auto.
  - injection E as <- _. elim Hc. now left.
  - injection E as -> _. elim Ha. now left.
  - injection E as -> E. destruct (IH c) as [-> ->]; auto; intros I; [apply Ha|apply Hc]; now right.
Qed.

Lemma digits_no_e l : Forall (fun c => is_digit c = true) l -> no_e l.
Proof. intros F I. rewrite Forall_forall in F. specialize (F _ I). discriminate F. Qed.

Lemma sci_text_fun p l s n k p' s' n' k' : sci_text p l s n k -> sci_text p' l s' n' k' -> p = p' /\ s = s' /\ n = n' /\ k = k'.
Proof.
  intros (c & fr & ex & E & L & D & X) (c' & fr' & ex' & E' & L' & D' & X'). rewrite E in E'. clear E l.
  pose proof D as D0. pose proof D' as D0'. apply digits_text_spec in D0 as (_ & F & _). apply digits_text_spec in D0' as (_ & F' & _).
  inversion F as [|? ? Fc Fr]; subst. inversion F' as [|? ? Fc' Fr']; subst.
  assert (S : s = s').
  { destruct s, s'; auto; cbn [app] in E'.
    - injection E' as <- _. discriminate Fc'.
    - injection E' as -> _. discriminate Fc. }
  subst s'. apply app_inv_head in E'. injection E' as <- E'.
  set (p := Z.of_nat (length fr)) in *. set (p' := Z.of_nat (length fr')) in *.
  assert (G : fr = fr' /\ ex = ex').
  { destruct (Z.eqb_spec p 0) as [P|P]; destruct (Z.eqb_spec p' 0) as [P'|P']; cbn [app] in E'.
    - injection E' as ->. destruct fr, fr'; try discriminate; auto.
    - discriminate E'.
    - discriminate E'.
    - injection E' as E'. apply split_e in E'; [exact E'|now apply digits_no_e|now apply digits_no_e]. }
  destruct G as [<- <-]. split; [reflexivity|]. split; [reflexivity|]. split; [eapply digits_text_fun; eassumption|eapply exponent_fun; eassumption].
Qed.

Lemma denotes_fun l v w : denotes l v -> denotes l w -> v = w.
Proof. intros (p & s & n & k & T & ->) (p' & s' & n' & k' & T' & ->). destruct (sci_text_fun _ _ _ _ _ _ _ _ _ T T') as (-> & -> & -> & ->). reflexivity. Qed.

Lemma fmt_sci_denotes p x : 0 <= p -> fin x -> denotes (fmt_sci p x) (rnd10 p (RR x)).
Proof. intros Hp Fx. destruct (fmt_sci_spec p x Hp Fx) as (n & k & T & V & _). exists p, (Bsign x), n, k. auto. Qed.

(** ** Nearest decimals *)
Lemma decimal_format p v : 0 <= p -> (decimal p v <-> generic_format ten (FLX_exp (p + 1)) v).
Proof.
  intros Hp. assert (PG : Prec_gt_0 (p + 1)) by (red; lia). split.
  - intros (n & k & B & ->). apply generic_format_FLX. exists (Float ten n k); [reflexivity|exact B].
  - intros G. apply FLX_format_generic in G; [|exact PG]. destruct G as [f -> B]. destruct f as [n k]. exists n, k. split; [exact B|reflexivity].
Qed.

Lemma rnd10_nearest p x : 0 <= p -> nearest_decimal p x (rnd10 p x).
Proof.
  intros Hp. assert (PG : Prec_gt_0 (p + 1)) by (red; lia).
  destruct (round_N_pt ten (FLX_exp (p + 1)) (fun z => negb (Z.even z)) x) as [F N]. split; [now apply decimal_format|].
  intros w D. apply N. now apply decimal_format.
Qed.

Lemma rnd10_error p x : 0 <= p -> (Rabs (rnd10 p x - x) <= / 2 * bpow ten (- p) * Rabs x)%R.
Proof.
  intros Hp. assert (PG : Prec_gt_0 (p + 1)) by (red; lia). pose proof (relative_error_N_FLX ten (p + 1) PG (fun z => negb (Z.even z)) x) as E.
  replace (- (p + 1) + 1) with (- p) in E by lia. exact E.
Qed.

Lemma rnd10_le p x y : 0 <= p -> (x <= y)%R -> (rnd10 p x <= rnd10 p y)%R.
Proof. intros Hp H. assert (PG : Prec_gt_0 (p + 1)) by (red; lia). apply round_le; auto with typeclass_instances. Qed.

Lemma rnd10_exact p x : 0 <= p -> decimal p x -> rnd10 p x = x.
Proof. intros Hp D. apply round_generic; auto with typeclass_instances. now apply decimal_format. Qed.

(** ** Seventeen digits tell doubles apart *)
Lemma rnd10_pos_inj p x y : 16 <= p -> fmt x -> fmt y -> (0 <= x)%R -> (x < y)%R -> rnd10 p x <> rnd10 p y.
Proof.
  intros Hp Fx Fy Px L E. pose proof (rnd10_error p x ltac:(lia)) as Ex. pose proof (rnd10_error p y ltac:(lia)) as Ey. rewrite E in Ex.
  rewrite (Rabs_pos_eq x Px) in Ex. rewrite (Rabs_pos_eq y) in Ey by lra.
  set (v := rnd10 p y) in *. clearbody v.
  assert (T : (bpow ten (- p) <= / 10000000000000000)%R).
  { apply Rle_trans with (bpow ten (- 16)); [apply bpow_le; lia|]. cbn. lra. }
  pose proof (bpow_gt_0 ten (- p)) as T0. set (t := bpow ten (- p)) in *. clearbody t.
  assert (D : (y - x <= / 2 * t * (x + y))%R).
  { apply Rabs_le_inv in Ex, Ey. nra. }
  assert (G : (x * / 9007199254740992 < y - x)%R).
  { pose proof (ulp_FLT_gt radix2 (-1074) 53 x) as U. rewrite (Rabs_pos_eq x Px) in U.
    assert (S : (succ radix2 (FLT_exp (-1074) 53) x <= y)%R) by (apply succ_le_lt; auto with typeclass_instances).
    rewrite succ_eq_pos in S by exact Px. change (bpow radix2 (- (53))) with (/ 9007199254740992)%R in U. lra. }
  assert (T1 : (t * x <= / 10000000000000000 * x)%R) by (apply Rmult_le_compat_r; lra).
  assert (T2 : (t * y <= / 10000000000000000 * y)%R) by (apply Rmult_le_compat_r; lra).
  lra.
Qed.

Lemma sci_text_head p l s n k : sci_text p l s n k ->
  exists c r, is_digit c = true /\ l = (if s then ["-"%char] else []) ++ c :: r.
Proof.
  intros (c & fr & ex & -> & _ & D & _). exists c, ((if p =? 0 then [] else "."%char :: fr) ++ "e"%char :: ex). split; [|reflexivity].
  apply digits_text_spec in D as (_ & F & _). now inversion F.
Qed.

Lemma fmt_sci_fin_inj p x y : 16 <= p -> fin x -> fin y -> fmt_sci p x = fmt_sci p y -> x = y.
Proof.
  intros Hp Fx Fy E. destruct (fmt_sci_spec p x ltac:(lia) Fx) as (n & k & T & V & _). destruct (fmt_sci_spec p y ltac:(lia) Fy) as (n' & k' & T' & V' & _).
  rewrite E in T. destruct (sci_text_fun _ _ _ _ _ _ _ _ _ T T') as (_ & S & -> & ->). rewrite S in V.
  assert (Q : rnd10 p (RR x) = rnd10 p (RR y)) by congruence. clear V V' T T' E n' k'.
  apply (B2R_Bsign_inj 53 1024 x y Fx Fy); [|exact S]. change (RR x = RR y).
  assert (W : forall a b, fmt a -> fmt b -> (0 <= a)%R -> (0 <= b)%R -> rnd10 p a = rnd10 p b -> a = b).
  { intros a b Fa Fb Pa Pb Eab. destruct (Rtotal_order a b) as [L|[L|L]]; [|exact L|]; exfalso.
    - now apply (rnd10_pos_inj p a b).
    - apply (rnd10_pos_inj p b a); auto. }
  assert (Sg : forall z, fin z -> if Bsign z then (RR z <= 0)%R else (0 <= RR z)%R).
  { intros [s|s| |s m e B] Fz; try discriminate Fz; cbn [Bsign].
    - unfold RR. cbn. destruct s; lra.
    - rewrite finite_value. assert (0 < IZR (Z.pos m * 2 ^ Z.max e 0) / IZR (2 ^ Z.max (- e) 0))%R.
      { apply Rdiv_lt_0_compat; apply IZR_lt; [apply Z.mul_pos_pos; [lia|]|]; apply Z.pow_pos_nonneg; lia. }
      destruct s; lra. }
  pose proof (Sg x Fx) as Sx. pose proof (Sg y Fy) as Sy. rewrite S in Sx. destruct (Bsign y).
  - rewrite <- (Ropp_involutive (RR x)), <- (Ropp_involutive (RR y)). f_equal. apply W; try lra; try (apply generic_format_opp, fmt_RR). rewrite !rnd10_opp. now f_equal.
  - apply W; auto using fmt_RR.
Qed.

Lemma fmt_sci_other p x y : 0 <= p -> fin x -> ~ fin y -> fmt_sci p x <> fmt_sci p y.
Proof.
  intros Hp Fx Fy E. destruct (fmt_sci_spec p x Hp Fx) as (n & k & T & _). apply sci_text_head in T as (c & r & D & T). rewrite E in T.
  destruct y as [s|s| |s m e B]; try (elim Fy; reflexivity); cbn in T.
  - destruct s, (Bsign x); cbn in T; try discriminate T; injection T as <- _; discriminate D.
  - destruct (Bsign x); cbn in T; try discriminate T; injection T as <- _; discriminate D.
Qed.

Lemma fmt_sci_inj p x y : 16 <= p -> fmt_sci p x = fmt_sci p y -> x = y.
Proof.
  intros Hp E. destruct (is_finite x) eqn:Fx; destruct (is_finite y) eqn:Fy.
  - now apply (fmt_sci_fin_inj p).
  - exfalso. apply (fmt_sci_other p x y); auto; [lia|]. unfold fin. congruence.
  - exfalso. apply (fmt_sci_other p y x); auto; [lia|]. unfold fin. congruence.
  - destruct x as [s|s| |s m e B]; try discriminate Fx; destruct y as [s'|s'| |s' m' e' B']; try discriminate Fy; try destruct s; try destruct s'; try discriminate E; reflexivity.
Qed.

(** ** No separators *)
Lemma put_digits_clean w : forall n, clean (put_digits w n).
Proof.
  induction w as [|w IH]; intros n; [split; intros []|]. cbn [put_digits]. destruct (IH (n / 10)) as [A B].
  assert (D : is_digit (ascii_of_nat (Z.to_nat (48 + n mod 10))) = true).
  { pose proof (digit_ascii (n mod 10) (Z.mod_pos_bound n 10 ltac:(lia))) as D. apply dt_one, digits_text_spec in D as (_ & F & _). now inversion F. }
  apply digit_clean in D as [D1 D2]. split; intros I; apply in_app_or in I as [I|[I|[]]]; auto.
Qed.

Lemma clean_app a b : clean a -> clean b -> clean (a ++ b).
Proof. intros [A B] [C D]. split; intros I; apply in_app_or in I as [I|I]; auto. Qed.
Lemma clean_cons c l : c <> comma -> c <> newline -> clean l -> clean (c :: l).
Proof. intros A B [C D]. split; intros [I|I]; auto. Qed.

Lemma put_exponent_clean k : clean (put_exponent k).
Proof.
  unfold put_exponent. apply clean_cons; [destruct (k <? 0); discriminate|destruct (k <? 0); discriminate|].
  destruct (Z.abs k <? 10); [apply clean_cons; try discriminate|]; apply put_int_clean.
Qed.
Lemma put_sci_clean p s n k : clean (put_sci p s n k).
Proof.
  unfold put_sci. apply clean_app; [destruct s; [apply clean_cons; try discriminate|]; split; intros []|]. apply clean_app; [apply put_digits_clean|].
  apply clean_app; [destruct (p =? 0); [split; intros []|apply clean_cons; try discriminate; apply put_digits_clean]|].
  apply clean_cons; try discriminate. apply put_exponent_clean.
Qed.
Lemma fmt_sci_clean p x : clean (fmt_sci p x).
Proof.
  destruct x as [s|s| |s m e B]; cbn [fmt_sci].
  - apply put_sci_clean.
  - destruct s; repeat (apply clean_cons; try discriminate); split; intros [].
  - repeat (apply clean_cons; try discriminate). split; intros [].
  - destruct (sci_digits _ _ _) as [n k]. apply put_sci_clean.
Qed.

(** ** Ratios in three digits *)
Lemma ratio_print r c q : fin r -> 0 <= c -> 0 < q <= 2 ^ 53 -> RR r = rnd (IZR c / IZR q) ->
  exists v, denotes (fmt_sci 3 r) v /\ let e := (IZR c / IZR q)%R in (Rabs (v - e) <= / 1999 * e)%R.
Proof.
  intros F Hc Hq E. exists (rnd10 3 (RR r)). split; [apply fmt_sci_denotes; [lia|exact F]|]. cbv zeta.
  assert (Q : (0 < IZR q)%R) by (apply IZR_lt; lia). set (e := (IZR c / IZR q)%R) in *.
  destruct (Z.eq_dec c 0) as [->|N].
  - assert (E0 : e = 0%R) by (unfold e; field; lra). rewrite E, E0, rnd_0, rnd10_0, Rminus_0_r, Rabs_R0. lra.
  - assert (P : (/ IZR q <= e)%R).
    { unfold e, Rdiv. rewrite <- (Rmult_1_l (/ IZR q)) at 1. apply Rmult_le_compat_r; [left; now apply Rinv_0_lt_compat|]. apply (IZR_le 1). lia. }
    assert (P2 : (bpow radix2 (-53) <= / IZR q)%R).
    { change (bpow radix2 (-53)) with (/ IZR (2 ^ 53))%R. apply Rinv_le; [exact Q|]. apply IZR_le. lia. }
    assert (P3 : (bpow radix2 (-1022) <= bpow radix2 (-53))%R) by (apply bpow_le; lia).
    pose proof (bpow_gt_0 radix2 (-53)).
    assert (R1 : (Rabs (rnd e - e) <= uro * Rabs e)%R) by (apply rnd_rel; rewrite Rabs_pos_eq; lra).
    pose proof (rnd10_error 3 (RR r) ltac:(lia)) as R2. rewrite E in *. rewrite (Rabs_pos_eq e) in R1 by lra.
    assert (B : (bpow ten (- (3)) = / 1000)%R) by (cbn; lra). rewrite B in R2.
    assert (U : (uro <= / 1000000000)%R) by (rewrite uro_val; lra). pose proof uro_pos.
    assert (U2 : (uro * e <= / 1000000000 * e)%R) by (apply Rmult_le_compat_r; lra).
    apply Rabs_le_inv in R1. rewrite (Rabs_pos_eq (rnd e)) in R2 by lra. apply Rabs_le_inv in R2. apply Rabs_le. lra.
Qed.
