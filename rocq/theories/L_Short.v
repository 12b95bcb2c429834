(** Lemmas about the shortest text of a double. *)
From Coq Require Import ZArith Reals List Bool Ascii Lia Lra.
From Flocq Require Import Core Relative.
From Flocq Require Import IEEE754.BinarySingleNaN.
From Verif Require Import Base F64 S_Rational M_Text M_Util M_Obs S_Obs M_Fmt S_Fmt M_Short S_LatticeF S_Short L_Text L_Obs L_Space L_Fmt.
Import ListNotations.
Open Scope Z_scope.

(** ** Reading *)
Lemma two_Z e : bpow radix2 e = (IZR (2 ^ Z.max e 0) / IZR (2 ^ Z.max (- e) 0))%R.
Proof.
  destruct (Z_le_gt_dec 0 e) as [H|H].
  - rewrite Z.max_l, Z.max_r by lia. rewrite <- (IZR_Zpower radix2) by exact H. cbn. field.
  - rewrite Z.max_r, Z.max_l by lia. rewrite <- (Z.opp_involutive e) at 1. rewrite bpow_opp, <- (IZR_Zpower radix2) by lia. cbn [Z.pow]. unfold Rdiv. rewrite Rmult_1_l. reflexivity.
Qed.
Lemma ten_ZZ e : bpow ten e = (IZR (10 ^ Z.max e 0) / IZR (10 ^ Z.max (- e) 0))%R.
Proof.
  destruct (Z_le_gt_dec 0 e) as [H|H].
  - rewrite Z.max_l, Z.max_r by lia. rewrite <- (IZR_Zpower ten) by exact H. cbn. field.
  - rewrite Z.max_r, Z.max_l by lia. rewrite <- (Z.opp_involutive e) at 1. rewrite bpow_opp, <- (IZR_Zpower ten) by lia. cbn [Z.pow]. unfold Rdiv. rewrite Rmult_1_l. reflexivity.
Qed.
Lemma pow2_pos e : 0 < 2 ^ Z.max e 0.
Proof. apply Z.pow_pos_nonneg; lia. Qed.
Lemma pow10_pos e : 0 < 10 ^ Z.max e 0.
Proof. apply Z.pow_pos_nonneg; lia. Qed.
Lemma pow2_R e : (0 < IZR (2 ^ Z.max e 0))%R.
Proof. apply IZR_lt, pow2_pos. Qed.
Lemma pow10_R e : (0 < IZR (10 ^ Z.max e 0))%R.
Proof. apply IZR_lt, pow10_pos. Qed.

Lemma bin_exp_spec num den : 0 < num -> 0 < den -> let k := bin_exp num den in (bpow radix2 k <= IZR num / IZR den < bpow radix2 (k + 1))%R.
Proof.
  intros Hn Hd. unfold bin_exp. assert (Rn : (0 < IZR num)%R) by now apply IZR_lt. assert (Rd : (0 < IZR den)%R) by now apply IZR_lt.
  pose proof (Z.log2_spec num Hn) as Ln. pose proof (Z.log2_spec den Hd) as Ld. pose proof (Z.log2_nonneg num) as N1. pose proof (Z.log2_nonneg den) as N2.
  set (a := Z.log2 num) in *. set (b := Z.log2 den) in *. clearbody a b. set (j := a - b).
  assert (Hln : (bpow radix2 a <= IZR num < bpow radix2 (a + 1))%R).
  { rewrite <- !(IZR_Zpower radix2) by lia. split; [apply IZR_le|apply IZR_lt]; apply Ln. }
  assert (Hld : (bpow radix2 b <= IZR den < bpow radix2 (b + 1))%R).
  { rewrite <- !(IZR_Zpower radix2) by lia. split; [apply IZR_le|apply IZR_lt]; apply Ld. }
  assert (Q : forall u w, (u * IZR den <= w -> u <= w / IZR den)%R).
  { intros u w H. apply Rmult_le_reg_r with (IZR den); [exact Rd|]. unfold Rdiv. rewrite Rmult_assoc, Rinv_l by lra. lra. }
  assert (Q' : forall u w, (w < u * IZR den -> w / IZR den < u)%R).
  { intros u w H. apply Rmult_lt_reg_r with (IZR den); [exact Rd|]. unfold Rdiv. rewrite Rmult_assoc, Rinv_l by lra. lra. }
  assert (C : den * 2 ^ Z.max j 0 <= num * 2 ^ Z.max (- j) 0 <-> (bpow radix2 j * IZR den <= IZR num)%R).
  { rewrite (two_Z j). pose proof (pow2_R j) as P1. pose proof (pow2_R (- j)) as P2. set (u := 2 ^ Z.max j 0) in *. set (w := 2 ^ Z.max (- j) 0) in *. clearbody u w.
    split; intros H.
    - apply IZR_le in H. rewrite !mult_IZR in H. apply Rmult_le_reg_r with (IZR w); [exact P2|].
      replace (IZR u / IZR w * IZR den * IZR w)%R with (IZR den * IZR u)%R by (field; lra). exact H.
    - apply le_IZR. rewrite !mult_IZR. apply Rmult_le_compat_r with (r := IZR w) in H; [|lra].
      replace (IZR u / IZR w * IZR den * IZR w)%R with (IZR den * IZR u)%R in H by (field; lra). exact H. }
  destruct (Z.leb_spec (den * 2 ^ Z.max j 0) (num * 2 ^ Z.max (- j) 0)) as [L|L]; cbv zeta.
  - split; [apply Q, C, L|]. apply Q'. apply Rlt_le_trans with (bpow radix2 (a + 1)); [apply Hln|]. replace (a + 1) with (j + 1 + b) by (unfold j; lia). rewrite (bpow_plus radix2 (j + 1) b).
    apply Rmult_le_compat_l; [apply bpow_ge_0|apply Hld].
  - split.
    + apply Q. apply Rle_trans with (bpow radix2 a); [|apply Hln]. replace a with (j - 1 + (b + 1)) by (unfold j; lia). rewrite (bpow_plus radix2 (j - 1) (b + 1)).
      apply Rmult_le_compat_l; [apply bpow_ge_0|]. apply Rlt_le, Hld.
    + replace (j - 1 + 1) with j by lia. apply Q'. apply Rnot_le_lt. intros H. apply C in H. lia.
Qed.

Lemma read_bin_spec num den : 0 < num -> 0 < den -> let '(m, e) := read_bin num den in (IZR m * bpow radix2 e)%R = rnd (IZR num / IZR den).
Proof.
  intros Hn Hd. unfold read_bin. pose proof (bin_exp_spec num den Hn Hd) as K. cbv zeta in K. set (k := bin_exp num den) in *. clearbody k.
  assert (Rd : (0 < IZR den)%R) by now apply IZR_lt.
  assert (M : mag radix2 (IZR num / IZR den) = k + 1 :> Z) by (apply mag_unique_pos; replace (k + 1 - 1) with k by lia; exact K).
  unfold rnd, round, F2R, scaled_mantissa, cexp, FLT_exp. rewrite M. cbn [Fnum Fexp]. replace (k + 1 - 53) with (k - 52) by lia.
  set (e := Z.max (k - 52) (-1074)). clearbody e. f_equal. f_equal.
  pose proof (pow2_pos e) as P1. pose proof (pow2_pos (- e)) as P2. pose proof (pow2_R e) as P3. pose proof (pow2_R (- e)) as P4.
  rewrite <- nearest_even_spec by (apply Z.mul_pos_pos; lia). f_equal. rewrite (two_Z (- e)), Z.opp_involutive, !mult_IZR. field. lra.
Qed.

Lemma reads_as_spec num den c j : 0 < den -> 0 < c -> reads_as num den c j = true <-> rnd (IZR c * bpow ten j) = (IZR num / IZR den)%R.
Proof.
  intros Hd Hc. unfold reads_as. pose proof (pow10_pos j) as T1. pose proof (pow10_pos (- j)) as T2. pose proof (pow10_R (- j)) as T3.
  pose proof (read_bin_spec (c * 10 ^ Z.max j 0) (10 ^ Z.max (- j) 0) ltac:(now apply Z.mul_pos_pos) T2) as R.
  destruct (read_bin _ _) as [m e]. replace (IZR (c * 10 ^ Z.max j 0) / IZR (10 ^ Z.max (- j) 0))%R with (IZR c * bpow ten j)%R in R by (rewrite ten_ZZ, mult_IZR; field; lra).
  rewrite <- R, two_Z. assert (Rd : (0 < IZR den)%R) by now apply IZR_lt. pose proof (pow2_R (- e)) as P.
  set (u := 2 ^ Z.max e 0). set (w := 2 ^ Z.max (- e) 0) in *. clearbody u w. rewrite Z.eqb_eq. split; intros H.
  - apply (f_equal IZR) in H. rewrite !mult_IZR in H. apply Rmult_eq_reg_r with (IZR den * IZR w)%R; [|apply Rgt_not_eq; nra].
    replace (IZR m * (IZR u / IZR w) * (IZR den * IZR w))%R with (IZR m * IZR u * IZR den)%R by (field; lra).
    replace (IZR num / IZR den * (IZR den * IZR w))%R with (IZR num * IZR w)%R by (field; lra). exact H.
  - apply eq_IZR. rewrite !mult_IZR. apply Rmult_eq_compat_r with (r := (IZR den * IZR w)%R) in H.
    replace (IZR m * (IZR u / IZR w) * (IZR den * IZR w))%R with (IZR m * IZR u * IZR den)%R in H by (field; lra).
    replace (IZR num / IZR den * (IZR den * IZR w))%R with (IZR num * IZR w)%R in H by (field; lra). exact H.
Qed.

(** ** Seventeen digits are read back *)
Lemma near_reads x v : fmt x -> (0 < x)%R -> (Rabs (v - x) <= / 20000000000000000 * x)%R -> rnd v = x.
Proof.
  intros Fx Px Hv.
  assert (Fy : fmt (rnd v)) by (apply generic_format_round; auto with typeclass_instances).
  destruct (round_N_pt radix2 (FLT_exp (-1074) 53) (fun z => negb (Z.even z)) v) as [_ N]. specialize (N x Fx). change (round _ _ _ v) with (rnd v) in N.
  rewrite (Rabs_minus_sym x v) in N.
  assert (Pv : (0 <= v)%R) by (apply Rabs_le_inv in Hv; lra).
  assert (Py : (0 <= rnd v)%R) by now apply rnd_pos.
  set (y := rnd v) in *. clearbody y.
  assert (D : (Rabs (y - x) <= / 10000000000000000 * x)%R).
  { apply Rabs_le_inv in Hv. pose proof (Rle_trans _ _ _ N (Rabs_le _ _ Hv)) as N'. apply Rabs_le_inv in N'. apply Rabs_le. lra. }
  assert (G : forall a b, fmt a -> fmt b -> (0 <= a)%R -> (a < b)%R -> (a * / 9007199254740992 < b - a)%R).
  { intros a b Fa Fb Pa L. pose proof (ulp_FLT_gt radix2 (-1074) 53 a) as U. rewrite (Rabs_pos_eq a Pa) in U.
    assert (S : (succ radix2 (FLT_exp (-1074) 53) a <= b)%R) by (apply succ_le_lt; auto with typeclass_instances).
    rewrite succ_eq_pos in S by exact Pa. change (bpow radix2 (- (53))) with (/ 9007199254740992)%R in U. lra. }
  destruct (Rtotal_order y x) as [L|[L|L]]; [|exact L|]; exfalso; apply Rabs_le_inv in D.
  - pose proof (G y x Fy Fx Py L). lra.
  - pose proof (G x y Fx Fy ltac:(lra) L). lra.
Qed.

Lemma seventeen_read x : fmt x -> (0 < x)%R -> rnd (rnd10 16 x) = x.
Proof.
  intros Fx Px. apply near_reads; auto. pose proof (rnd10_error 16 x ltac:(lia)) as E. rewrite (Rabs_pos_eq x) in E by lra.
  assert (B : (bpow ten (- (16)) = / 10000000000000000)%R) by (cbn; lra). rewrite B in E. lra.
Qed.

(** ** The search *)
Section Search.
Context (num den : Z) (Hn : 0 < num) (Hd : 0 < den).
Let x := (IZR num / IZR den)%R.
Let k := dec_exp num den.
Context (Fx : fmt x).

Lemma x_pos : (0 < x)%R.
Proof. apply Rdiv_lt_0_compat; now apply IZR_lt. Qed.

(** Scaled so that p digits follow the point. *)
Let y (p : Z) := (x * bpow ten (p - k))%R.
Let val (p c : Z) := (IZR c * bpow ten (k - p))%R.
Let aa (p : Z) := num * 10 ^ Z.max (p - k) 0.
Let bb (p : Z) := den * 10 ^ Z.max (k - p) 0.

Lemma scaled p : (IZR (aa p) / IZR (bb p))%R = y p.
Proof.
  unfold y, aa, bb, x. rewrite (ten_ZZ (p - k)). replace (- (p - k)) with (k - p) by lia. rewrite !mult_IZR. pose proof (pow10_R (k - p)). field. split; [lra|]. apply IZR_neq. lia.
Qed.
Lemma bb_pos p : 0 < bb p.
Proof. apply Z.mul_pos_pos; [exact Hd|apply pow10_pos]. Qed.
Lemma floor_y p : aa p / bb p = Zfloor (y p).
Proof. rewrite <- scaled, Zfloor_div; [reflexivity|]. pose proof (bb_pos p). lia. Qed.
Lemma near_y p : nearest_even (aa p) (bb p) = ZnearestE (y p).
Proof. rewrite <- scaled. symmetry. apply nearest_even_spec, bb_pos. Qed.

Lemma mag_x : mag ten x = k + 1 :> Z.
Proof. apply mag_unique_pos. replace (k + 1 - 1) with k by lia. apply dec_exp_spec; assumption. Qed.
Lemma round_x (r : R -> Z) p : round ten (FLX_exp (p + 1)) r x = val p (r (y p)).
Proof.
  unfold round, F2R, scaled_mantissa, cexp, FLX_exp. rewrite mag_x. cbn [Fnum Fexp]. unfold val, y. replace (k + 1 - (p + 1)) with (k - p) by lia. now replace (- (k - p)) with (p - k) by lia.
Qed.
Lemma y_ge p : (bpow ten p <= y p)%R.
Proof.
  unfold y. replace p with (k + (p - k)) at 1 by lia. rewrite bpow_plus. apply Rmult_le_compat_r; [apply bpow_ge_0|]. apply (dec_exp_spec num den Hn Hd).
Qed.
Lemma y_lt p : (y p < bpow ten (p + 1))%R.
Proof.
  unfold y. replace (p + 1) with (k + 1 + (p - k)) by lia. rewrite bpow_plus. apply Rmult_lt_compat_r; [apply bpow_gt_0|]. apply (dec_exp_spec num den Hn Hd).
Qed.
Lemma floor_range p : 0 <= p -> 10 ^ p <= Zfloor (y p) < 10 ^ (p + 1).
Proof.
  intros Hp. split.
  - apply Zfloor_lub. rewrite <- ten_Z by exact Hp. apply y_ge.
  - apply lt_IZR. rewrite <- ten_Z by lia. apply Rle_lt_trans with (y p); [apply Zfloor_lb|apply y_lt].
Qed.

Lemma val_y p : val p 1 = bpow ten (k - p) /\ x = (y p * bpow ten (k - p))%R.
Proof.
  split; [unfold val; ring|]. unfold y. rewrite Rmult_assoc, <- bpow_plus. replace (p - k + (k - p)) with 0 by lia. cbn. ring.
Qed.

(** The two candidates. *)
Let c1 (p : Z) := nearest_even (aa p) (bb p).
Let c2 (p : Z) := 2 * (aa p / bb p) + 1 - c1 p.
Lemma candidates p : c1 p = Zfloor (y p) /\ c2 p = Zfloor (y p) + 1 \/ c1 p = Zfloor (y p) + 1 /\ c2 p = Zfloor (y p) /\ Zceil (y p) = Zfloor (y p) + 1.
Proof.
  unfold c2. assert (C : c1 p = ZnearestE (y p)) by apply near_y. rewrite C, floor_y.
  destruct (Req_dec (IZR (Zfloor (y p))) (y p)) as [E|E].
  - left. assert (ZnearestE (y p) = Zfloor (y p)) as ->; [|lia]. rewrite <- E at 1. apply (Zrnd_IZR ZnearestE).
  - pose proof (Zceil_floor_neq _ E) as U. destruct (Znearest_DN_or_UP (fun z => negb (Z.even z)) (y p)) as [->| ->]; [left|right]; lia.
Qed.

Lemma cand_pos p c : 0 <= p -> c = c1 p \/ c = c2 p -> 10 ^ p <= c <= 10 ^ (p + 1).
Proof. intros Hp H. pose proof (floor_range p Hp). destruct (candidates p) as [[A B]|(A & B & _)]; lia. Qed.
Lemma pow10_p p : 0 <= p -> 0 < 10 ^ p.
Proof. intros. apply Z.pow_pos_nonneg; lia. Qed.

Lemma read_cand p c : 0 <= p -> c = c1 p \/ c = c2 p -> reads_as num den c (k - p) = true <-> rnd (val p c) = x.
Proof. intros Hp H. apply reads_as_spec; [exact Hd|]. pose proof (cand_pos p c Hp H). pose proof (pow10_p p Hp). lia. Qed.

Lemma val_le p c d : c <= d -> (val p c <= val p d)%R.
Proof. intros H. apply Rmult_le_compat_r; [apply bpow_ge_0|now apply IZR_le]. Qed.

Lemma between a b : (a <= b <= x)%R \/ (x <= b <= a)%R -> rnd a = x -> rnd b = x.
Proof.
  intros H E. assert (X : rnd x = x) by now apply rnd_fmt. destruct H as [[A B]|[A B]]; apply rnd_le in A, B; rewrite X in *; lra.
Qed.

(** A decimal number that is read as x lies beyond one of the candidates. *)
Lemma below p w : 0 <= p -> decimal p w -> (w <= x)%R -> (w <= val p (Zfloor (y p)) <= x)%R.
Proof.
  intros Hp D L. assert (PG : Prec_gt_0 (p + 1)) by (red; lia). apply decimal_format in D; [|exact Hp].
  destruct (round_DN_pt ten (FLX_exp (p + 1)) x) as (_ & A & B). rewrite round_x in A, B. auto.
Qed.
Lemma above p w : 0 <= p -> decimal p w -> (x <= w)%R -> (x <= val p (Zceil (y p)) <= w)%R.
Proof.
  intros Hp D L. assert (PG : Prec_gt_0 (p + 1)) by (red; lia). apply decimal_format in D; [|exact Hp].
  destruct (round_UP_pt ten (FLX_exp (p + 1)) x) as (_ & A & B). rewrite round_x in A, B. auto.
Qed.
Lemma ceil_cases p : Zceil (y p) = Zfloor (y p) + 1 \/ val p (Zfloor (y p)) = x /\ c1 p = Zfloor (y p).
Proof.
  destruct (Req_dec (IZR (Zfloor (y p))) (y p)) as [E|E].
  - right. split.
    + unfold val. rewrite E. symmetry. apply val_y.
    + unfold c1. rewrite near_y. rewrite <- E at 1. apply (Zrnd_IZR ZnearestE).
  - left. now apply Zceil_floor_neq.
Qed.

Lemma nearest_c1 p : 0 <= p -> val p (c1 p) = rnd10 p x.
Proof. intros Hp. unfold c1. rewrite near_y. unfold rnd10. now rewrite round_x. Qed.

(** What the search returns. *)
Definition good (p c : Z) : Prop :=
  rnd (val p c) = x /\ 0 <= p <= 16 /\ 10 ^ p <= c <= 10 ^ (p + 1) /\
  forall w, decimal p w -> rnd w = x -> (Rabs (val p c - x) <= Rabs (w - x))%R.
Definition none (p : Z) : Prop := forall w, decimal p w -> rnd w <> x.

Lemma good_c1 p : 0 <= p <= 16 -> rnd (val p (c1 p)) = x -> good p (c1 p).
Proof.
  intros Hp E. split; [exact E|]. split; [exact Hp|]. split; [apply cand_pos; [lia|now left]|]. intros w D _. rewrite nearest_c1 by lia. apply rnd10_nearest; [lia|exact D].
Qed.
Lemma good_c2 p : 0 <= p <= 16 -> rnd (val p (c1 p)) <> x -> rnd (val p (c2 p)) = x -> good p (c2 p).
Proof.
  intros Hp N E. split; [exact E|]. split; [exact Hp|]. split; [apply cand_pos; [lia|now right]|]. intros w D W.
  destruct (candidates p) as [[A B]|(A & B & C)].
  - destruct (ceil_cases p) as [C|[C _]]; [|exfalso; apply N; rewrite A, C; now apply rnd_fmt].
    destruct (Rle_or_lt w x) as [L|L]; [exfalso; apply N; rewrite A; apply (between w); [left; now apply below; [lia|..]|exact W]|].
    pose proof (above p w ltac:(lia) D ltac:(lra)) as Ab. rewrite C, <- B in Ab. rewrite !Rabs_pos_eq by lra. lra.
  - destruct (Rle_or_lt x w) as [L|L]; [exfalso; apply N; rewrite A, <- C; apply (between w); [right; now apply above; [lia|..]|exact W]|].
    pose proof (below p w ltac:(lia) D ltac:(lra)) as Be. rewrite <- B in Be. rewrite !Rabs_left1 by lra. lra.
Qed.
Lemma none_both p : 0 <= p -> rnd (val p (c1 p)) <> x -> rnd (val p (c2 p)) <> x -> none p.
Proof.
  intros Hp N1 N2 w D W.
  assert (Lo : rnd (val p (Zfloor (y p))) <> x) by (destruct (candidates p) as [[<- _]|(_ & <- & _)]; assumption).
  assert (Up : rnd (val p (Zceil (y p))) <> x).
  { destruct (ceil_cases p) as [->|[E _]]; [|elim Lo; rewrite E; now apply rnd_fmt]. destruct (candidates p) as [[_ <-]|(<- & _)]; assumption. }
  destruct (Rle_or_lt w x) as [L|L].
  - apply Lo. apply (between w); [left; now apply below|exact W].
  - apply Up. apply (between w); [right; apply above; auto; lra|exact W].
Qed.

Lemma search f : forall p, 0 <= p -> p + Z.of_nat f = 16 -> (forall q, 0 <= q < p -> none q) ->
  let '(r, c) := shortest_ f num den k p in good r c /\ forall q, 0 <= q < r -> none q.
Proof.
  induction f as [|f IH]; intros p Hp Hf Hq; cbn [shortest_]; fold (aa p) (bb p); fold (c1 p).
  - split; [|exact Hq]. assert (p = 16) as -> by lia. apply good_c1; [lia|]. rewrite nearest_c1 by lia. apply seventeen_read; [exact Fx|exact x_pos].
  - fold (c2 p). destruct (reads_as num den (c1 p) (k - p)) eqn:E1.
    + apply read_cand in E1; [|exact Hp|now left]. split; [|exact Hq]. apply good_c1; [lia|exact E1].
    + assert (N1 : rnd (val p (c1 p)) <> x) by (intros E; apply read_cand in E; [congruence|exact Hp|now left]).
      destruct (reads_as num den (c2 p) (k - p)) eqn:E2.
      * apply read_cand in E2; [|exact Hp|now right]. split; [|exact Hq]. apply good_c2; [lia|exact N1|exact E2].
      * assert (N2 : rnd (val p (c2 p)) <> x) by (intros E; apply read_cand in E; [congruence|exact Hp|now right]).
        apply IH; [lia|lia|]. intros q Hq'. destruct (Z.eq_dec q p) as [->|]; [now apply none_both|apply Hq; lia].
Qed.

Lemma shortest_spec : let '(p, n, j) := shortest num den in
  0 <= p <= 16 /\ 10 ^ p <= n < 10 ^ (p + 1) /\ let v := (IZR n * bpow ten (j - p))%R in
  rnd v = x /\ forall q w, 0 <= q -> decimal q w -> rnd w = x -> p <= q /\ (q = p -> (Rabs (v - x) <= Rabs (w - x))%R).
Proof.
  unfold shortest. fold k. pose proof (search 16 0 ltac:(lia) ltac:(lia) ltac:(lia)) as S. destruct (shortest_ 16 num den k 0) as [p c].
  destruct S as [(G1 & G2 & G3 & G4) Q].
  assert (G : forall v, v = val p c -> rnd v = x /\ forall q w, 0 <= q -> decimal q w -> rnd w = x -> p <= q /\ (q = p -> (Rabs (v - x) <= Rabs (w - x))%R)).
  { intros v ->. split; [exact G1|]. intros q w Hq D W. split; [|intros ->; now apply G4].
    destruct (Z_lt_ge_dec q p) as [L|L]; [|lia]. exfalso. now apply (Q q ltac:(lia) w). }
  pose proof (pow10_p p ltac:(lia)) as P. destruct (Z.eqb_spec c (10 ^ (p + 1))) as [E|E].
  - split; [exact G2|]. split; [rewrite Z.pow_add_r by lia; lia|]. apply G. rewrite E. unfold val. rewrite <- !ten_Z, <- !bpow_plus by lia. f_equal. lia.
  - split; [exact G2|]. split; [lia|]. now apply G.
Qed.
End Search.

(** ** Text *)
Lemma point_cons fr : (0 < length fr)%nat -> point fr = "."%char :: fr.
Proof. destruct fr; [cbn; lia|reflexivity]. Qed.

Lemma put_fixed_literal s w f n : 1 <= w -> 0 <= f -> 0 <= n < 10 ^ (w + f) -> literal (put_fixed s w f n) s n f 0.
Proof.
  intros Hw Hf Hn. exists (put_digits (Z.to_nat w) (n / 10 ^ f)), (put_digits (Z.to_nat f) n), []. rewrite app_nil_r.
  pose proof (put_digits_split (Z.to_nat f) (Z.to_nat w) n) as S. rewrite Z2Nat.id in S by exact Hf. split; [|split; [|split; [|split]]].
  - unfold put_fixed. do 2 f_equal. destruct (Z.eqb_spec f 0) as [->|N]; [reflexivity|]. rewrite point_cons; [reflexivity|]. rewrite put_digits_length. lia.
  - intros E. apply (f_equal (@length ascii)) in E. rewrite put_digits_length in E. cbn in E. lia.
  - rewrite put_digits_length. lia.
  - rewrite <- S. apply put_digits_text; [lia|]. rewrite Nat2Z.inj_add, !Z2Nat.id by lia. exact Hn.
  - now left.
Qed.

Lemma sci_literal p l s n k : sci_text p l s n k -> literal l s n p k.
Proof.
  intros (c & fr & ex & -> & L & D & X). exists [c], fr, ("e"%char :: ex). split; [|split; [discriminate|split; [exact L|split; [exact D|right; now exists ex]]]].
  f_equal. cbn [app]. f_equal. f_equal. destruct (Z.eqb_spec p 0) as [->|N]; [destruct fr; [reflexivity|discriminate L]|]. rewrite point_cons; [reflexivity|lia].
Qed.

Lemma put_short_spells d s p n k : 0 <= p -> 0 < n < 10 ^ (p + 1) ->
  spells (put_short d s p n k) s ((if s then -1 else 1) * (IZR n * bpow ten (k - p)))%R.
Proof.
  intros Hp Hn. unfold put_short. destruct ((k <? -4) || (16 <=? k)) eqn:O.
  - exists n, p, k. split; [apply sci_literal, put_sci_text; lia|reflexivity].
  - apply orb_false_iff in O as [O1 O2]. apply Z.ltb_ge in O1. apply Z.leb_gt in O2. set (f := if p <=? k then Z.b2z d else p - k).
    assert (F : 0 <= f /\ 0 <= k - p + f /\ (p <= k \/ f = p - k)) by (unfold f; destruct (Z.leb_spec p k), d; cbn; lia). clearbody f. destruct F as (F1 & F2 & F3).
    exists (n * 10 ^ (k - p + f)), f, 0. split.
    + apply put_fixed_literal; [lia|exact F1|]. assert (T : 0 < 10 ^ (k - p + f)) by (apply Z.pow_pos_nonneg; lia). split; [nia|].
      apply Z.lt_le_trans with (10 ^ (p + 1) * 10 ^ (k - p + f)); [nia|]. rewrite <- Z.pow_add_r by lia. apply Z.pow_le_mono_r; lia.
    + unfold literal_value. rewrite mult_IZR, <- ten_Z, Rmult_assoc, <- bpow_plus by lia. do 3 f_equal. lia.
Qed.

(** ** Literals have one reading *)
Lemma digits_prefix a : forall b c d, Forall (fun x => is_digit x = true) a -> Forall (fun x => is_digit x = true) c ->
  (forall x r, b = x :: r -> is_digit x = false) -> (forall x r, d = x :: r -> is_digit x = false) -> a ++ b = c ++ d -> a = c /\ b = d.
Proof.
  induction a as [|x a IH]; intros b [|z c] d Fa Fc Hb Hd E; cbn [app] in E.
  - auto.
  - inversion Fc; subst. specialize (Hb _ _ eq_refl). congruence.
  - inversion Fa; subst. specialize (Hd _ _ eq_refl). congruence.
  - injection E as -> E. inversion Fa; inversion Fc; subst. destruct (IH b c d) as [-> ->]; auto.
Qed.

Lemma exponent_part_head ex k : exponent_part ex k -> forall x r, ex = x :: r -> x = "e"%char.
Proof. intros [[-> _]|(e & -> & _)] x r E; [discriminate|now injection E]. Qed.
Lemma tail_head fr ex k : exponent_part ex k -> forall x r, point fr ++ ex = x :: r -> is_digit x = false.
Proof.
  intros X x r E. destruct fr as [|c fr]; cbn [point app] in E; [rewrite (exponent_part_head ex k X x r E); reflexivity|]. injection E as <- _. reflexivity.
Qed.
Lemma exponent_part_fun ex k k' : exponent_part ex k -> exponent_part ex k' -> k = k'.
Proof.
  intros [[-> ->]|(e & -> & X)] [[E ->]|(e' & E & X')]; try discriminate E; auto. injection E as <-. eapply exponent_fun; eassumption.
Qed.

Lemma literal_fun l s n f k s' n' f' k' : literal l s n f k -> literal l s' n' f' k' -> s = s' /\ n = n' /\ f = f' /\ k = k'.
Proof.
  intros (ip & fr & ex & E & Ne & L & D & X) (ip' & fr' & ex' & E' & Ne' & L' & D' & X'). rewrite E in E'. clear E l.
  pose proof D as D0. pose proof D' as D0'. apply digits_text_spec in D0 as (_ & F & _). apply digits_text_spec in D0' as (_ & F' & _).
  apply Forall_app in F as [Fi Ff]. apply Forall_app in F' as [Fi' Ff'].
  assert (S : s = s').
  { destruct ip as [|c ip]; [now elim Ne|]. destruct ip' as [|c' ip']; [now elim Ne'|]. inversion Fi; inversion Fi'; subst.
    destruct s, s'; auto; cbn [app] in E'; injection E' as E' _; subst; discriminate. }
  subst s'. apply app_inv_head in E'. apply digits_prefix in E'; auto; [|now apply tail_head with k|now apply tail_head with k']. destruct E' as [-> E'].
  assert (G : fr = fr' /\ ex = ex').
  { destruct fr as [|c fr], fr' as [|c' fr']; cbn [point app] in E'.
    - auto.
    - pose proof (exponent_part_head _ _ X _ _ E') as H. discriminate H.
    - symmetry in E'. pose proof (exponent_part_head _ _ X' _ _ E') as H. discriminate H.
    - injection E' as -> E'. change (c' :: fr) with ([c'] ++ fr). apply digits_prefix in E'.
      + destruct E' as [-> ->]. auto.
      + now inversion Ff.
      + now inversion Ff'.
      + intros x r H. now rewrite (exponent_part_head _ _ X _ _ H).
      + intros x r H. now rewrite (exponent_part_head _ _ X' _ _ H). }
  destruct G as [<- <-]. subst f f'. split; [reflexivity|]. split; [eapply digits_text_fun; eassumption|]. split; [reflexivity|eapply exponent_part_fun; eassumption].
Qed.

Lemma spells_fun l s v s' w : spells l s v -> spells l s' w -> s = s' /\ v = w.
Proof. intros (n & f & k & L & ->) (n' & f' & k' & L' & ->). destruct (literal_fun _ _ _ _ _ _ _ _ _ L L') as (-> & -> & -> & ->). auto. Qed.

(** ** The text of a finite double *)
Lemma decimal_opp p v : decimal p v -> decimal p (- v).
Proof. intros (n & k & B & ->). exists (- n), k. split; [now rewrite Z.abs_opp|]. rewrite opp_IZR. ring. Qed.

Lemma shortest_for_opp x v : shortest_for x v -> shortest_for (- x) (- v).
Proof.
  intros [R (p & Hp & D & M)]. split; [now rewrite rnd_opp, R|]. exists p. split; [exact Hp|]. split; [now apply decimal_opp|].
  intros q w Hq Dw W. destruct (M q (- w)%R Hq (decimal_opp _ _ Dw)) as [A B]; [rewrite rnd_opp, W; ring|]. split; [exact A|]. intros E.
  replace (- v - - x)%R with (- (v - x))%R by ring. rewrite Rabs_Ropp. replace (w - - x)%R with (- (- w - x))%R by ring. rewrite Rabs_Ropp. now apply B.
Qed.

Lemma fmt_short_spec d x : fin x -> exists v, spells (fmt_short d x) (Bsign x) v /\ shortest_for (RR x) v.
Proof.
  intros Fx. destruct x as [s|s| |s m e B]; try discriminate Fx; cbn [fmt_short Bsign].
  - exists 0%R. split.
    + exists 0, (Z.b2z d), 0. split; [|unfold literal_value; ring]. apply put_fixed_literal; [lia|destruct d; cbn; lia|]. split; [lia|]. apply Z.pow_pos_nonneg; destruct d; cbn; lia.
    + change (RR (B754_zero s)) with 0%R. split; [apply rnd_0|]. exists 0. split; [lia|]. split; [exists 0, 0; split; [reflexivity|ring]|]. intros q w Hq _ _. split; [exact Hq|].
      intros _. rewrite Rminus_0_r, Rabs_R0. apply Rabs_pos.
  - assert (P1 : 0 < Z.pos m * 2 ^ Z.max e 0) by (apply Z.mul_pos_pos; [lia|apply pow2_pos]). pose proof (pow2_pos (- e)) as P2.
    pose proof (fmt_RR (B754_finite s m e B)) as F. rewrite finite_value in *. set (q := (IZR (Z.pos m * 2 ^ Z.max e 0) / IZR (2 ^ Z.max (- e) 0))%R) in *.
    assert (Fq : fmt q) by (destruct s; [|now rewrite Rmult_1_l in F]; replace q with (- (-1 * q))%R by ring; now apply generic_format_opp).
    pose proof (shortest_spec _ _ P1 P2 Fq) as S. destruct (shortest _ _) as [[p n] j]. destruct S as (Hp & Hn & R & M). set (v := (IZR n * bpow ten (j - p))%R) in *.
    exists ((if s then -1 else 1) * v)%R. assert (T : 0 < 10 ^ p) by (apply Z.pow_pos_nonneg; lia). split; [apply put_short_spells; lia|].
    assert (G : shortest_for q v).
    { split; [exact R|]. exists p. split; [lia|]. split; [exists n, (j - p); split; [lia|reflexivity]|exact M]. }
    destruct s; [|now rewrite !Rmult_1_l]. replace (-1 * q)%R with (- q)%R by ring. replace (-1 * v)%R with (- v)%R by ring. now apply shortest_for_opp.
Qed.

Lemma literal_head l s n f k : literal l s n f k -> exists c r, is_digit c = true /\ l = (if s then ["-"%char] else []) ++ c :: r.
Proof.
  intros (ip & fr & ex & -> & Ne & _ & D & _). destruct ip as [|c ip]; [now elim Ne|]. exists c, (ip ++ point fr ++ ex). split; [|reflexivity].
  apply digits_text_spec in D as (_ & F & _). now inversion F.
Qed.

Lemma fmt_short_other d x y : fin x -> ~ fin y -> fmt_short d x <> fmt_short d y.
Proof.
  intros Fx Fy E. destruct (fmt_short_spec d x Fx) as (v & (n & f & k & T & _) & _). apply literal_head in T as (c & r & D & T). rewrite E in T.
  destruct y as [s|s| |s m e B]; try (elim Fy; reflexivity); cbn in T.
  - destruct s, (Bsign x); cbn in T; try discriminate T; injection T as <- _; discriminate D.
  - destruct (Bsign x); cbn in T; try discriminate T; injection T as <- _; discriminate D.
Qed.

Lemma fmt_short_inj d x y : fmt_short d x = fmt_short d y -> x = y.
Proof.
  intros E. destruct (is_finite x) eqn:Fx; destruct (is_finite y) eqn:Fy.
  - destruct (fmt_short_spec d x Fx) as (v & W & R & _). destruct (fmt_short_spec d y Fy) as (v' & W' & R' & _). rewrite E in W.
    destruct (spells_fun _ _ _ _ _ W W') as [S ->]. apply (B2R_Bsign_inj 53 1024 x y Fx Fy); [|exact S]. change (RR x = RR y). congruence.
  - exfalso. apply (fmt_short_other d x y); auto. unfold fin. congruence.
  - exfalso. apply (fmt_short_other d y x); auto. unfold fin. congruence.
  - destruct x as [s|s| |s m e B]; try discriminate Fx; destruct y as [s'|s'| |s' m' e' B']; try discriminate Fy; try destruct s; try destruct s'; try discriminate E; reflexivity.
Qed.

Lemma put_fixed_clean s w f n : clean (put_fixed s w f n).
Proof.
  unfold put_fixed. apply clean_app; [destruct s; [apply clean_cons; try discriminate|]; split; intros []|]. apply clean_app; [apply put_digits_clean|].
  destruct (f =? 0); [split; intros []|apply clean_cons; try discriminate; apply put_digits_clean].
Qed.
Lemma fmt_short_clean d x : clean (fmt_short d x).
Proof.
  destruct x as [s|s| |s m e B]; cbn [fmt_short].
  - apply put_fixed_clean.
  - destruct s; repeat (apply clean_cons; try discriminate); split; intros [].
  - repeat (apply clean_cons; try discriminate). split; intros [].
  - destruct (shortest _ _) as [[p n] k]. unfold put_short. destruct (_ || _); [apply put_sci_clean|apply put_fixed_clean].
Qed.

(** ** Files *)
Lemma site_rows_cell (f : f64 -> list ascii) c d n p i j : 0 <= d -> 0 <= i < n -> 0 <= j < d -> vsize (p i) = d ->
  exists x, vget (p i) j = Ok x /\ cell (site_rows f c d n p) (1 + i) (1 + j) = f x.
Proof.
  intros Hd Hi Hj Hp. unfold cell, site_rows. replace (Z.to_nat (1 + i)) with (S (Z.to_nat i)) by lia. replace (Z.to_nat (1 + j)) with (S (Z.to_nat j)) by lia. cbn [nth].
  set (g := fun i => put_int i :: map f (p i)). rewrite (nth_indep _ [] (g 0)) by (rewrite map_length, upto_length; lia).
  rewrite map_nth. rewrite upto_nth by lia. rewrite Z2Nat.id by lia. unfold g. cbn [nth].
  unfold vsize in Hp. destruct (nth_error (p i) (Z.to_nat j)) as [x|] eqn:E.
  - exists x. split; [rewrite <- (Z2Nat.id j) by lia; now apply vget_ok|]. apply map_nth_error with (f := f) in E. now apply nth_error_nth.
  - apply nth_error_None in E. lia.
Qed.

Lemma site_rows_inj (f : f64 -> list ascii) c d n p d' n' p' : (forall x y, f x = f y -> x = y) -> 0 <= n -> 0 <= n' ->
  site_rows f c d n p = site_rows f c d' n' p' -> n = n' /\ forall i, 0 <= i < n -> p i = p' i.
Proof.
  intros I Hn Hn' E. injection E as _ E.
  assert (N : n = n') by (apply (f_equal (@List.length _)) in E; rewrite !map_length, !upto_length in E; lia). subst n'. split; [reflexivity|]. intros i Hi.
  apply (f_equal (fun l => nth (Z.to_nat i) l [])) in E.
  set (g := fun i => put_int i :: map f (p i)) in E. set (g' := fun i => put_int i :: map f (p' i)) in E.
  rewrite (nth_indep _ [] (g 0)), (nth_indep _ [] (g' 0)) in E by (rewrite map_length, upto_length; lia). rewrite !map_nth in E.
  rewrite upto_nth, Z2Nat.id in E by lia. unfold g, g' in E. injection E as E. revert E. generalize (p i) (p' i). clear - I.
  induction l as [|x l IH]; intros [|y l'] E; try discriminate E; [reflexivity|]. injection E as Ex El. apply I in Ex. f_equal; auto.
Qed.

Lemma saved_holds d fs fname r c size dim p : 0 <= dim -> 0 <= size ->
  saved fs fname r (site_rows (fmt_short d) c dim size p) -> (forall i, 0 <= i < size -> vsize (p i) = dim) -> file_holds r fname size dim p.
Proof.
  intros Hd Hs (fs' & text & -> & E & _ & _ & T) Hp. exists fs', text. split; [reflexivity|]. split; [exact E|]. rewrite T. split.
  - unfold vsize, site_rows. cbn [List.length]. rewrite map_length, upto_length. lia.
  - intros i j Hi Hj. destruct (site_rows_cell (fmt_short d) c dim size p i j Hd Hi Hj (Hp i Hi)) as (x & Ex & ->). exists x. split; [exact Ex|].
    intros Fx. destruct (fmt_short_spec d x Fx) as (v & W & R & _). now exists v.
Qed.

Lemma saved_same d fs fs' fname s s' r r' c dim n p dim' n' p' : 0 <= n -> 0 <= n' ->
  saved fs fname s (site_rows (fmt_short d) c dim n p) -> saved fs' fname s' (site_rows (fmt_short d) c dim' n' p') ->
  s = Ok r -> s' = Ok r' -> r fname = r' fname -> n = n' /\ forall i, 0 <= i < n -> p i = p' i.
Proof.
  intros Hn Hn' (f1 & t1 & E1 & F1 & _ & _ & T1) (f2 & t2 & E2 & F2 & _ & _ & T2) -> -> E. injection E1 as <-. injection E2 as <-.
  assert (t1 = t2) as <- by congruence. apply (site_rows_inj (fmt_short d) c dim n p dim' n' p'); [exact (fmt_short_inj d)|exact Hn|exact Hn'|congruence].
Qed.

(** ** Seventeen digits *)
Lemma decimal_mono p q v : p <= q -> 0 <= p -> decimal p v -> decimal q v.
Proof. intros L Hp (n & k & B & ->). exists n, k. split; [|reflexivity]. eapply Z.lt_le_trans; [exact B|]. apply Z.pow_le_mono_r; lia. Qed.

Lemma seventeen_enough x : fmt x -> exists w, decimal 16 w /\ rnd w = x.
Proof.
  intros Fx. assert (D : forall z, decimal 16 (rnd10 16 z)) by (intros z; apply rnd10_nearest; lia).
  destruct (Rtotal_order x 0) as [L|[->|L]].
  - exists (- rnd10 16 (- x))%R. split; [apply decimal_opp, D|]. rewrite rnd_opp, seventeen_read; [ring|now apply generic_format_opp|lra].
  - exists 0%R. split; [exists 0, 0; split; [reflexivity|ring]|apply rnd_0].
  - exists (rnd10 16 x). split; [apply D|now apply seventeen_read].
Qed.

Lemma fmt_short_digits d x v s : fin x -> spells (fmt_short d x) s v -> decimal 16 v.
Proof.
  intros Fx W. destruct (fmt_short_spec d x Fx) as (v' & W' & R & p & Hp & D & M). destruct (spells_fun _ _ _ _ _ W W') as [_ ->].
  destruct (seventeen_enough (RR x) (fmt_RR x)) as (w & Dw & Rw). destruct (M 16 w ltac:(lia) Dw Rw) as [L _]. exact (decimal_mono p 16 v' L Hp D).
Qed.

(** ** Layout *)
Lemma put_digits_no_e w n : ~ In "e"%char (put_digits w n).
Proof.
  revert n. induction w as [|w IH]; intros n; [intros []|]. cbn [put_digits]. intros I. apply in_app_or in I as [I|[I|[]]]; [now apply IH in I|].
  pose proof (digit_ascii (n mod 10) (Z.mod_pos_bound n 10 ltac:(lia))) as D. apply dt_one, digits_text_spec in D as (_ & F & _). rewrite I in F. inversion F as [|? ? H]. discriminate H.
Qed.
Lemma put_fixed_no_e s w f n : ~ In "e"%char (put_fixed s w f n).
Proof.
  unfold put_fixed. intros I. apply in_app_or in I as [I|I]; [destruct s; [destruct I as [I|[]]; discriminate I|destruct I]|].
  apply in_app_or in I as [I|I]; [now apply put_digits_no_e in I|]. destruct (f =? 0); [destruct I|]. destruct I as [I|I]; [discriminate I|now apply put_digits_no_e in I].
Qed.
Lemma put_sci_e p s n k : In "e"%char (put_sci p s n k).
Proof. unfold put_sci. apply in_or_app. right. apply in_or_app. right. apply in_or_app. right. now left. Qed.

Lemma scientific_size p n k : 0 <= p -> 10 ^ p <= n < 10 ^ (p + 1) -> (bpow ten k <= IZR n * bpow ten (k - p) < bpow ten (k + 1))%R.
Proof.
  intros Hp [A B]. apply IZR_le in A. apply IZR_lt in B. rewrite <- ten_Z in A by exact Hp. rewrite <- ten_Z in B by lia. pose proof (bpow_gt_0 ten (k - p)). split.
  - replace k with (p + (k - p)) at 1 by lia. rewrite bpow_plus. apply Rmult_le_compat_r; lra.
  - replace (k + 1) with (p + 1 + (k - p)) by lia. rewrite bpow_plus. apply Rmult_lt_compat_r; lra.
Qed.

Lemma put_short_e d s p n k : 0 <= p -> 10 ^ p <= n < 10 ^ (p + 1) ->
  In "e"%char (put_short d s p n k) <-> ~ (bpow ten (-4) <= IZR n * bpow ten (k - p) < bpow ten 16)%R.
Proof.
  intros Hp Hn. destruct (scientific_size p n k Hp Hn) as [A B]. set (v := (IZR n * bpow ten (k - p))%R) in *. clearbody v. unfold put_short.
  destruct ((k <? -4) || (16 <=? k)) eqn:O.
  - split; [|intros _; apply put_sci_e]. intros _ [C D]. apply orb_true_iff in O as [O|O].
    + apply Z.ltb_lt in O. assert (bpow ten (k + 1) <= bpow ten (-4))%R by (apply bpow_le; lia). lra.
    + apply Z.leb_le in O. assert (bpow ten 16 <= bpow ten k)%R by (apply bpow_le; lia). lra.
  - split; [intros I; now apply put_fixed_no_e in I|]. intros N. exfalso. apply N. apply orb_false_iff in O as [O1 O2]. apply Z.ltb_ge in O1. apply Z.leb_gt in O2.
    assert (bpow ten (-4) <= bpow ten k)%R by (apply bpow_le; lia). assert (bpow ten (k + 1) <= bpow ten 16)%R by (apply bpow_le; lia). lra.
Qed.

Lemma shortest_last num den : 0 < num -> 0 < den -> fmt (IZR num / IZR den) -> let '(p, n, j) := shortest num den in n mod 10 <> 0 \/ p = 0.
Proof.
  intros Hn Hd F. pose proof (shortest_spec num den Hn Hd F) as S. destruct (shortest num den) as [[p n] j]. destruct S as (Hp & Bn & R & M).
  destruct (Z.eq_dec p 0) as [->|P]; [now right|left]. intros E.
  assert (Dn : n = 10 * (n / 10)) by (apply Z.div_exact in E; lia).
  destruct (M (p - 1) (IZR n * bpow ten (j - p))%R ltac:(lia)) as [L _]; [|exact R|lia].
  exists (n / 10), (j - p + 1). split.
  - replace (p - 1 + 1) with p by lia. rewrite Z.abs_eq by (apply Z.div_pos; lia). rewrite Z.pow_add_r in Bn by lia. lia.
  - rewrite Dn at 1. rewrite mult_IZR, (bpow_plus ten (j - p) 1). change (bpow ten 1) with 10%R. ring.
Qed.

Lemma fmt_short_layout d x v : fin x -> spells (fmt_short d x) (Bsign x) v ->
  (In "e"%char (fmt_short d x) <-> v <> 0%R /\ ~ (bpow ten (-4) <= Rabs v < bpow ten 16)%R) /\
  (d = false -> forall s n f k, literal (fmt_short d x) s n f k -> 0 < f -> n mod 10 <> 0).
Proof.
  intros Fx W. destruct x as [s|s| |s m e B]; try discriminate Fx; cbn [fmt_short Bsign] in *.
  - assert (L : literal (put_fixed s 1 (Z.b2z d) 0) s 0 (Z.b2z d) 0).
    { apply put_fixed_literal; [lia|destruct d; cbn; lia|]. split; [lia|]. apply Z.pow_pos_nonneg; destruct d; cbn; lia. }
    assert (V : spells (put_fixed s 1 (Z.b2z d) 0) s 0%R) by (exists 0, (Z.b2z d), 0; split; [exact L|unfold literal_value; ring]).
    destruct (spells_fun _ _ _ _ _ W V) as [_ ->]. split.
    + split; [intros I; now apply put_fixed_no_e in I|]. intros [N _]. now elim N.
    + intros -> s' n f k L' Hf. destruct (literal_fun _ _ _ _ _ _ _ _ _ L L') as (_ & _ & <- & _). cbn in Hf. lia.
  - assert (P1 : 0 < Z.pos m * 2 ^ Z.max e 0) by (apply Z.mul_pos_pos; [lia|apply pow2_pos]). pose proof (pow2_pos (- e)) as P2.
    pose proof (fmt_RR (B754_finite s m e B)) as F. rewrite finite_value in F. set (q := (IZR (Z.pos m * 2 ^ Z.max e 0) / IZR (2 ^ Z.max (- e) 0))%R) in *.
    assert (Fq : fmt q) by (destruct s; [|now rewrite Rmult_1_l in F]; replace q with (- (-1 * q))%R by ring; now apply generic_format_opp).
    pose proof (shortest_spec _ _ P1 P2 Fq) as S. pose proof (shortest_last _ _ P1 P2 Fq) as SL. destruct (shortest _ _) as [[p n] j]. destruct S as (Hp & Hn & _ & _).
    assert (T : 0 < 10 ^ p) by (apply Z.pow_pos_nonneg; lia).
    pose proof (put_short_spells d s p n j ltac:(lia) ltac:(lia)) as W'. destruct (spells_fun _ _ _ _ _ W W') as [_ ->].
    destruct (scientific_size p n j ltac:(lia) Hn) as [Lo _]. pose proof (bpow_gt_0 ten j) as Pj. set (u := (IZR n * bpow ten (j - p))%R) in *.
    assert (Au : Rabs ((if s then -1 else 1) * u) = u).
    { rewrite Rabs_mult, (Rabs_pos_eq u) by lra. destruct s; [rewrite Rabs_left1 by lra|rewrite Rabs_pos_eq by lra]; ring. }
    rewrite Au. split.
    + unfold u in *. rewrite (put_short_e d s p n j ltac:(lia) Hn). fold u in Lo |- *. clearbody u. split; [|tauto]. intros H. split; [|exact H]. destruct s; lra.
    + intros -> s' n' f' k' L'. unfold put_short in L'. destruct ((j <? -4) || (16 <=? j)).
      * pose proof (sci_literal _ _ _ _ _ (put_sci_text p s n j ltac:(lia) ltac:(lia))) as L. destruct (literal_fun _ _ _ _ _ _ _ _ _ L L') as (_ & <- & <- & _).
        intros Hf. destruct SL as [SL|SL]; [exact SL|lia].
      * set (f := if p <=? j then _ else _) in L'. assert (L : literal (put_fixed s (Z.max 1 (j + 1)) f (n * 10 ^ (j - p + f))) s (n * 10 ^ (j - p + f)) f 0).
        { assert (Ff : 0 <= f /\ 0 <= j - p + f /\ (p <= j \/ f = p - j)) by (unfold f; destruct (Z.leb_spec p j); cbn; lia). destruct Ff as (F1 & F2 & F3).
          apply put_fixed_literal; [lia|exact F1|]. assert (T2 : 0 < 10 ^ (j - p + f)) by (apply Z.pow_pos_nonneg; lia). split; [nia|].
          apply Z.lt_le_trans with (10 ^ (p + 1) * 10 ^ (j - p + f)); [nia|]. rewrite <- Z.pow_add_r by lia. apply Z.pow_le_mono_r; lia. }
        destruct (literal_fun _ _ _ _ _ _ _ _ _ L L') as (_ & <- & <- & _). unfold f. destruct (Z.leb_spec p j) as [H|H]; cbn [Z.b2z]; [lia|]. intros _.
        replace (j - p + (p - j)) with 0 by lia. rewrite Z.mul_1_r. destruct SL as [SL|SL]; [exact SL|]. subst p. rewrite Z.mod_small by (cbn in Hn; lia). lia.
Qed.
