(** Lemmas about the signs of numerators and denominators. *)
From Coq Require Import ZArith QArith List Bool Lia.
From Verif Require Import Base S_Rational M_MathInt M_Rational S_RationalObj S_RatSign L_MathInt L_Rational.
Import ListNotations.
Open Scope Z_scope.

(** * Continued fractions and Euclid's algorithm *)
Inductive divisions : Z -> Z -> nat -> Prop :=
| div_last a b : 0 < b -> a mod b = 0 -> divisions a b 1
| div_more a b k : 0 < a mod b < b -> divisions b (a mod b) k -> divisions a b (S k).

Lemma tail_range qs : usual_tail qs -> 0 < snd (cf_frac qs) < fst (cf_frac qs).
Proof.
  induction qs as [|q qs IH]; [intros []|]. cbn [cf_frac]. destruct qs as [|q' qs].
  - cbn. lia.
  - intros [Hq Ht]. specialize (IH Ht). destruct (cf_frac (q' :: qs)) as [n d]. cbn [fst snd] in *. nia.
Qed.
Lemma usual_tail_usual qs : usual_tail qs -> usual qs.
Proof. destruct qs as [|q [|q' qs]]; cbn [usual_tail usual]; try tauto; intros; lia || (split; [lia|tauto]). Qed.

Lemma cf_divisions qs : forall a b, 0 <= a -> 0 < b -> continued_fraction qs a b -> divisions a b (length qs).
Proof.
  induction qs as [|q qs IH]; intros a b Ha Hb [U E]; [destruct U|]. destruct qs as [|q' qs].
  - cbn [cf_frac fst snd usual length] in *. apply div_last; [exact Hb|]. replace a with (q * b) by lia. apply Z.mod_mul. lia.
  - destruct U as [Hq Ht]. pose proof (tail_range _ Ht) as R. change (length (q :: q' :: qs)) with (S (length (q' :: qs))).
    change (cf_frac (q :: q' :: qs)) with (let '(n, d) := cf_frac (q' :: qs) in (q * n + d, n)) in E. destruct (cf_frac (q' :: qs)) as [n d] eqn:Ec. cbn [fst snd] in *.
    assert (Er : n * (a - q * b) = d * b) by lia. assert (Rr : 0 < a - q * b < b) by nia.
    assert (Em : a mod b = a - q * b) by (symmetry; apply Z.mod_unique with q; [lia|lia]).
    apply div_more; [rewrite Em; exact Rr|]. rewrite Em. apply IH; [lia|lia|]. split; [now apply usual_tail_usual|]. rewrite Ec. cbn [fst snd]. lia.
Qed.

Lemma cf_exists : forall n b a, b < Z.of_nat n -> 0 <= a -> 0 < b -> exists qs, continued_fraction qs a b /\ (b < a -> usual_tail qs).
Proof.
  induction n as [|n IH]; intros b a Hn Ha Hb; [lia|]. pose proof (Z.div_mod a b ltac:(lia)) as D. pose proof (Z.mod_pos_bound a b Hb) as M.
  assert (Q0 : 0 <= a / b) by (apply Z.div_pos; lia).
  destruct (Z.eq_dec (a mod b) 0) as [Z0|NZ].
  - exists [a / b]. split; [split; [exact Q0|cbn [cf_frac fst snd]; lia]|]. intros L. cbn [usual_tail]. nia.
  - destruct (IH (a mod b) b) as (qs & [U E] & T); [lia..|]. specialize (T ltac:(lia)). exists (a / b :: qs).
    destruct qs as [|q qs]; [destruct T|]. split.
    + split; [split; [exact Q0|exact T]|]. change (cf_frac (a / b :: q :: qs)) with (let '(n, d) := cf_frac (q :: qs) in (a / b * n + d, n)).
      destruct (cf_frac (q :: qs)) as [x y]. cbn [fst snd] in *. nia.
    + intros L. split; [nia|exact T].
Qed.

Lemma divisions_fun a b k : divisions a b k -> forall k', divisions a b k' -> k = k'.
Proof.
  induction 1 as [a b Hb Hm|a b k Hm _ IH]; intros k' H'; inversion H' as [x y Hy Hz|x y j Hy Hz]; subst; try lia. now rewrite (IH _ Hz).
Qed.

(** * Signs of what get_gcd returns *)
Lemma rem_abs a b : b <> 0 -> Z.abs (Z.rem a b) = Z.abs a mod Z.abs b.
Proof. intros Hb. rewrite <- Z.rem_mod_nonneg by lia. symmetry. apply Z.rem_abs; exact Hb. Qed.

Lemma euclid_sign a b g : euclid a b g -> forall k, b <> 0 -> divisions (Z.abs a) (Z.abs b) k ->
  Z.sgn g = if Nat.even k then Z.sgn a else Z.sgn b.
Proof.
  induction 1 as [a|a b g Hb He IH]; intros k Hb' D; [contradiction|]. pose proof (rem_abs a b Hb) as R.
  inversion D as [x y Py M|x y k' M D']; subst.
  - assert (E0 : Z.rem a b = 0) by lia. rewrite E0 in He. inversion He; subst; [reflexivity|congruence].
  - assert (NZ : Z.rem a b <> 0) by lia. rewrite <- R in D'. rewrite (IH k' NZ D'). rewrite Nat.even_succ, <- Nat.negb_even.
    destruct (Nat.even k'); cbn [negb]; [reflexivity|]. apply Z.rem_sign_nz; [exact Hb|exact NZ].
Qed.

Lemma divisions_exists a b : b <> 0 -> exists qs, continued_fraction qs (Z.abs a) (Z.abs b) /\ divisions (Z.abs a) (Z.abs b) (length qs).
Proof.
  intros Hb. destruct (cf_exists (S (Z.to_nat (Z.abs b))) (Z.abs b) (Z.abs a)) as (qs & C & _); [lia..|]. exists qs. split; [exact C|]. apply cf_divisions; [lia..|exact C].
Qed.

Lemma even_length {A} (l : list A) : Nat.even (length l) = true <-> Nat.Even (length l).
Proof. apply Nat.even_spec. Qed.

(** The denominator after dividing by what Euclid's algorithm returns. *)
Lemma reduced_sign n d g : d <> 0 -> euclid n d g -> g <> 0 -> (d * g < 0 <-> turned n d).
Proof.
  intros Hd He Hg. destruct (divisions_exists n d Hd) as (qs & C & D). pose proof (euclid_sign n d g He _ Hd D) as S.
  assert (T : turned n d <-> n * d < 0 /\ Nat.even (length qs) = true).
  { unfold turned. split; intros [P Q]; (split; [exact P|]).
    - destruct Q as (qs' & C' & Ev). pose proof (cf_divisions qs' (Z.abs n) (Z.abs d) ltac:(lia) ltac:(lia) C') as D'.
      rewrite (divisions_fun _ _ _ D _ D'). now apply Nat.even_spec.
    - exists qs. split; [exact C|now apply Nat.even_spec]. }
  rewrite T. destruct (Nat.even (length qs)).
  - assert (Hs : d * g < 0 <-> n * d < 0) by (destruct n, d, g; cbn in S |- *; try lia; try discriminate S). rewrite Hs. tauto.
  - split; [|intros [_ Q]; discriminate]. intros Q. exfalso. destruct d, g; cbn in S; try discriminate S; nia.
Qed.

Lemma RationalNum_sign w n d r : 2 <= w <= 64 -> in_w w n -> in_w w d -> d <> 0 -> RationalNum w n d = Ok r -> (den r < 0 <-> turned n d).
Proof.
  intros Hw Hn Hd Hd0 H. unfold RationalNum in H. apply Simplify_inv in H as (g & Hg0 & Hg & Hab & En & Ed & Hn' & Hd'); auto. cbn [num den] in *.
  apply get_gcd_euclid in Hg as He; auto. rewrite <- (reduced_sign n d g Hd0 He Hg0). nia.
Qed.

(** * Which fractions can be constructed *)
Lemma RationalNum_undefined w n d : 2 <= w <= 64 -> in_w w n -> in_w w d ->
  (RationalNum w n d = UB <-> (n = 0 /\ d = 0) \/
    ((n = - 2 ^ (w - 1) \/ d = - 2 ^ (w - 1)) /\ Z.gcd n d = 1 /\ (n < 0 /\ d < 0 \/ n < 0 < d /\ turned n d \/ d < 0 < n /\ ~ turned n d))) /\
  (RationalNum w n d = UB \/ exists r, RationalNum w n d = Ok r).
Proof.
  intros Hw Hn Hd. pose proof Hn as Hn'. pose proof Hd as Hd'. apply is_sint_spec in Hn', Hd'. pose proof (pow_le_63 w Hw) as P. set (M := 2 ^ (w - 1)) in *.
  destruct (Z.eq_dec d 0) as [->|Hd0].
  { destruct (Z.eq_dec n 0) as [->|Hn0]; [rewrite RationalNum_zero_zero; split; [split; [intros _; left; now split|reflexivity]|now left]|].
    rewrite RationalNum_zero_den by assumption. split; [split; [discriminate|]|right; eexists; reflexivity].
    intros [[Q _]|(Q & G & _)]; [contradiction|]. rewrite Z.gcd_0_r in G. lia. }
  (* the sign that decides *)
  assert (G0 : forall g, euclid n d g -> Z.abs g = Z.gcd n d -> g <> 0 -> (g = -1 <-> Z.gcd n d = 1 /\ (n < 0 /\ d < 0 \/ n < 0 < d /\ turned n d \/ d < 0 < n /\ ~ turned n d \/ n = 0 /\ d < 0))).
  { intros g He Hab Hg. pose proof (reduced_sign n d g Hd0 He Hg) as S. split.
    - intros ->. split; [lia|]. destruct (Z.lt_trichotomy n 0) as [N|[N|N]].
      + destruct (Z.lt_trichotomy d 0) as [D|[D|D]]; [now left|lia|]. right; left. split; [lia|]. apply S. lia.
      + right; right; right. split; [exact N|]. subst n. destruct (Z.lt_trichotomy d 0) as [D|[D|D]]; [exact D|lia|].
        exfalso. assert (T : turned 0 d) by (apply S; lia). destruct T as [T _]. lia.
      + destruct (Z.lt_trichotomy d 0) as [D|[D|D]]; [|lia|].
        * right; right; left. split; [lia|]. intros T. apply S in T. lia.
        * exfalso. assert (T : turned n d) by (apply S; lia). destruct T as [T _]. nia.
    - intros [G Q]. assert (A : g = 1 \/ g = -1) by lia. destruct A as [->| ->]; [|reflexivity]. exfalso.
      destruct Q as [[N D]|[[N T]|[[N T]|[N D]]]].
      + assert (T : turned n d) by (apply S; lia). destruct T as [T _]. nia.
      + apply S in T. lia.
      + apply T, S. lia.
      + subst n. assert (T : turned 0 d) by (apply S; lia). destruct T as [T _]. lia. }
  destruct (get_gcd_spec w n d Hw Hn Hd) as [HB HG].
  assert (Dec : gcd_bad w n d \/ ~ gcd_bad w n d) by (unfold gcd_bad; fold M; lia). destruct Dec as [Bd|Gd].
  - unfold RationalNum, Simplify. cbn [num den]. rewrite (HB Bd). cbn [bind]. split; [|now left]. split; [|reflexivity]. intros _. right.
    unfold gcd_bad in Bd. fold M in Bd. split; [lia|]. split; [|left; lia]. destruct Bd as [[_ ->]|[-> _]].
    + change (-1) with (- (1)). rewrite Z.gcd_opp_r. apply Z.gcd_1_r.
    + change (-1) with (- (1)). rewrite Z.gcd_opp_l. apply Z.gcd_1_l.
  - destruct (HG Gd) as (g & Hg & Hab & _).
    assert (Hg0 : g <> 0) by (intros ->; symmetry in Hab; apply Z.gcd_eq_0_r in Hab; contradiction).
    specialize (G0 g (get_gcd_euclid w n d g Hg Hw Hn Hd) Hab Hg0).
    assert (Dn : (g | n)) by (rewrite <- Z.divide_abs_l, Hab; apply Z.gcd_divide_l). assert (Dd : (g | d)) by (rewrite <- Z.divide_abs_l, Hab; apply Z.gcd_divide_r).
    destruct Dn as [qn En], Dd as [qd Ed].
    assert (X : RationalNum w n d = bind (sint w qn) (fun n' => bind (sint w qd) (fun d' => Ok (mkRat n' d')))).
    { unfold RationalNum, Simplify. cbn [num den]. rewrite Hg. cbn [bind]. unfold sdiv. destruct (Z.eqb_spec g 0); [contradiction|].
      replace (Z.quot n g) with qn by (rewrite En; symmetry; now apply Z.quot_mul). replace (Z.quot d g) with qd by (rewrite Ed; symmetry; now apply Z.quot_mul). reflexivity. }
    assert (Y : forall q x, x = q * g -> - M <= x < M -> (is_sint w q = false <-> x = - M /\ g = -1)).
    { intros q x Ex Hx. rewrite <- not_true_iff_false, is_sint_spec. fold M. clear - Ex Hx Hg0 P.
      destruct (Z.eq_dec g (-1)) as [->|N1]; [lia|]. split; [|lia]. intros Q. exfalso. apply Q. clear Q.
      destruct (Z.eq_dec g 1) as [->|N2]; [lia|]. assert (2 <= Z.abs g) by lia. assert (Z.abs q * 2 <= Z.abs x) by (subst x; rewrite Z.abs_mul; nia). lia. }
    pose proof (Y qn n En Hn') as Yn. pose proof (Y qd d Ed Hd') as Yd. rewrite X. unfold sint.
    assert (Z0 : (n = - M \/ d = - M) -> Z.gcd n d = 1 -> ~ (n = 0 /\ d < 0)).
    { intros Q Gc [-> D]. rewrite Z.gcd_0_l in Gc. lia. }
    destruct (is_sint w qn) eqn:In; [destruct (is_sint w qd) eqn:Id|]; cbn [bind].
    + split; [|right; eexists; reflexivity]. split; [discriminate|]. intros [[_ Q]|(Q & Gc & Sg)]; [contradiction|]. exfalso.
      assert (E1 : g = -1) by (apply G0; split; [exact Gc|tauto]). destruct Q as [Q|Q].
      * assert (F : true = false) by (apply Yn; now split). discriminate F.
      * assert (F : true = false) by (apply Yd; now split). discriminate F.
    + split; [|now left]. split; [|reflexivity]. intros _. right. destruct (proj1 Yd eq_refl) as [Q E1]. apply G0 in E1 as [Gc Sg].
      split; [now right|]. split; [exact Gc|]. specialize (Z0 (or_intror Q) Gc). tauto.
    + split; [|now left]. split; [|reflexivity]. intros _. right. destruct (proj1 Yn eq_refl) as [Q E1]. apply G0 in E1 as [Gc Sg].
      split; [now left|]. split; [exact Gc|]. specialize (Z0 (or_introl Q) Gc). tauto.
Qed.
