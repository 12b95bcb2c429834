(** C110: signs of stored denominators, and which fractions can be constructed.
    [turned n d]: n/d is negative and the continued fraction of its magnitude has
    even length (S_RatSign). *)
From Coq Require Import ZArith QArith List Bool Lia.
From Verif Require Import Base S_Rational M_MathInt M_Rational S_RationalObj S_RatSign L_MathInt L_Rational L_RatSign P_Rational.
Import ListNotations.
Open Scope Z_scope.

(** Every fraction has a continued fraction in the usual form, of one length only. *)
Theorem C110_expansion : forall a b, 0 <= a -> 0 < b ->
  (exists qs, continued_fraction qs a b) /\
  forall qs qs', continued_fraction qs a b -> continued_fraction qs' a b -> length qs = length qs'.
Proof.
  intros a b Ha Hb. split.
  - destruct (cf_exists (S (Z.to_nat b)) b a) as (qs & C & _); [lia..|]. now exists qs.
  - intros qs qs' C C'. eapply divisions_fun; apply cf_divisions; eauto.
Qed.
Print Assumptions C110_expansion.
Example C110_expansion_ex : continued_fraction [1; 2] 6 4 /\ continued_fraction [0; 2; 3] 3 7 /\ turned (-6) 4 /\ ~ turned 6 4 /\ ~ turned (-3) 7.
Proof.
  assert (C : continued_fraction [0; 2; 3] 3 7) by (split; [cbn; lia|reflexivity]).
  split; [split; [cbn; lia|reflexivity]|]. split; [exact C|].
  split; [split; [lia|]; exists [1; 2]; split; [split; [cbn; lia|reflexivity]|exists 1%nat; reflexivity]|]. split; [intros [Q _]; lia|].
  intros [_ (qs & C' & E)]. pose proof (proj2 (C110_expansion 3 7 ltac:(lia) ltac:(lia)) qs [0; 2; 3] C' C) as L. rewrite L in E. destruct E as [m E]. cbn in E. lia.
Qed.

(** The stored denominator is negative exactly for the fractions [turned] describes,
    and the numerator has the sign that makes the value right. *)
Theorem C110_sign : forall w n d r, 2 <= w <= 64 -> in_w w n -> in_w w d -> d <> 0 -> RationalNum w n d = Ok r ->
  (den r < 0 <-> turned n d) /\ (0 < den r <-> ~ turned n d) /\ Z.sgn (num r) * Z.sgn (den r) = Z.sgn n * Z.sgn d.
Proof.
  intros w n d r Hw Hn Hd Hd0 H. pose proof (RationalNum_sign w n d r Hw Hn Hd Hd0 H) as S.
  pose proof (RationalNum_exact w n d r Hw Hn Hd Hd0 H) as (_ & Dr & _). split; [exact S|]. split; [rewrite <- S; lia|].
  unfold RationalNum in H. apply Simplify_inv in H as (g & Hg0 & _ & _ & En & Ed & _ & _); auto. cbn [num den] in *. rewrite En, Ed, !Z.sgn_mul.
  assert (Sg : Z.sgn g * Z.sgn g = 1) by (destruct g; [contradiction|reflexivity|reflexivity]).
  transitivity (Z.sgn g * Z.sgn g * (Z.sgn (num r) * Z.sgn (den r))); [rewrite Sg; ring|ring].
Qed.
Print Assumptions C110_sign.
Example C110_sign_ex : RationalNum 64 (-6) 4 = Ok (mkRat 3 (-2)) /\ RationalNum 64 (-3) 7 = Ok (mkRat (-3) 7) /\ RationalNum 64 (-3) (-7) = Ok (mkRat 3 7).
Proof. repeat split; vm_compute; reflexivity. Qed.

(** Comparing two constructed fractions is right if both or neither is turned, and
    the wrong way round otherwise. *)
Theorem C110_compare : forall w n d n' d' a b, 2 <= w <= 64 -> in_w w n -> in_w w d -> d <> 0 -> in_w w n' -> in_w w d' -> d' <> 0 ->
  RationalNum w n d = Ok a -> RationalNum w n' d' = Ok b -> in_w w (num a * den b) -> in_w w (num b * den a) ->
  ((turned n d <-> turned n' d') -> (rlt w a b = Ok true <-> (frac n d < frac n' d')%Q)) /\
  (~ (turned n d <-> turned n' d') -> (rlt w a b = Ok true <-> (frac n' d' < frac n d)%Q)).
Proof.
  intros w n d n' d' a b Hw Hn Hd Hd0 Hn' Hd' Hd0' Ha Hb P1 P2.
  destruct (RationalNum_exact w n d a Hw Hn Hd Hd0 Ha) as (Va & Da & _). destruct (RationalNum_exact w n' d' b Hw Hn' Hd' Hd0' Hb) as (Vb & Db & _).
  pose proof (RationalNum_sign w n d a Hw Hn Hd Hd0 Ha) as Sa. pose proof (RationalNum_sign w n' d' b Hw Hn' Hd' Hd0' Hb) as Sb.
  split; intros T.
  - assert (Pos : 0 < den a * den b) by (rewrite <- Sa, <- Sb in T; nia).
    pose proof (proj1 (C16_order_same_sign w a b Pos P1 P2)) as Q. unfold rv in Q. now rewrite Va, Vb in Q.
  - assert (Neg : den a * den b < 0) by (rewrite <- Sa, <- Sb in T; nia).
    pose proof (C16_order_opposite_sign_refuted w a b Neg P1 P2) as Q. unfold rv in Q. now rewrite Va, Vb in Q.
Qed.
Print Assumptions C110_compare.

(** Whole numbers are never turned and are stored over one. *)
Theorem C110_whole : forall w m d r, 2 <= w <= 64 -> in_w w (m * d) -> in_w w d -> d <> 0 -> RationalNum w (m * d) d = Ok r ->
  ~ turned (m * d) d /\ r = mkRat m 1.
Proof.
  intros w m d r Hw Hn Hd Hd0 H. assert (T : ~ turned (m * d) d).
  { intros (_ & qs & C & E). assert (C1 : continued_fraction [Z.abs m] (Z.abs (m * d)) (Z.abs d)) by (split; [cbn; lia|cbn [cf_frac fst snd]; rewrite Z.abs_mul; lia]).
    pose proof (proj2 (C110_expansion (Z.abs (m * d)) (Z.abs d) ltac:(lia) ltac:(lia)) qs [Z.abs m] C C1) as L. rewrite L in E. destruct E as [k E]. cbn in E. lia. }
  split; [exact T|]. pose proof (proj1 (proj2 (C110_sign w _ d r Hw Hn Hd Hd0 H))) as P. apply P in T.
  pose proof (RationalNum_exact w _ d r Hw Hn Hd Hd0 H) as (V & Dr & G & _). pose proof (proj1 (frac_eq _ _ _ _ Dr Hd0) V) as V'.
  assert (E : num r = m * den r) by nia. rewrite E, Z.gcd_comm, Z.mul_comm, Z.gcd_mul_diag_l in G by lia. destruct r as [x y]. cbn [num den] in *. subst y x. f_equal. lia.
Qed.
Print Assumptions C110_whole.
Example C110_whole_ex : RationalNum 64 (-12) 4 = Ok (mkRat (-3) 1) /\ RationalNum 64 12 (-4) = Ok (mkRat (-3) 1) /\ RationalNum 64 0 (-4) = Ok (mkRat 0 1).
Proof. repeat split; vm_compute; reflexivity. Qed.

(** Every fraction -1/d is stored as 1//-d and compares as if it were positive. *)
Theorem C110_minus_one_over : forall w d, 2 <= w <= 64 -> 2 <= d < 2 ^ (w - 1) ->
  let r := mkRat 1 (- d) in
  turned (-1) d /\ RationalNum w (-1) d = Ok r /\ rlt w r (mkRat 0 1) = Ok false /\ rlt w (mkRat 0 1) r = Ok true.
Proof.
  intros w d Hw Hd r. pose proof (pow_le_63 w Hw) as P.
  assert (I : forall z, Z.abs z < 2 ^ (w - 1) -> in_w w z) by (intros z Hz; apply is_sint_spec; lia).
  assert (T : turned (-1) d).
  { split; [lia|]. exists [0; d]. split; [|exists 1%nat; reflexivity]. split; [cbn; lia|]. cbn [cf_frac fst snd]. rewrite (Z.abs_eq d) by lia. change (Z.abs (-1)) with 1. lia. }
  split; [exact T|].
  destruct (C13_constructor_defined w (-1) d Hw) as (x & Hx & _); [unfold in_w'; lia..|].
  pose proof (RationalNum_exact w (-1) d x Hw (I (-1) ltac:(lia)) (I d ltac:(lia)) ltac:(lia) Hx) as (V & Dr & G & _).
  pose proof (proj1 (C110_sign w (-1) d x Hw (I (-1) ltac:(lia)) (I d ltac:(lia)) ltac:(lia) Hx)) as S. apply S in T. pose proof (proj1 (frac_eq (num x) (den x) (-1) d Dr ltac:(lia)) V) as V'.
  assert (Ex : den x = - (num x * d)) by lia. rewrite Ex, Z.gcd_opp_r in G.
  assert (N : num x = 1).
  { assert (D : (num x | 1)). { rewrite <- G. apply Z.gcd_greatest; [apply Z.divide_refl|exists d; lia]. } apply Z.divide_1_r in D. nia. }
  destruct x as [xn xd]. cbn [num den] in *. subst xn xd. rewrite Z.mul_1_l in Hx. split; [exact Hx|].
  unfold rlt, r. cbn [num den].
  assert (S0 : sint w 0 = Ok 0) by (apply sint_ok; lia). assert (S1 : sint w 1 = Ok 1) by (apply sint_ok; lia).
  rewrite !Z.mul_0_l, !Z.mul_1_l, S0, S1. split; reflexivity.
Qed.
Print Assumptions C110_minus_one_over.
Example C110_minus_one_over_ex : RationalNum 32 (-1) 7 = Ok (mkRat 1 (-7)) /\ rlt 32 (mkRat 1 (-7)) (mkRat 0 1) = Ok false.
Proof. split; vm_compute; reflexivity. Qed.

(** Exactly when the constructor is undefined: 0/0, and fractions in lowest terms
    with the least number of the type whose sign would have to be changed. *)
Theorem C110_undefined : forall w n d, 2 <= w <= 64 -> in_w w n -> in_w w d ->
  (RationalNum w n d = UB <-> (n = 0 /\ d = 0) \/
    ((n = - 2 ^ (w - 1) \/ d = - 2 ^ (w - 1)) /\ Z.gcd n d = 1 /\
     (n < 0 /\ d < 0 \/ n < 0 < d /\ turned n d \/ d < 0 < n /\ ~ turned n d))) /\
  (RationalNum w n d = UB \/ exists r, RationalNum w n d = Ok r).
Proof. exact RationalNum_undefined. Qed.
Print Assumptions C110_undefined.
Example C110_undefined_ex : RationalNum 64 (- 2 ^ 63) 3 = Ok (mkRat (- 2 ^ 63) 3) /\ RationalNum 64 (- 2 ^ 63) 5 = UB /\
  RationalNum 64 (- 2 ^ 63) (-3) = UB /\ RationalNum 64 (- 2 ^ 63) (-6) = Ok (mkRat (2 ^ 62) 3) /\ RationalNum 64 3 (- 2 ^ 63) = Ok (mkRat 3 (- 2 ^ 63)) /\ RationalNum 64 5 (- 2 ^ 63) = UB.
Proof. repeat split; vm_compute; reflexivity. Qed.
