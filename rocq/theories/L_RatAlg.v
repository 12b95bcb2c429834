(** Proofs: canonical representation and algebra of rationals. *)
From Coq Require Import ZArith QArith List Lia Bool Permutation Setoid.
From Verif Require Import Base S_Rational M_MathInt M_Rational S_RationalObj S_RatAlg L_Rational.
Import ListNotations.
Open Scope Z_scope.

Lemma euclid_scale k a b g : k <> 0 -> euclid a b g -> euclid (k * a) (k * b) (k * g).
Proof.
  intros Hk H. induction H as [a|a b g Hb H IH].
  - rewrite Z.mul_0_r. constructor.
  - constructor; [nia|]. rewrite Z.mul_rem_distr_l by assumption. exact IH.
Qed.

Lemma built_euclid w r : 2 <= w <= 64 -> built w r -> euclid (num r) (den r) 1 /\ wf w r /\ Z.gcd (num r) (den r) = 1.
Proof.
  intros Hw (n & d & Hn & Hd & Nd & H).
  destruct (RationalNum_exact w n d r Hw Hn Hd Nd H) as (_ & D & G & I1 & I2).
  split; [|repeat split; auto].
  unfold RationalNum in H. apply Simplify_inv in H as (g & Hg0 & Hg & Hab & En & Ed & Hn' & Hd'); auto.
  cbn [num den] in *. apply get_gcd_euclid in Hg; auto.
  eapply (euclid_unscale g Hg0 _ _ _ Hg); [exact En|exact Ed|lia].
Qed.

Lemma frac_cross a b c d : b <> 0 -> d <> 0 -> ((frac a b == frac c d)%Q <-> a * d = c * b).
Proof.
  intros Hb Hd. unfold frac.
  assert (NB : ~ (inject_Z b == 0)%Q) by (intros E; apply Hb; now apply inject_Z_injective).
  assert (ND : ~ (inject_Z d == 0)%Q) by (intros E; apply Hd; now apply inject_Z_injective).
  split.
  - intros H. apply inject_Z_injective. rewrite !inject_Z_mult.
    transitivity ((inject_Z a / inject_Z b) * (inject_Z b * inject_Z d))%Q; [field; auto|].
    rewrite H. field; auto.
  - intros H. assert (E : (inject_Z a * inject_Z d == inject_Z c * inject_Z b)%Q) by (rewrite <- !inject_Z_mult, H; reflexivity).
    transitivity ((inject_Z a * inject_Z d) / (inject_Z b * inject_Z d))%Q; [field; auto|]. rewrite E. field; auto.
Qed.

Lemma canonical_eq a b : euclid (num a) (den a) 1 -> euclid (num b) (den b) 1 -> Z.gcd (num a) (den a) = 1 ->
  Z.gcd (num b) (den b) = 1 -> den a <> 0 -> den b <> 0 -> (rv a == rv b)%Q -> a = b.
Proof.
  intros Ea Eb Ga Gb Da Db H. apply (proj1 (frac_cross _ _ _ _ Da Db)) in H.
  destruct a as [n d], b as [n' d']. cbn [num den] in *.
  assert (D1 : (d | d')).
  { apply Z.gauss with n; [|rewrite Z.gcd_comm; exact Ga]. exists n'. exact H. }
  assert (D2 : (d' | d)).
  { apply Z.gauss with n'; [|rewrite Z.gcd_comm; exact Gb]. exists n. now rewrite <- H. }
  assert (d' = d \/ d' = - d) as [->| ->].
  { destruct D1 as [k ->]. destruct D2 as [m E]. assert (m * k = 1) by nia.
    assert (k = 1 \/ k = -1) as [->| ->] by (apply Z.mul_eq_1 with m; lia); lia. }
  - assert (n = n') by nia. now subst.
  - assert (n' = - n) by nia. subst n'. exfalso.
    apply (euclid_scale (-1)) in Ea; [|lia]. replace (-1 * n) with (- n) in Ea by lia.
    replace (-1 * d) with (- d) in Ea by lia. pose proof (euclid_fun _ _ _ _ Ea Eb). lia.
Qed.

Lemma built_eq w a b : 2 <= w <= 64 -> built w a -> built w b -> (a = b <-> (rv a == rv b)%Q).
Proof.
  intros Hw A B. split; [intros ->; reflexivity|].
  destruct (built_euclid w a Hw A) as (E1 & (_ & _ & D1) & G1). destruct (built_euclid w b Hw B) as (E2 & (_ & _ & D2) & G2).
  now apply canonical_eq.
Qed.

Lemma built_value w n d r : 2 <= w <= 64 -> in_w w n -> in_w w d -> d <> 0 -> RationalNum w n d = Ok r ->
  built w r /\ (rv r == frac n d)%Q.
Proof.
  intros Hw Hn Hd Nd H. split; [exists n, d; auto|]. now destruct (RationalNum_exact w n d r Hw Hn Hd Nd H).
Qed.

Lemma sint_in w z r : sint w z = Ok r -> r = z /\ in_w w z.
Proof. unfold sint, in_w. destruct (is_sint w z) eqn:E; [intros [= <-]; auto|discriminate]. Qed.

Ltac ops H := repeat (apply bind_ok in H as (? & ?E & H); apply sint_in in E as [-> ?]).

Lemma radd_built w a b r : 2 <= w <= 64 -> wf w a -> wf w b -> radd w a b = Ok r -> built w r /\ (rv r == rv a + rv b)%Q.
Proof.
  intros Hw Ha Hb H. pose proof (radd_exact w a b r Hw Ha Hb H) as (V & _). split; [|exact V].
  destruct Ha as (_ & _ & Da), Hb as (_ & _ & Db). unfold radd in H. ops H.
  exists (num a * den b + num b * den a), (den a * den b). repeat split; try assumption. nia.
Qed.
Lemma rsub_built w a b r : 2 <= w <= 64 -> wf w a -> wf w b -> rsub w a b = Ok r -> built w r /\ (rv r == rv a - rv b)%Q.
Proof.
  intros Hw Ha Hb H. pose proof (rsub_exact w a b r Hw Ha Hb H) as (V & _). split; [|exact V].
  destruct Ha as (_ & _ & Da), Hb as (_ & _ & Db). unfold rsub in H. ops H.
  exists (num a * den b - num b * den a), (den a * den b). repeat split; try assumption. nia.
Qed.
Lemma rmul_built w a b r : 2 <= w <= 64 -> wf w a -> wf w b -> rmul w a b = Ok r -> built w r /\ (rv r == rv a * rv b)%Q.
Proof.
  intros Hw Ha Hb H. pose proof (rmul_exact w a b r Hw Ha Hb H) as (V & _). split; [|exact V].
  destruct Ha as (_ & _ & Da), Hb as (_ & _ & Db). unfold rmul in H. ops H.
  exists (num a * num b), (den a * den b). repeat split; try assumption. nia.
Qed.
Lemma rdiv_built w a b r : 2 <= w <= 64 -> wf w a -> wf w b -> num b <> 0 -> rdiv w a b = Ok r -> built w r /\ (rv r == rv a / rv b)%Q.
Proof.
  intros Hw Ha Hb Nb H. pose proof (rdiv_exact w a b r Hw Ha Hb Nb H) as (V & _). split; [|exact V].
  destruct Ha as (_ & _ & Da), Hb as (_ & _ & Db). unfold rdiv in H. ops H.
  exists (num a * den b), (num b * den a). repeat split; try assumption. nia.
Qed.

Lemma built_wf w r : 2 <= w <= 64 -> built w r -> wf w r.
Proof. intros Hw B. now destruct (built_euclid w r Hw B) as (_ & W & _). Qed.

(** Commutativity, undefined cases included. *)
Lemma radd_comm w a b : radd w a b = radd w b a.
Proof.
  unfold radd. rewrite (Z.mul_comm (den a) (den b)).
  unfold sint. destruct (is_sint w (num a * den b)) eqn:E1, (is_sint w (num b * den a)) eqn:E2; cbn [bind]; auto.
  now rewrite Z.add_comm.
Qed.
Lemma rmul_comm w a b : rmul w a b = rmul w b a.
Proof. unfold rmul. now rewrite (Z.mul_comm (num a)), (Z.mul_comm (den a)). Qed.

Lemma in_w'_in w z : in_w' w z -> in_w w z.
Proof. unfold in_w, in_w', is_sint. intros. apply andb_true_intro. split; [apply Z.leb_le|apply Z.ltb_lt]; lia. Qed.

(** Zero has one representation. *)
Lemma RationalNum_zero w d : 2 <= w <= 64 -> in_w' w d -> d <> 0 -> RationalNum w 0 d = Ok rat_default.
Proof.
  intros Hw Hd Nd. assert (Z0 : in_w' w 0) by (unfold in_w' in *; cbn; pose proof (Z.pow_pos_nonneg 2 (w - 1)); lia).
  destruct (RationalNum_defined w 0 d Hw Z0 Hd ltac:(lia)) as (r & E & _).
  rewrite E. assert (B : built w r) by (exists 0, d; auto using in_w'_in).
  destruct (built_euclid w r Hw B) as (Eu & (_ & _ & D) & G).
  destruct (RationalNum_exact w 0 d r Hw (in_w'_in _ _ Z0) (in_w'_in _ _ Hd) Nd E) as (V & _).
  apply (proj1 (frac_cross _ _ _ _ D Nd)) in V. destruct r as [n e]. cbn [num den] in *. assert (n = 0) by nia. subst n.
  assert (e = 1); [|now subst].
  pose proof (euclid_step 0 e e D) as S. rewrite Z.rem_0_l in S by assumption. apply (euclid_fun 0 e); auto.
  apply S. constructor.
Qed.

Lemma built_default w : 2 <= w <= 64 -> built w rat_default.
Proof.
  intros Hw. assert (2 ^ 1 <= 2 ^ (w - 1)) by (apply Z.pow_le_mono_r; lia).
  assert (in_w' w 0 /\ in_w' w 1) as [A B] by (unfold in_w'; lia).
  exists 0, 1. repeat split; auto using in_w'_in; [lia|]. apply RationalNum_zero; auto. lia.
Qed.

(** Associativity and distributivity, whenever both sides are defined. *)
Section Laws.
Variables (w : Z) (a b c : rat).
Hypothesis Hw : 2 <= w <= 64.
Hypothesis (Ha : wf w a) (Hb : wf w b) (Hc : wf w c).

Lemma radd_assoc x y : bind (radd w a b) (fun s => radd w s c) = Ok x -> bind (radd w b c) (fun s => radd w a s) = Ok y -> x = y.
Proof.
  intros H1 H2. apply bind_ok in H1 as (s & E1 & H1). apply bind_ok in H2 as (t & E2 & H2).
  apply radd_built in E1 as [B1 V1]; auto. apply radd_built in E2 as [B2 V2]; auto.
  apply radd_built in H1 as [B3 V3]; auto using built_wf. apply radd_built in H2 as [B4 V4]; auto using built_wf.
  apply (built_eq w); auto. rewrite V3, V4, V1, V2. ring.
Qed.
Lemma rmul_assoc x y : bind (rmul w a b) (fun s => rmul w s c) = Ok x -> bind (rmul w b c) (fun s => rmul w a s) = Ok y -> x = y.
Proof.
  intros H1 H2. apply bind_ok in H1 as (s & E1 & H1). apply bind_ok in H2 as (t & E2 & H2).
  apply rmul_built in E1 as [B1 V1]; auto. apply rmul_built in E2 as [B2 V2]; auto.
  apply rmul_built in H1 as [B3 V3]; auto using built_wf. apply rmul_built in H2 as [B4 V4]; auto using built_wf.
  apply (built_eq w); auto. rewrite V3, V4, V1, V2. ring.
Qed.
Lemma rmul_distr x y : bind (radd w b c) (fun s => rmul w a s) = Ok x ->
  bind (rmul w a b) (fun s => bind (rmul w a c) (fun t => radd w s t)) = Ok y -> x = y.
Proof.
  intros H1 H2. apply bind_ok in H1 as (s & E1 & H1). apply bind_ok in H2 as (t & E2 & H2). apply bind_ok in H2 as (u & E3 & H2).
  apply radd_built in E1 as [B1 V1]; auto. apply rmul_built in E2 as [B2 V2]; auto. apply rmul_built in E3 as [B3 V3]; auto.
  apply rmul_built in H1 as [B4 V4]; auto using built_wf. apply radd_built in H2 as [B5 V5]; auto using built_wf.
  apply (built_eq w); auto. rewrite V4, V5, V1, V2, V3. ring.
Qed.
Lemma radd_rsub x : built w a -> bind (radd w a b) (fun s => rsub w s b) = Ok x -> x = a.
Proof.
  intros Ba H. apply bind_ok in H as (s & E & H).
  apply radd_built in E as [B1 V1]; auto. apply rsub_built in H as [B2 V2]; auto using built_wf.
  apply (built_eq w); auto. rewrite V2, V1. ring.
Qed.
Lemma rsub_self x : rsub w a a = Ok x -> x = rat_default.
Proof.
  intros H. pose proof (rsub_exact w a a x Hw Ha Ha H) as (V & (_ & _ & D) & _). apply rsub_built in H as [B1 V1]; auto.
  apply (built_eq w); auto using built_default. rewrite V1. change (rv rat_default) with (frac 0 1). unfold frac. ring_simplify. reflexivity.
Qed.
End Laws.

Lemma built_one w : 2 <= w <= 64 -> built w (mkRat 1 1).
Proof.
  intros Hw. assert (2 ^ 1 <= 2 ^ (w - 1)) by (apply Z.pow_le_mono_r; lia).
  assert (A : in_w' w 1) by (unfold in_w'; lia).
  destruct (RationalNum_defined w 1 1 Hw A A ltac:(lia)) as (r & E & _).
  destruct (RationalNum_pos w 1 1 r Hw (in_w'_in _ _ A) (in_w'_in _ _ A) ltac:(lia) ltac:(lia) E) as [P1 P2].
  destruct (RationalNum_exact w 1 1 r Hw (in_w'_in _ _ A) (in_w'_in _ _ A) ltac:(lia) E) as (V & D & G & _).
  apply (proj1 (frac_cross (num r) (den r) 1 1 D ltac:(lia))) in V. destruct r as [n d]. cbn [num den] in *. assert (n = d) by lia. subst n.
  rewrite Z.gcd_diag in G. assert (d = 1) by lia. subst d.
  exists 1, 1. repeat split; auto using in_w'_in.
Qed.

Lemma rdiv_self w a x : 2 <= w <= 64 -> wf w a -> num a <> 0 -> rdiv w a a = Ok x -> x = mkRat 1 1.
Proof.
  intros Hw Ha Na H. apply rdiv_built in H as [B V]; auto. apply (built_eq w); auto using built_one.
  rewrite V. unfold rv, frac. cbn [num den]. field. destruct Ha as (_ & _ & D).
  split; intros E; [apply D|apply Na]; now apply inject_Z_injective.
Qed.

Lemma radd_zero w a x : 2 <= w <= 64 -> built w a -> radd w a rat_default = Ok x -> x = a.
Proof.
  intros Hw Ba H. apply radd_built in H as [B V]; auto using built_wf, built_default. apply (built_eq w); auto.
  rewrite V. unfold rv at 2, frac, rat_default. cbn [num den]. unfold Qdiv. ring.
Qed.
Lemma rmul_one w a x : 2 <= w <= 64 -> built w a -> rmul w a (mkRat 1 1) = Ok x -> x = a.
Proof.
  intros Hw Ba H. apply rmul_built in H as [B V]; auto using built_wf, built_one. apply (built_eq w); auto.
  rewrite V. unfold rv at 2, frac. cbn [num den]. field.
Qed.

(** Sums and products in any order. *)
Lemma sum_value w l : 2 <= w <= 64 -> Forall (wf w) l -> forall z x, built w z ->
  ofold (radd w) l z = Ok x -> built w x /\ (rv x == rv z + sumQ l)%Q.
Proof.
  intros Hw Hl. induction Hl as [|a l Ha Hl IH]; intros z x Bz H; cbn [ofold] in H.
  - injection H as <-. split; [exact Bz|]. cbn. ring.
  - apply bind_ok in H as (s & E & H). apply radd_built in E as [B V]; auto using built_wf.
    destruct (IH s x B H) as [B' V']. split; [exact B'|]. rewrite V', V. cbn [sumQ fold_right]. fold (sumQ l). ring.
Qed.
Lemma prod_value w l : 2 <= w <= 64 -> Forall (wf w) l -> forall z x, built w z ->
  ofold (rmul w) l z = Ok x -> built w x /\ (rv x == rv z * prodQ l)%Q.
Proof.
  intros Hw Hl. induction Hl as [|a l Ha Hl IH]; intros z x Bz H; cbn [ofold] in H.
  - injection H as <-. split; [exact Bz|]. cbn. ring.
  - apply bind_ok in H as (s & E & H). apply rmul_built in E as [B V]; auto using built_wf.
    destruct (IH s x B H) as [B' V']. split; [exact B'|]. rewrite V', V. cbn [prodQ fold_right]. fold (prodQ l). ring.
Qed.

Lemma sumQ_perm l l' : Permutation l l' -> (sumQ l == sumQ l')%Q.
Proof.
  induction 1 as [|x l l' H IH|x y l|l m n H IH H' IH'].
  - reflexivity.
  - change (rv x + sumQ l == rv x + sumQ l')%Q. now rewrite IH.
  - change (rv y + (rv x + sumQ l) == rv x + (rv y + sumQ l))%Q. ring.
  - now rewrite IH.
Qed.
Lemma prodQ_perm l l' : Permutation l l' -> (prodQ l == prodQ l')%Q.
Proof.
  induction 1 as [|x l l' H IH|x y l|l m n H IH H' IH'].
  - reflexivity.
  - change (rv x * prodQ l == rv x * prodQ l')%Q. now rewrite IH.
  - change (rv y * (rv x * prodQ l) == rv x * (rv y * prodQ l))%Q. ring.
  - now rewrite IH.
Qed.

Lemma sum_any_order w l l' z x y : 2 <= w <= 64 -> Forall (wf w) l -> Permutation l l' -> built w z ->
  ofold (radd w) l z = Ok x -> ofold (radd w) l' z = Ok y -> x = y.
Proof.
  intros Hw Hl P Bz Hx Hy. assert (Hl' : Forall (wf w) l') by (eapply Permutation_Forall; eauto).
  destruct (sum_value w l Hw Hl z x Bz Hx) as [B V]. destruct (sum_value w l' Hw Hl' z y Bz Hy) as [B' V'].
  apply (built_eq w); auto. rewrite V, V', (sumQ_perm _ _ P). reflexivity.
Qed.
Lemma prod_any_order w l l' z x y : 2 <= w <= 64 -> Forall (wf w) l -> Permutation l l' -> built w z ->
  ofold (rmul w) l z = Ok x -> ofold (rmul w) l' z = Ok y -> x = y.
Proof.
  intros Hw Hl P Bz Hx Hy. assert (Hl' : Forall (wf w) l') by (eapply Permutation_Forall; eauto).
  destruct (prod_value w l Hw Hl z x Bz Hx) as [B V]. destruct (prod_value w l' Hw Hl' z y Bz Hy) as [B' V'].
  apply (built_eq w); auto. rewrite V, V', (prodQ_perm _ _ P). reflexivity.
Qed.
