(** Proofs about RationalNum. *)
From Coq Require Import ZArith QArith List Bool Ascii Lia.
From Verif Require Import Base S_Rational M_MathInt M_Text M_Rational S_RationalObj L_MathInt L_Text.
Import ListNotations.
Open Scope Z_scope.

(** ** gcd as Euclid's algorithm on any integers *)

Inductive euclid : Z -> Z -> Z -> Prop :=
| euclid_stop a : euclid a 0 a
| euclid_step a b g : b <> 0 -> euclid b (Z.rem a b) g -> euclid a b g.

Lemma euclid_fun a b g g' : euclid a b g -> euclid a b g' -> g = g'.
Proof.
  intros H; revert g'; induction H as [a|a b g Hb H IH]; intros g' H'.
  - inversion H'; subst; [reflexivity|congruence].
  - inversion H'; subst; [congruence|]. auto.
Qed.

Lemma rem_scale k a b : k <> 0 -> b <> 0 -> Z.rem (k * a) (k * b) = k * Z.rem a b.
Proof. intros Hk Hb. rewrite Z.mul_rem_distr_l by assumption. reflexivity. Qed.

Lemma euclid_unscale k : k <> 0 -> forall A B G, euclid A B G -> forall a b g,
  A = k * a -> B = k * b -> G = k * g -> euclid a b g.
Proof.
  intros Hk A B G H; induction H as [A|A B G HB H IH]; intros a b g HA HBk HG.
  - assert (b = 0) by nia. assert (a = g) by nia. subst. constructor.
  - subst A B. assert (b <> 0) by lia. constructor; [assumption|].
    apply IH; [reflexivity| |assumption]. now rewrite rem_scale.
Qed.

Lemma get_gcd_euclid w a b g : get_gcd w a b = Ok g -> 2 <= w <= 64 -> is_sint w a = true -> is_sint w b = true ->
  euclid a b g.
Proof.
  intros H Hw Ha Hb. apply is_sint_spec in Ha, Hb.
  pose proof (pow_le_63 w Hw) as Hpow. change (2 ^ 63) with 9223372036854775808 in Hpow.
  set (M := 2 ^ (w - 1)) in *. revert H.
  pose (Q := fun r : out Z => r = Ok g -> euclid a b g).
  change (Q (get_gcd w a b)). unfold get_gcd.
  apply (while_total (gcd_body w)
          (fun st => let '(x, y) := st in
             - M <= x < M /\ - M <= y < M /\ (euclid x y g -> euclid a b g))
          Q (fun st => Z.abs (snd st))).
  - intros [x y] (Hx & Hy & He). unfold gcd_body.
    destruct (Z.eqb_spec y 0) as [->|Hy0].
    + intros E. injection E as ->. apply He. constructor.
    + destruct (sint w (Z.quot x y)); try (intros E; discriminate).
      pose proof (Z.rem_bound_abs x y Hy0). cbn [snd]. split; [|lia].
      split; [assumption|]. split; [lia|]. intros E. apply He. now constructor.
  - auto.
  - cbn [snd]. lia.
Qed.

Lemma sdiv_inv w a b q : sdiv w a b = Ok q -> b <> 0 /\ q = Z.quot a b /\ is_sint w q = true.
Proof.
  unfold sdiv. destruct (Z.eqb_spec b 0); [discriminate|]. intros H. apply sint_inv in H as [-> H].
  split; [assumption|]. split; [reflexivity|]. now apply is_sint_spec.
Qed.

Lemma sdiv_exact w a b q : b <> 0 -> a = b * q -> is_sint w q = true -> sdiv w a b = Ok q.
Proof.
  intros Hb -> Hq. unfold sdiv. destruct (Z.eqb_spec b 0); [congruence|].
  rewrite Z.mul_comm, Z.quot_mul by assumption. apply is_sint_spec in Hq. now apply sint_ok.
Qed.


Lemma in_w'_in_w w z : in_w' w z -> in_w w z.
Proof. unfold in_w, in_w'. rewrite is_sint_spec. lia. Qed.

(** What a successful Simplify did. *)
Lemma Simplify_inv w r r' :
  2 <= w <= 64 -> in_w w (num r) -> in_w w (den r) -> Simplify w r = Ok r' ->
  exists g, g <> 0 /\ get_gcd w (num r) (den r) = Ok g /\ Z.abs g = Z.gcd (num r) (den r) /\
    num r = g * num r' /\ den r = g * den r' /\ in_w w (num r') /\ in_w w (den r').
Proof.
  intros Hw Hn Hd H. unfold Simplify in H.
  apply bind_ok in H as [g [Hg H]]. apply bind_ok in H as [n [Hn' H]].
  apply bind_ok in H as [d [Hd' H]]. injection H as <-. cbn [num den].
  apply sdiv_inv in Hn' as (Hg0 & -> & Hqn). apply sdiv_inv in Hd' as (_ & -> & Hqd).
  destruct (get_gcd_spec w (num r) (den r) Hw Hn Hd) as [HB HG].
  assert (Hnb : ~ gcd_bad w (num r) (den r)) by (intros B; rewrite (HB B) in Hg; discriminate).
  destruct (HG Hnb) as (g' & Hg' & Hab & _). rewrite Hg in Hg'. injection Hg' as <-.
  exists g. split; [assumption|]. split; [assumption|]. split; [assumption|].
  split; [|split; [|split; assumption]].
  - assert (D : (g | num r)) by (rewrite <- Z.divide_abs_l, Hab; apply Z.gcd_divide_l).
    destruct D as [q Eq]. rewrite Eq. rewrite Z.quot_mul by assumption. lia.
  - assert (D : (g | den r)) by (rewrite <- Z.divide_abs_l, Hab; apply Z.gcd_divide_r).
    destruct D as [q Eq]. rewrite Eq. rewrite Z.quot_mul by assumption. lia.
Qed.

Lemma inject_Z_neq0 z : z <> 0 -> ~ (inject_Z z == 0)%Q.
Proof. intros H E. apply H. change 0%Q with (inject_Z 0) in E. exact (proj1 (inject_Z_injective z 0) E). Qed.

Lemma frac_scale g n d : g <> 0 -> d <> 0 -> (frac (g * n) (g * d) == frac n d)%Q.
Proof.
  intros Hg Hd. unfold frac. rewrite !inject_Z_mult. field.
  split; now apply inject_Z_neq0.
Qed.

Lemma frac_eq n d n' d' : d <> 0 -> d' <> 0 -> ((frac n d == frac n' d')%Q <-> n * d' = n' * d).
Proof.
  intros Hd Hd'. apply inject_Z_neq0 in Hd as Hq. apply inject_Z_neq0 in Hd' as Hq'.
  unfold frac. split.
  - intros E. apply inject_Z_injective. rewrite !inject_Z_mult.
    setoid_replace (inject_Z n) with (inject_Z n / inject_Z d * inject_Z d)%Q by (field; assumption).
    rewrite E. field. assumption.
  - intros E. assert (E2 : (inject_Z (n * d') == inject_Z (n' * d))%Q) by now rewrite E.
    rewrite !inject_Z_mult in E2.
    setoid_replace (inject_Z n) with (inject_Z n * inject_Z d' / inject_Z d')%Q by (field; assumption).
    rewrite E2. field. auto.
Qed.

Lemma frac_lt_pos n d n' d' : 0 < d -> 0 < d' -> ((frac n d < frac n' d')%Q <-> n * d' < n' * d).
Proof.
  intros Hd Hd'. unfold frac.
  assert (P : (0 < inject_Z d)%Q) by (rewrite Zlt_Qlt in Hd; exact Hd).
  assert (P' : (0 < inject_Z d')%Q) by (rewrite Zlt_Qlt in Hd'; exact Hd').
  assert (N : ~ (inject_Z d == 0)%Q) by (intros E; rewrite E in P; now apply Qlt_irrefl in P).
  assert (N' : ~ (inject_Z d' == 0)%Q) by (intros E; rewrite E in P'; now apply Qlt_irrefl in P').
  rewrite Zlt_Qlt, !inject_Z_mult. split; intros H.
  - apply (Qmult_lt_compat_r _ _ (inject_Z d * inject_Z d')) in H; [|now apply Qmult_lt_0_compat].
    setoid_replace (inject_Z n / inject_Z d * (inject_Z d * inject_Z d'))%Q
      with (inject_Z n * inject_Z d')%Q in H by (field; assumption).
    setoid_replace (inject_Z n' / inject_Z d' * (inject_Z d * inject_Z d'))%Q
      with (inject_Z n' * inject_Z d)%Q in H by (field; assumption). assumption.
  - apply (Qmult_lt_r _ _ (inject_Z d * inject_Z d')); [now apply Qmult_lt_0_compat|].
    setoid_replace (inject_Z n / inject_Z d * (inject_Z d * inject_Z d'))%Q
      with (inject_Z n * inject_Z d')%Q by (field; assumption).
    setoid_replace (inject_Z n' / inject_Z d' * (inject_Z d * inject_Z d'))%Q
      with (inject_Z n' * inject_Z d)%Q by (field; assumption). assumption.
Qed.

Lemma RationalNum_exact w n d r :
  2 <= w <= 64 -> in_w w n -> in_w w d -> d <> 0 -> RationalNum w n d = Ok r ->
  (frac (num r) (den r) == frac n d)%Q /\ den r <> 0 /\ Z.gcd (num r) (den r) = 1 /\
  in_w w (num r) /\ in_w w (den r).
Proof.
  intros Hw Hn Hd Hd0 H. unfold RationalNum in H.
  apply Simplify_inv in H as (g & Hg0 & Hg & Hab & En & Ed & Hn' & Hd'); auto. cbn [num den] in *.
  assert (den r <> 0) by (intros E; rewrite E in Ed; lia).
  split; [rewrite En, Ed; symmetry; now apply frac_scale|]. split; [assumption|].
  split; [|auto].
  rewrite En, Ed, Z.gcd_mul_mono_l in Hab.
  assert (Z.abs g <> 0) by lia. nia.
Qed.

Lemma RationalNum_defined w n d :
  2 <= w <= 64 -> in_w' w n -> in_w' w d -> ~ (n = 0 /\ d = 0) ->
  exists r, RationalNum w n d = Ok r /\ in_w' w (num r) /\ in_w' w (den r).
Proof.
  intros Hw Hn Hd Hnz. unfold RationalNum, Simplify. cbn [num den].
  pose proof (pow_le_63 w Hw) as Hpow.
  destruct (get_gcd_spec w n d Hw (in_w'_in_w _ _ Hn) (in_w'_in_w _ _ Hd)) as [_ HG].
  unfold in_w' in *.
  destruct HG as (g & -> & Hab & _).
  { unfold gcd_bad. intros [[-> _]|[_ ->]]; lia. }
  cbn [bind].
  assert (Hg0 : g <> 0).
  { intros ->. simpl in Hab. symmetry in Hab. apply Hnz. split.
    - now apply Z.gcd_eq_0_l in Hab.
    - now apply Z.gcd_eq_0_r in Hab. }
  assert (Dn : (g | n)) by (rewrite <- Z.divide_abs_l, Hab; apply Z.gcd_divide_l).
  assert (Dd : (g | d)) by (rewrite <- Z.divide_abs_l, Hab; apply Z.gcd_divide_r).
  destruct Dn as [qn En], Dd as [qd Ed].
  assert (Z.abs qn < 2 ^ (w - 1)) by nia. assert (Z.abs qd < 2 ^ (w - 1)) by nia.
  rewrite (sdiv_exact w n g qn) by (try assumption; try (apply is_sint_spec); lia). cbn [bind].
  rewrite (sdiv_exact w d g qd) by (try assumption; try (apply is_sint_spec); lia). cbn [bind].
  eexists. split; [reflexivity|]. auto.
Qed.

Lemma RationalNum_pos w n d r :
  2 <= w <= 64 -> in_w w n -> in_w w d -> 0 <= n -> 0 < d -> RationalNum w n d = Ok r ->
  0 < den r /\ 0 <= num r.
Proof.
  intros Hw Hn Hd Hn0 Hd0 H. unfold RationalNum in H.
  apply Simplify_inv in H as (g & Hg0 & Hg & Hab & En & Ed & Hn' & Hd'); auto. cbn [num den] in *.
  destruct (get_gcd_spec w n d Hw Hn Hd) as [HB HG].
  assert (Hnb : ~ gcd_bad w n d) by (intros B; rewrite (HB B) in Hg; discriminate).
  destruct (HG Hnb) as (g' & Hg' & _ & Hs). rewrite Hg in Hg'. injection Hg' as <-.
  specialize (Hs ltac:(lia) ltac:(lia)). nia.
Qed.

Lemma RationalNum_zero_den w n :
  2 <= w <= 64 -> in_w w n -> n <> 0 -> RationalNum w n 0 = Ok (mkRat 1 0).
Proof.
  intros Hw Hn Hn0. unfold RationalNum, Simplify. cbn [num den].
  assert (E : get_gcd w n 0 = Ok n).
  { unfold get_gcd. apply (while_total (gcd_body w) (fun st => st = (n, 0)) (fun r => r = Ok n) (fun _ => 0)).
    - intros st ->. reflexivity.
    - reflexivity.
    - lia. }
  rewrite E. cbn [bind]. pose proof (pow_le_63 w Hw).
  rewrite (sdiv_exact w n n 1) by (try assumption; try (apply is_sint_spec); lia). cbn [bind].
  rewrite (sdiv_exact w 0 n 0) by (try assumption; try (apply is_sint_spec); lia). reflexivity.
Qed.

Lemma RationalNum_zero_zero w : RationalNum w 0 0 = UB.
Proof.
  unfold RationalNum, Simplify. cbn [num den].
  assert (E : get_gcd w 0 0 = Ok 0).
  { unfold get_gcd. apply (while_total (gcd_body w) (fun st => st = (0, 0)) (fun r => r = Ok 0) (fun _ => 0)).
    - intros st ->. reflexivity.
    - reflexivity.
    - lia. }
  rewrite E. reflexivity.
Qed.

Lemma Simplify_idem w r r' :
  2 <= w <= 64 -> in_w w (num r) -> in_w w (den r) -> Simplify w r = Ok r' ->
  Simplify w r' = Ok r'.
Proof.
  intros Hw Hn Hd H.
  apply Simplify_inv in H as (g & Hg0 & Hg & Hab & En & Ed & Hn' & Hd'); auto.
  apply get_gcd_euclid in Hg as He; auto.
  assert (He1 : euclid (num r') (den r') 1).
  { eapply (euclid_unscale g Hg0 _ _ _ He); [exact En|exact Ed|lia]. }
  destruct (get_gcd_spec w (num r') (den r') Hw Hn' Hd') as [_ HG].
  assert (Hnb : ~ gcd_bad w (num r') (den r')).
  { intros B. destruct (get_gcd_spec w (num r) (den r) Hw Hn Hd) as [HB _].
    enough (gcd_bad w (num r) (den r)) as B' by (rewrite (HB B') in Hg; discriminate).
    apply is_sint_spec in Hn, Hd. pose proof (pow_le_63 w Hw) as Hp.
    unfold gcd_bad in *. destruct B as [[E1 E2]|[E1 E2]]; rewrite E1, E2 in *.
    - assert (g = 1) by nia. subst g. left. lia.
    - assert (g = 1) by nia. subst g. right. lia. }
  destruct (HG Hnb) as (g' & Hg' & _ & _).
  assert (g' = 1) by (eapply euclid_fun; [eapply get_gcd_euclid; eauto|assumption]). subst g'.
  unfold Simplify. rewrite Hg'. cbn [bind].
  rewrite (sdiv_exact w (num r') 1 (num r')) by (try assumption; lia). cbn [bind].
  rewrite (sdiv_exact w (den r') 1 (den r')) by (try assumption; lia). cbn [bind].
  destruct r'; reflexivity.
Qed.

(** ** Arithmetic *)


Ltac inv_ok :=
  repeat match goal with
  | H : bind _ _ = Ok _ |- _ =>
      let x := fresh "x" in let Hx := fresh "Hx" in apply bind_ok in H as [x [Hx H]]
  | H : sint _ _ = Ok _ |- _ =>
      let Hr := fresh "Hr" in apply sint_inv in H as [-> Hr]; apply is_sint_spec in Hr;
      match type of Hr with is_sint ?w ?z = true => change (in_w w z) in Hr end
  end.

Ltac qneq := repeat split; apply inject_Z_neq0; assumption.


Lemma RationalNum_result w n d r q :
  2 <= w <= 64 -> in_w w n -> in_w w d -> d <> 0 -> RationalNum w n d = Ok r ->
  (frac n d == q)%Q -> exact_result w r q.
Proof.
  intros Hw Hn Hd Hd0 H E.
  destruct (RationalNum_exact w n d r Hw Hn Hd Hd0 H) as (H1 & H2 & H3 & H4 & H5).
  unfold exact_result, wf. rewrite H1. auto.
Qed.

Lemma radd_exact w a b r : 2 <= w <= 64 -> wf w a -> wf w b -> radd w a b = Ok r ->
  exact_result w r (rv a + rv b)%Q.
Proof.
  intros Hw (Ha1 & Ha2 & Ha3) (Hb1 & Hb2 & Hb3) H. unfold radd in H. inv_ok.
  refine (RationalNum_result _ _ _ _ _ Hw _ _ _ H _); try assumption; [nia|].
  unfold rv, frac. rewrite inject_Z_plus, !inject_Z_mult. field. qneq.
Qed.

Lemma rsub_exact w a b r : 2 <= w <= 64 -> wf w a -> wf w b -> rsub w a b = Ok r ->
  exact_result w r (rv a - rv b)%Q.
Proof.
  intros Hw (Ha1 & Ha2 & Ha3) (Hb1 & Hb2 & Hb3) H. unfold rsub in H. inv_ok.
  refine (RationalNum_result _ _ _ _ _ Hw _ _ _ H _); try assumption; [nia|].
  unfold rv, frac, Z.sub. rewrite inject_Z_plus, inject_Z_opp, !inject_Z_mult. field. qneq.
Qed.

Lemma rmul_exact w a b r : 2 <= w <= 64 -> wf w a -> wf w b -> rmul w a b = Ok r ->
  exact_result w r (rv a * rv b)%Q.
Proof.
  intros Hw (Ha1 & Ha2 & Ha3) (Hb1 & Hb2 & Hb3) H. unfold rmul in H. inv_ok.
  refine (RationalNum_result _ _ _ _ _ Hw _ _ _ H _); try assumption; [nia|].
  unfold rv, frac. rewrite !inject_Z_mult. field. qneq.
Qed.

Lemma rdiv_exact w a b r : 2 <= w <= 64 -> wf w a -> wf w b -> num b <> 0 -> rdiv w a b = Ok r ->
  exact_result w r (rv a / rv b)%Q.
Proof.
  intros Hw (Ha1 & Ha2 & Ha3) (Hb1 & Hb2 & Hb3) Hb0 H. unfold rdiv in H. inv_ok.
  refine (RationalNum_result _ _ _ _ _ Hw _ _ _ H _); try assumption; [nia|].
  unfold rv, frac. rewrite !inject_Z_mult. field. qneq.
Qed.

Lemma radd_ri_exact w a k r : 2 <= w <= 64 -> wf w a -> radd_ri w a k = Ok r ->
  exact_result w r (rv a + inject_Z k)%Q.
Proof.
  intros Hw (Ha1 & Ha2 & Ha3) H. unfold radd_ri in H. inv_ok.
  refine (RationalNum_result _ _ _ _ _ Hw _ _ _ H _); try assumption.
  unfold rv, frac. rewrite inject_Z_plus, !inject_Z_mult. field. qneq.
Qed.

Lemma rsub_ri_exact w a k r : 2 <= w <= 64 -> wf w a -> rsub_ri w a k = Ok r ->
  exact_result w r (rv a - inject_Z k)%Q.
Proof.
  intros Hw (Ha1 & Ha2 & Ha3) H. unfold rsub_ri in H. inv_ok.
  refine (RationalNum_result _ _ _ _ _ Hw _ _ _ H _); try assumption.
  unfold rv, frac, Z.sub. rewrite inject_Z_plus, inject_Z_opp, !inject_Z_mult. field. qneq.
Qed.

Lemma rmul_ri_exact w a k r : 2 <= w <= 64 -> wf w a -> rmul_ri w a k = Ok r ->
  exact_result w r (rv a * inject_Z k)%Q.
Proof.
  intros Hw (Ha1 & Ha2 & Ha3) H. unfold rmul_ri in H. inv_ok.
  refine (RationalNum_result _ _ _ _ _ Hw _ _ _ H _); try assumption.
  unfold rv, frac. rewrite !inject_Z_mult. field. qneq.
Qed.

Lemma rdiv_ri_exact w a k r : 2 <= w <= 64 -> wf w a -> k <> 0 -> rdiv_ri w a k = Ok r ->
  exact_result w r (rv a / inject_Z k)%Q.
Proof.
  intros Hw (Ha1 & Ha2 & Ha3) Hk H. unfold rdiv_ri in H. inv_ok.
  refine (RationalNum_result _ _ _ _ _ Hw _ _ _ H _); try assumption; [nia|].
  unfold rv, frac. rewrite !inject_Z_mult. field. qneq.
Qed.

Lemma rsub_ir_exact w k b r : 2 <= w <= 64 -> wf w b -> rsub_ir w k b = Ok r ->
  exact_result w r (inject_Z k - rv b)%Q.
Proof.
  intros Hw (Hb1 & Hb2 & Hb3) H. unfold rsub_ir in H. inv_ok.
  refine (RationalNum_result _ _ _ _ _ Hw _ _ _ H _); try assumption.
  unfold rv, frac, Z.sub. rewrite inject_Z_plus, inject_Z_opp, !inject_Z_mult. field. qneq.
Qed.

Lemma rdiv_ir_exact w k b r : 2 <= w <= 64 -> wf w b -> num b <> 0 -> rdiv_ir w k b = Ok r ->
  exact_result w r (inject_Z k / rv b)%Q.
Proof.
  intros Hw (Hb1 & Hb2 & Hb3) Hb0 H. unfold rdiv_ir in H. inv_ok.
  refine (RationalNum_result _ _ _ _ _ Hw _ _ _ H _); try assumption.
  unfold rv, frac. rewrite !inject_Z_mult. field. qneq.
Qed.

Lemma exact_result_compat w r q q' : (q == q')%Q -> exact_result w r q -> exact_result w r q'.
Proof. unfold exact_result. intros E. rewrite E. auto. Qed.

(** Definedness: no written intermediate leaves the symmetric range. *)
Lemma sint_ok' w z : in_w' w z -> sint w z = Ok z.
Proof. unfold in_w'. intros H. apply sint_ok. lia. Qed.

Ltac def_ok := cbv zeta; intros; repeat (rewrite sint_ok' by assumption; cbn [bind]);
  match goal with |- exists r, RationalNum ?w ?n ?d = Ok r =>
    destruct (RationalNum_defined w n d) as (r & Hr & _); [lia|assumption|assumption|nia|eauto] end.

Lemma radd_defined w a b : 2 <= w <= 64 -> den a <> 0 -> den b <> 0 ->
  in_w' w (num a * den b) -> in_w' w (num b * den a) ->
  in_w' w (num a * den b + num b * den a) -> in_w' w (den a * den b) ->
  exists r, radd w a b = Ok r.
Proof. unfold radd. def_ok. Qed.

Lemma rsub_defined w a b : 2 <= w <= 64 -> den a <> 0 -> den b <> 0 ->
  in_w' w (num a * den b) -> in_w' w (num b * den a) ->
  in_w' w (num a * den b - num b * den a) -> in_w' w (den a * den b) ->
  exists r, rsub w a b = Ok r.
Proof. unfold rsub. def_ok. Qed.

Lemma rmul_defined w a b : 2 <= w <= 64 -> den a <> 0 -> den b <> 0 ->
  in_w' w (num a * num b) -> in_w' w (den a * den b) ->
  exists r, rmul w a b = Ok r.
Proof. unfold rmul. def_ok. Qed.

Lemma rdiv_defined w a b : 2 <= w <= 64 -> den a <> 0 -> den b <> 0 -> num b <> 0 ->
  in_w' w (num a * den b) -> in_w' w (num b * den a) ->
  exists r, rdiv w a b = Ok r.
Proof. unfold rdiv. def_ok. Qed.

Lemma small_prod w k x y :
  2 <= w -> 0 <= k -> 2 * k + 1 <= w - 1 -> Z.abs x <= 2 ^ k -> Z.abs y <= 2 ^ k ->
  2 * Z.abs (x * y) <= 2 ^ (w - 1).
Proof.
  intros Hw Hk Hkw Hx Hy. rewrite Z.abs_mul.
  assert (2 * (2 ^ k * 2 ^ k) <= 2 ^ (w - 1)).
  { rewrite <- Z.pow_add_r by lia. change 2 with (2 ^ 1) at 1. rewrite <- Z.pow_add_r by lia.
    apply Z.pow_le_mono_r; lia. }
  assert (0 <= 2 ^ k) by lia. nia.
Qed.

(** ** Order and equality *)

Lemma rlt_spec w a b x :
  rlt w a b = Ok x -> x = (num a * den b <? num b * den a).
Proof. unfold rlt. intros H. inv_ok. congruence. Qed.

Lemma req_spec w a b x :
  den a <> 0 -> den b <> 0 -> req w a b = Ok x -> (x = true <-> (rv a == rv b)%Q).
Proof.
  intros Ha Hb H. unfold req, m_eq in H. apply bind_ok in H as [y [Hy H]].
  apply rlt_spec in Hy. unfold rv. rewrite frac_eq by assumption.
  destruct (Z.ltb_spec (num a * den b) (num b * den a)); subst y; simpl in H.
  - injection H as <-. split; [discriminate|lia].
  - apply bind_ok in H as [z [Hz H]]. apply rlt_spec in Hz. injection H as <-.
    destruct (Z.ltb_spec (num b * den a) (num a * den b)); subst z; simpl; split; try discriminate; try lia.
Qed.

Lemma req_defined w a b :
  in_w w (num a * den b) -> in_w w (num b * den a) -> exists x, req w a b = Ok x.
Proof.
  unfold in_w. rewrite !is_sint_spec. intros H1 H2. unfold req, m_eq, rlt.
  rewrite !sint_ok by assumption. cbn [bind].
  destruct (_ <? _); cbn [negb bind]; eauto.
Qed.

Lemma rlt_pos w a b x :
  0 < den a -> 0 < den b -> rlt w a b = Ok x -> (x = true <-> (rv a < rv b)%Q).
Proof.
  intros Ha Hb H. apply rlt_spec in H. unfold rv. rewrite frac_lt_pos by assumption.
  subst x. rewrite Z.ltb_lt. tauto.
Qed.

(** The order is the wrong way round exactly when the denominators have opposite signs. *)
Lemma frac_flip n d : d <> 0 -> (frac n d == frac (- n) (- d))%Q.
Proof. intros H. apply frac_eq; lia. Qed.

Lemma rlt_same_sign w a b x :
  0 < den a * den b -> rlt w a b = Ok x -> (x = true <-> (rv a < rv b)%Q).
Proof.
  intros H Hx. apply rlt_spec in Hx. subst x. rewrite Z.ltb_lt. unfold rv.
  apply Z.lt_0_mul in H as [[Ha Hb]|[Ha Hb]].
  - rewrite frac_lt_pos by assumption. tauto.
  - rewrite (frac_flip (num a)), (frac_flip (num b)) by lia. rewrite frac_lt_pos by lia.
    assert (- num a * - den b = num a * den b) as -> by ring.
    assert (- num b * - den a = num b * den a) as -> by ring. tauto.
Qed.

Lemma rlt_opposite_sign w a b x :
  den a * den b < 0 -> rlt w a b = Ok x -> (x = true <-> (rv b < rv a)%Q).
Proof.
  intros H Hx. apply rlt_spec in Hx. subst x. rewrite Z.ltb_lt. unfold rv.
  apply Z.lt_mul_0 in H as [[Ha Hb]|[Ha Hb]].
  - rewrite (frac_flip (num a)) by lia. rewrite frac_lt_pos by lia.
    assert (- num a * den b = - (num a * den b)) as -> by ring.
    assert (num b * - den a = - (num b * den a)) as -> by ring. lia.
  - rewrite (frac_flip (num b)) by lia. rewrite frac_lt_pos by lia.
    assert (- num b * den a = - (num b * den a)) as -> by ring.
    assert (num a * - den b = - (num a * den b)) as -> by ring. lia.
Qed.

(** ** Mixed comparison *)

Lemma sdiv_defined w a b : in_w w a -> b <> 0 -> ~ (a = - 2 ^ (w - 1) /\ b = -1) -> 2 <= w <= 64 ->
  sdiv w a b = Ok (Z.quot a b).
Proof.
  intros Ha Hb Hn Hw. unfold sdiv. destruct (Z.eqb_spec b 0); [congruence|].
  destruct (sint_cases w (Z.quot a b)) as [[-> _]|[_ Hr]]; [reflexivity|].
  apply is_sint_spec in Ha. pose proof (pow_le_63 w Hw).
  exfalso. apply Hn. apply (Zquot_overflow (2 ^ (w - 1))); try assumption; lia.
Qed.

Lemma mixed_spec w a k q :
  sdiv w (num a) (den a) = Ok q ->
  rlt_ri w a k = Ok (q <? k) /\ rlt_ir w k a = Ok (k <? q) /\
  req_ri w a k = Ok (q =? k) /\ req_ir w k a = Ok (q =? k) /\
  rne_ri w a k = Ok (negb (q =? k)) /\ rne_ir w k a = Ok (negb (q =? k)) /\
  rle_ri w a k = Ok (q <=? k) /\ rge_ri w a k = Ok (k <=? q) /\ rgt_ri w a k = Ok (k <? q) /\
  rle_ir w k a = Ok (k <=? q) /\ rge_ir w k a = Ok (q <=? k) /\ rgt_ir w k a = Ok (q <? k).
Proof.
  intros H. unfold req_ri, req_ir, rne_ri, rne_ir, rle_ri, rge_ri, rgt_ri, rle_ir, rge_ir, rgt_ir,
    m_ne, m_eq, m_le, m_ge, m_gt, rlt_ri, rlt_ir. rewrite H. cbn [bind].
  destruct (Z.ltb_spec q k), (Z.ltb_spec k q), (Z.eqb_spec q k), (Z.leb_spec q k), (Z.leb_spec k q);
    try lia; repeat split.
Qed.

Lemma quot_integral n d k : d <> 0 -> n = k * d -> Z.quot n d = k.
Proof. intros Hd ->. now apply Z.quot_mul. Qed.

(** ** Text *)

Lemma not_digit_slash b l : blanks b -> ~ starts_with_digit (b ++ "/"%char :: l).
Proof.
  intros Hb. destruct b as [|c b]; simpl; rewrite starts_with_digit_cons; [discriminate|].
  inversion Hb; subst. apply is_space_spec in H1. unfold is_digit.
  destruct (digit c) eqn:E; [|discriminate]. apply digit_not_space in E. congruence.
Qed.

Lemma rat_get_ok w r s n d tl :
  rational_text (- 2 ^ (w - 1)) (2 ^ (w - 1)) s n d tl ->
  rat_get w r (fresh s) = (mkRat n d, mkStream tl (is_nil tl) false).
Proof.
  intros (b1 & i1 & b2 & b3 & b4 & i2 & -> & Hb1 & Hb2 & Hb3 & Hb4 & Hi1 & Hi2 & Htl & Hn & Hd).
  unfold rat_get.
  rewrite (get_int_ok w (num r) b1 i1 n);
    [|assumption|assumption|now apply not_digit_slash|now apply is_sint_spec].
  replace (is_nil (b2 ++ "/"%char :: b3 ++ "/"%char :: b4 ++ i2 ++ tl)) with false
    by (destruct b2; reflexivity).
  fold (fresh (b2 ++ "/"%char :: b3 ++ "/"%char :: b4 ++ i2 ++ tl)).
  rewrite get_char_ok by (assumption || reflexivity). cbn [Ascii.eqb negb Bool.eqb].
  rewrite get_char_ok by (assumption || reflexivity). cbn [Ascii.eqb negb Bool.eqb].
  rewrite (get_int_ok w (den r) b4 i2 d); [reflexivity|assumption..|now apply is_sint_spec].
Qed.

Lemma rat_get_inv w r s r' st :
  rat_get w r (fresh s) = (r', st) -> failb st = false ->
  exists tl, rational_text (- 2 ^ (w - 1)) (2 ^ (w - 1)) s (num r') (den r') tl /\
    st = mkStream tl (is_nil tl) false.
Proof.
  unfold rat_get. destruct (get_int w (num r) (fresh s)) as [n st1] eqn:E1.
  destruct (get_char zero st1) as [c1 st2] eqn:E2.
  destruct (Ascii.eqb_spec c1 "/") as [->|]; cbn [negb];
    [|intros H Hf; injection H as <- <-; discriminate].
  destruct (get_char "/" st2) as [c2 st3] eqn:E3.
  destruct (Ascii.eqb_spec c2 "/") as [->|]; cbn [negb];
    [|intros H Hf; injection H as <- <-; discriminate].
  destruct (get_int w (den r) st3) as [d st4] eqn:E4.
  intros H Hf. injection H as <- <-. simpl.
  apply get_int_inv in E4 as (_ & F3 & b4 & i2 & tl & R3 & Hb4 & Hi2 & Htl & Hd & ->); [|assumption].
  apply get_char_inv in E3 as (_ & F2 & b3 & l3 & R2 & Hb3 & _ & ->); [|assumption].
  apply get_char_inv in E2 as (_ & F1 & b2 & l2 & R1 & Hb2 & _ & ->); [|assumption].
  apply get_int_inv in E1 as (_ & F0 & b1 & i1 & tl1 & R0 & Hb1 & Hi1 & Htl1 & Hn & ->); [|assumption].
  simpl in *. subst. exists tl. split; [|reflexivity].
  apply is_sint_spec in Hn, Hd.
  exists b1, i1, b2, b3, b4, i2. repeat split; auto; lia.
Qed.

Lemma FromString_ok_iff w s r0 r :
  FromString w s r0 = (r, Ok tt) <->
  exists tl, rational_text (- 2 ^ (w - 1)) (2 ^ (w - 1)) s (num r) (den r) tl.
Proof.
  unfold FromString. split.
  - destruct (rat_get w r0 (fresh s)) as [r' st] eqn:E.
    destruct (failb st) eqn:Ef; intros H; injection H as <-; [discriminate|].
    apply rat_get_inv in E as (tl & H & _); eauto.
  - intros [tl H]. apply (rat_get_ok w r0) in H. rewrite H. destruct r; reflexivity.
Qed.

Lemma FromString_total w s r0 :
  (exists r, FromString w s r0 = (r, Ok tt)) \/ (exists r, FromString w s r0 = (r, Throw ExBadParsing)).
Proof.
  unfold FromString. destruct (rat_get w r0 (fresh s)) as [r' st]. destruct (failb st); eauto.
Qed.

Lemma FromString_throws_iff w s r0 :
  (exists r, FromString w s r0 = (r, Throw ExBadParsing)) <->
  ~ exists n d tl, rational_text (- 2 ^ (w - 1)) (2 ^ (w - 1)) s n d tl.
Proof.
  split.
  - intros [r H] (n & d & tl & Ht).
    assert (H' : FromString w s r0 = (mkRat n d, Ok tt)) by (apply FromString_ok_iff; eauto).
    congruence.
  - intros H. destruct (FromString_total w s r0) as [[r Hr]|Hr]; [|exact Hr].
    exfalso. apply H. apply FromString_ok_iff in Hr as [tl Ht]. eauto.
Qed.

Lemma rat_put_text w r tl :
  in_w w (num r) -> in_w w (den r) -> ~ starts_with_digit tl ->
  rational_text (- 2 ^ (w - 1)) (2 ^ (w - 1)) (rat_put r ++ tl) (num r) (den r) tl.
Proof.
  intros Hn Hd Htl. apply is_sint_spec in Hn, Hd.
  exists [], (put_int (num r)), [], [], [], (put_int (den r)).
  unfold rat_put. simpl. rewrite <- app_assoc. simpl.
  split; [reflexivity|]. repeat (split; [now constructor|]).
  split; [apply put_int_text|]. split; [apply put_int_text|]. auto.
Qed.

Lemma rat_round_trip w r r0 tl :
  in_w w (num r) -> in_w w (den r) -> ~ starts_with_digit tl ->
  rat_get w r0 (fresh (rat_put r ++ tl)) = (r, mkStream tl (is_nil tl) false).
Proof.
  intros Hn Hd Htl. rewrite (rat_get_ok w r0 _ (num r) (den r) tl).
  - destruct r; reflexivity.
  - now apply rat_put_text.
Qed.

(** ** Statements assembled for the property file *)

Lemma order_ops w a b :
  0 < den a * den b -> in_w w (num a * den b) -> in_w w (num b * den a) ->
  (rlt w a b = Ok true <-> (rv a < rv b)%Q) /\ (rgt w a b = Ok true <-> (rv b < rv a)%Q) /\
  (rle w a b = Ok true <-> (rv a <= rv b)%Q) /\ (rge w a b = Ok true <-> (rv b <= rv a)%Q).
Proof.
  intros H H1 H2.
  assert (D : exists x, rlt w a b = Ok x).
  { unfold in_w in *. rewrite is_sint_spec in *. unfold rlt. rewrite !sint_ok by assumption. cbn [bind]. eauto. }
  assert (D' : exists x, rlt w b a = Ok x).
  { unfold in_w in *. rewrite is_sint_spec in *. unfold rlt. rewrite !sint_ok by assumption. cbn [bind]. eauto. }
  destruct D as [x Hx], D' as [y Hy].
  pose proof (rlt_same_sign w a b x H Hx) as Sx.
  pose proof (rlt_same_sign w b a y ltac:(lia) Hy) as Sy.
  unfold rgt, rle, rge, m_gt, m_le, m_ge. rewrite Hx, Hy. cbn [bind].
  repeat split; intros E.
  - injection E as ->. tauto.
  - f_equal. tauto.
  - injection E as ->. tauto.
  - f_equal. tauto.
  - injection E as E. destruct y; [discriminate|]. apply Qnot_lt_le. intros C. now apply Sy in C.
  - f_equal. destruct y; [|reflexivity]. exfalso. apply (Qle_not_lt _ _ E). tauto.
  - injection E as E. destruct x; [discriminate|]. apply Qnot_lt_le. intros C. now apply Sx in C.
  - f_equal. destruct x; [|reflexivity]. exfalso. apply (Qle_not_lt _ _ E). tauto.
Qed.

Lemma order_inverted w a b :
  den a * den b < 0 -> in_w w (num a * den b) -> in_w w (num b * den a) ->
  (rlt w a b = Ok true <-> (rv b < rv a)%Q).
Proof.
  intros H H1 H2.
  assert (D : exists x, rlt w a b = Ok x).
  { unfold in_w in *. rewrite is_sint_spec in *. unfold rlt. rewrite !sint_ok by assumption. cbn [bind]. eauto. }
  destruct D as [x Hx]. pose proof (rlt_opposite_sign w a b x H Hx) as S. rewrite Hx. split.
  - intros E. injection E as ->. tauto.
  - intros E. f_equal. tauto.
Qed.

Lemma eq_ops w a b :
  den a <> 0 -> den b <> 0 -> in_w w (num a * den b) -> in_w w (num b * den a) ->
  (req w a b = Ok true <-> (rv a == rv b)%Q) /\ (rne w a b = Ok true <-> ~ (rv a == rv b)%Q) /\
  (req w a b = Ok true \/ req w a b = Ok false).
Proof.
  intros Ha Hb H1 H2. destruct (req_defined w a b H1 H2) as [x Hx].
  pose proof (req_spec w a b x Ha Hb Hx) as S.
  unfold rne, m_ne. unfold req in Hx |- *. rewrite Hx. cbn [bind].
  split; [|split].
  - split; [intros E; injection E as ->; tauto|intros E; f_equal; tauto].
  - split.
    + intros E. injection E as E. intros C. apply S in C. subst x. discriminate.
    + intros E. f_equal. destruct x; [|reflexivity]. exfalso. tauto.
  - destruct x; auto.
Qed.

(** Derived operators over a boolean order. *)
Section Derived.
Context {A : Type} (lt : A -> A -> bool).
Let L := fun a b => Ok (lt a b).

Lemma derived_eq a b : m_eq L L a b = Ok (negb (lt a b) && negb (lt b a)).
Proof. unfold m_eq, L. cbn [bind]. destruct (lt a b); reflexivity. Qed.

Lemma derived_swo :
  (forall a, lt a a = false) ->
  (forall a b c, lt a b = true -> lt b c = true -> lt a c = true) ->
  (forall a b c, m_eq L L a b = Ok true -> m_eq L L b c = Ok true -> m_eq L L a c = Ok true) ->
  (forall a, m_eq L L a a = Ok true) /\
  (forall a b, m_eq L L a b = m_eq L L b a) /\
  (forall a b, (lt a b = true /\ m_eq L L a b = Ok false /\ m_gt L a b = Ok false) \/
               (lt a b = false /\ m_eq L L a b = Ok true /\ m_gt L a b = Ok false) \/
               (lt a b = false /\ m_eq L L a b = Ok false /\ m_gt L a b = Ok true)) /\
  (forall a b, m_le L a b = Ok true <-> lt a b = true \/ m_eq L L a b = Ok true) /\
  (forall a b, m_ge L a b = Ok true <-> m_gt L a b = Ok true \/ m_eq L L a b = Ok true) /\
  (forall a b, m_le L a b = Ok true -> m_le L b a = Ok true -> m_eq L L a b = Ok true) /\
  (forall a b c, m_le L a b = Ok true -> m_le L b c = Ok true -> m_le L a c = Ok true) /\
  (forall a b, m_ne L L a b = Ok true <-> m_eq L L a b = Ok false).
Proof.
  intros Hirr Htr Hinc. unfold m_ne.
  assert (As : forall a b, lt a b = true -> lt b a = false).
  { intros a b H. destruct (lt b a) eqn:E; [|reflexivity]. rewrite <- (Hirr a). symmetry.
    eapply Htr; eauto. }
  setoid_rewrite derived_eq. unfold m_le, m_ge, m_gt, L. cbn [bind].
  setoid_rewrite derived_eq in Hinc.
  assert (Inj : forall x y : bool, Ok x = Ok y <-> x = y)
    by (intros x y; split; [intros H; now injection H|congruence]).
  setoid_rewrite Inj in Hinc. setoid_rewrite Inj.
  split; [intros a; now rewrite Hirr|].
  split; [intros a b; apply andb_comm|].
  split. { intros a b. destruct (lt a b) eqn:E1, (lt b a) eqn:E2; simpl; auto.
           rewrite (As _ _ E1) in E2. discriminate. }
  split. { intros a b. destruct (lt a b) eqn:E1, (lt b a) eqn:E2; simpl; split; intros H; auto;
             try (destruct H; discriminate); rewrite (As _ _ E1) in E2; discriminate. }
  split. { intros a b. destruct (lt a b) eqn:E1, (lt b a) eqn:E2; simpl; split; intros H; auto;
             try (destruct H; discriminate); rewrite (As _ _ E1) in E2; discriminate. }
  split. { intros a b. destruct (lt a b), (lt b a); simpl; auto. }
  split.
  { intros a b c H1 H2. destruct (lt c a) eqn:E; [|reflexivity]. exfalso.
    destruct (lt b a) eqn:E1; [discriminate|]. destruct (lt c b) eqn:E2; [discriminate|].
    destruct (lt a b) eqn:E3; [pose proof (Htr _ _ _ E E3); congruence|].
    destruct (lt b c) eqn:E4; [pose proof (Htr _ _ _ E4 E); congruence|].
    specialize (Hinc a b c). rewrite E1, E2, E3, E4, E in Hinc. simpl in Hinc.
    specialize (Hinc eq_refl eq_refl). rewrite andb_false_r in Hinc. discriminate. }
  intros a b. destruct (lt a b), (lt b a); simpl; split; auto; discriminate.
Qed.
End Derived.

Lemma mixed_integral : forall w a k m,
  2 <= w <= 64 -> in_w w (num a) -> den a <> 0 -> ~ (num a = - 2 ^ (w - 1) /\ den a = -1) ->
  num a = m * den a ->
  (rv a == inject_Z m)%Q /\ IsInt w a = Ok true /\
  rlt_ri w a k = Ok (m <? k) /\ rlt_ir w k a = Ok (k <? m) /\ req_ri w a k = Ok (m =? k).
Proof.
  intros w a k m Hw Hn Hd Hm E.
  pose proof (sdiv_defined w (num a) (den a) Hn Hd Hm Hw) as S.
  destruct (mixed_spec w a k _ S) as (H1 & H2 & H3 & _).
  rewrite (quot_integral (num a) (den a) m Hd E) in *.
  split; [|split; [|auto]].
  - unfold rv. rewrite E. unfold frac. rewrite inject_Z_mult. field. now apply inject_Z_neq0.
  - unfold IsInt, smod. unfold sdiv in S. destruct (den a =? 0); [discriminate|].
    apply sint_inv in S as [_ S]. rewrite (quot_integral (num a) (den a) m Hd E) in S. rewrite (quot_integral (num a) (den a) m Hd E), (sint_ok w m S).
    cbn [bind]. rewrite E, Z.rem_mul by assumption. reflexivity.
Qed.

Lemma string_round_trip : forall w r r0,
  in_w w (num r) -> in_w w (den r) -> FromString w (ToString r) r0 = (r, Ok tt).
Proof.
  intros w r r0 Hn Hd. apply FromString_ok_iff. exists nil.
  rewrite <- (app_nil_r (ToString r)). apply rat_put_text; auto. exact starts_with_digit_nil.
Qed.

Lemma rat_put_shape : forall r, exists i1 i2,
  rat_put r = i1 ++ ["/"; "/"]%char ++ i2 /\ int_text i1 (num r) /\ int_text i2 (den r).
Proof.
  intros r. exists (put_int (num r)), (put_int (den r)).
  split; [reflexivity|]. split; apply put_int_text.
Qed.

Lemma derived_any : forall (A : Type) (lt : A -> A -> bool) (a b : A),
  let L := fun a b => Ok (lt a b) in
  m_eq L L a b = Ok (negb (lt a b) && negb (lt b a)) /\
  m_ne L L a b = Ok (lt a b || lt b a) /\
  m_le L a b = Ok (negb (lt b a)) /\ m_gt L a b = Ok (lt b a) /\ m_ge L a b = Ok (negb (lt a b)).
Proof.
  intros A lt a b L. unfold m_ne, m_eq, m_le, m_gt, m_ge, L. cbn [bind].
  destruct (lt a b), (lt b a); repeat split.
Qed.
