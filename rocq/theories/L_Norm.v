(** Proofs about powers, sums and norms. *)
From Coq Require Import ZArith Reals List Lia Lra Bool Psatz.
From Flocq Require Import Core.Core IEEE754.BinarySingleNaN.
From Verif Require Import Base F64 Num S_Math S_Norm M_MathInt M_MathF M_Norm L_MathInt L_MathF L_Sum L_Conv.
Import ListNotations.
Open Scope Z_scope.

Lemma s64_iff z r : s64 z = Ok r <-> is_long z /\ r = z.
Proof.
  unfold s64, sint, is_sint, is_long. change (2 ^ (64 - 1)) with (2 ^ 63).
  destruct (Z.leb_spec (- 2 ^ 63) z), (Z.ltb_spec z (2 ^ 63)); cbn; split; try discriminate; try lia.
  all: intros E; try (injection E as <-); try (destruct E as [? ->]); auto; lia.
Qed.

Lemma s64_ub z : ~ is_long z -> s64 z = UB.
Proof.
  unfold s64, sint, is_sint, is_long. change (2 ^ (64 - 1)) with (2 ^ 63).
  destruct (Z.leb_spec (- 2 ^ 63) z), (Z.ltb_spec z (2 ^ 63)); cbn; auto; lia.
Qed.

Lemma s64_is z : is_long z -> s64 z = Ok z.
Proof. intros. now apply s64_iff. Qed.

Lemma is_long_dec z : is_long z \/ ~ is_long z.
Proof. unfold is_long. lia. Qed.

(** * Powers *)

Lemma square_s_spec x : (is_long (x * x) -> square_s x = Ok (x * x)) /\ (~ is_long (x * x) -> square_s x = UB).
Proof. split; [apply s64_is|apply s64_ub]. Qed.

Lemma cube_square_fits x : is_long (x * x * x) -> is_long (x * x).
Proof.
  unfold is_long. intros H.
  destruct (Z.le_gt_cases 2 x); [|destruct (Z.le_gt_cases x (-2))].
  - assert (2 * (x * x) <= x * x * x) by nia. nia.
  - assert (2 * (x * x) <= - (x * x * x)) by nia. nia.
  - assert (x = -1 \/ x = 0 \/ x = 1) as [->|[->| ->]] by lia; lia.
Qed.

Lemma cube_s_spec x : (is_long (x * x * x) -> cube_s x = Ok (x * x * x)) /\ (~ is_long (x * x * x) -> cube_s x = UB).
Proof.
  unfold cube_s. split; intros H.
  - rewrite s64_is by now apply cube_square_fits. cbn [bind]. now apply s64_is.
  - destruct (is_long_dec (x * x)) as [L|L]; [rewrite (s64_is _ L)|rewrite (s64_ub _ L); reflexivity].
    cbn [bind]. now apply s64_ub.
Qed.

(** * Signed sums and products *)

Section Fold.
Variable op : Z -> Z -> Z.
Variable e : Z.
Definition total (v : list Z) : Z := fold_left op v e.

Lemma ofold_prefix v : forall acc,
  ((forall n, (1 <= n)%nat -> is_long (fold_left op (firstn n v) acc)) \/ v = [] ->
     ofold (fun acc x => s64 (op acc x)) v acc = Ok (fold_left op v acc)) /\
  (forall r, ofold (fun acc x => s64 (op acc x)) v acc = Ok r ->
     r = fold_left op v acc /\ forall n, (1 <= n)%nat -> v <> [] -> is_long (fold_left op (firstn n v) acc)) /\
  (ofold (fun acc x => s64 (op acc x)) v acc = UB \/ exists r, ofold (fun acc x => s64 (op acc x)) v acc = Ok r).
Proof.
  induction v as [|x v IH]; intros acc.
  - cbn. split; [auto|]. split; [intros r E; injection E as <-; split; auto; intros ? ? []; reflexivity|right; eauto].
  - cbn [ofold fold_left]. destruct (is_long_dec (op acc x)) as [L|L].
    + rewrite (s64_is _ L). cbn [bind]. destruct (IH (op acc x)) as (A & B & C). split; [|split; [|exact C]].
      * intros [H|H]; [|discriminate]. apply A. destruct v; [auto|left]. intros n Hn. specialize (H (S n)). cbn [firstn fold_left] in H.
        apply H. lia.
      * intros r E. destruct (B r E) as [-> F]. split; auto. intros n Hn _. destruct n; [lia|]. cbn [firstn fold_left].
        destruct n; [exact L|]. destruct v; [destruct n; exact L|]. apply F; [lia|discriminate].
    + rewrite (s64_ub _ L). cbn [bind]. split; [|split; [discriminate|auto]].
      intros [H|H]; [|discriminate]. exfalso. apply L. apply (H 1%nat). lia.
Qed.
End Fold.

Lemma fold_add l : forall a, fold_left Z.add l a = a + sumZ l.
Proof. induction l as [|x l IH]; intros a; cbn; [lia|]. rewrite IH. unfold sumZ. lia. Qed.
Lemma fold_mul l : forall a, fold_left Z.mul l a = a * prodZ l.
Proof. induction l as [|x l IH]; intros a; cbn; [lia|]. rewrite IH. unfold prodZ. lia. Qed.

Lemma accumulate_sum_s_spec v : (sums_fit v -> accumulate_sum_s v = Ok (sumZ v)) /\ (~ sums_fit v -> accumulate_sum_s v = UB).
Proof.
  unfold accumulate_sum_s. destruct (ofold_prefix Z.add v 0) as (A & B & C). rewrite fold_add in A. split; intros H.
  - apply A. left. intros n _. rewrite fold_add. apply H.
  - destruct C as [C|[r C]]; auto. exfalso. apply H. destruct (B r C) as [_ F]. intros n.
    destruct n; [cbn; unfold is_long; lia|]. destruct v; [cbn; unfold is_long; lia|].
    specialize (F (S n)). rewrite fold_add in F. apply F; [lia|discriminate].
Qed.

Lemma accumulate_product_s_spec v : (prods_fit v -> accumulate_product_s v = Ok (prodZ v)) /\ (~ prods_fit v -> accumulate_product_s v = UB).
Proof.
  unfold accumulate_product_s. destruct (ofold_prefix Z.mul v 1) as (A & B & C). rewrite fold_mul, Z.mul_1_l in A. split; intros H.
  - apply A. left. intros n _. rewrite fold_mul, Z.mul_1_l. apply H.
  - destruct C as [C|[r C]]; auto. exfalso. apply H. destruct (B r C) as [_ F]. intros n.
    destruct n; [cbn; unfold is_long; lia|]. destruct v; [cbn; unfold is_long; lia|].
    specialize (F (S n)). rewrite fold_mul, Z.mul_1_l in F. apply F; [lia|discriminate].
Qed.

(** * sum_into and subtract_into are defined exactly when no component overflows *)

Lemma sum_into_defined l : forall r,
  ((length l <= length r)%nat /\ (forall i, (i < length l)%nat -> is_long (nth i l 0 + nth i r 0)) <-> exists s, sum_into l r = Ok s) /\
  (sum_into l r = UB \/ exists s, sum_into l r = Ok s).
Proof.
  induction l as [|a l IH]; intros [|b r]; cbn [sum_into length].
  - split; [split; eauto|eauto]. intros _. split; [lia|intros; lia].
  - split; [split; eauto|eauto]. intros _. split; [lia|intros; lia].
  - split; [split; [intros [? _]; lia|intros [? E]; discriminate]|auto].
  - destruct (IH r) as [A B]. destruct (is_long_dec (a + b)) as [L|L].
    + rewrite (s64_is _ L). cbn [bind]. split; [split|].
      * intros [Hl Hi]. destruct (proj1 A) as [s E].
        { split; [lia|]. intros i Hi'. apply (Hi (S i)). lia. }
        rewrite E. cbn. eauto.
      * intros [s E]. destruct (sum_into l r) as [t| | |] eqn:T; try discriminate E.
        destruct (proj2 A) as [A1 A2]; [eauto|]. split; [lia|]. intros [|i] Hi; [exact L|]. cbn. apply A2. lia.
      * destruct B as [->|[s ->]]; cbn; eauto.
    + rewrite (s64_ub _ L). cbn [bind]. split; [split|auto].
      * intros [_ Hi]. exfalso. apply L. apply (Hi 0%nat). lia.
      * intros [s E]. discriminate.
Qed.

Lemma subtract_into_defined l : forall r,
  ((length l <= length r)%nat /\ (forall i, (i < length l)%nat -> is_long (nth i l 0 - nth i r 0)) <-> exists s, subtract_into l r = Ok s) /\
  (subtract_into l r = UB \/ exists s, subtract_into l r = Ok s).
Proof.
  induction l as [|a l IH]; intros [|b r]; cbn [subtract_into length].
  - split; [split; eauto|eauto]. intros _. split; [lia|intros; lia].
  - split; [split; eauto|eauto]. intros _. split; [lia|intros; lia].
  - split; [split; [intros [? _]; lia|intros [? E]; discriminate]|auto].
  - destruct (IH r) as [A B]. destruct (is_long_dec (a - b)) as [L|L].
    + rewrite (s64_is _ L). cbn [bind]. split; [split|].
      * intros [Hl Hi]. destruct (proj1 A) as [s E].
        { split; [lia|]. intros i Hi'. apply (Hi (S i)). lia. }
        rewrite E. cbn. eauto.
      * intros [s E]. destruct (subtract_into l r) as [t| | |] eqn:T; try discriminate E.
        destruct (proj2 A) as [A1 A2]; [eauto|]. split; [lia|]. intros [|i] Hi; [exact L|]. cbn. apply A2. lia.
      * destruct B as [->|[s ->]]; cbn; eauto.
    + rewrite (s64_ub _ L). cbn [bind]. split; [split|auto].
      * intros [_ Hi]. exfalso. apply L. apply (Hi 0%nat). lia.
      * intros [s E]. discriminate.
Qed.

(** * Norms in exact arithmetic *)
Open Scope R_scope.

Lemma sumsq_cons x v : sumsq (x :: v) = x * x + sumsq v. Proof. reflexivity. Qed.
Lemma sumsq_nil : sumsq [] = 0. Proof. reflexivity. Qed.

Lemma sumsq_pos v : 0 <= sumsq v.
Proof. induction v; [apply Rle_refl|rewrite sumsq_cons; nra]. Qed.

Lemma fold_sumsq v : forall s, fold_left (fun d x => d + x * x) v s = s + sumsq v.
Proof. induction v as [|x v IH]; intros s; cbn [fold_left]; [unfold sumsq; cbn; lra|]. rewrite IH, sumsq_cons. lra. Qed.

Lemma norms_R v : sum_squared numR v = sumsq v /\ l2norm numR v = euclid v.
Proof.
  unfold sum_squared, l2norm, euclid. cbn [numR n_add n_mul n_ofZ n_sqrt]. rewrite fold_sumsq, Rplus_0_l. auto.
Qed.

Lemma euclid_zero v : euclid v = 0 <-> Forall (fun x => x = 0) v.
Proof.
  unfold euclid. split.
  - intros H. apply sqrt_eq_0 in H; [|apply sumsq_pos].
    induction v as [|x v IH]; constructor; rewrite sumsq_cons in H; pose proof (sumsq_pos v); [nra|apply IH; nra].
  - intros H. assert (E : sumsq v = 0) by (induction H; [reflexivity|rewrite sumsq_cons; subst; lra]). rewrite E. apply sqrt_0.
Qed.

Lemma euclid_scale c v : euclid (map (Rmult c) v) = Rabs c * euclid v.
Proof.
  unfold euclid. assert (E : sumsq (map (Rmult c) v) = c * c * sumsq v) by (induction v; cbn [map]; [rewrite sumsq_nil; ring|rewrite !sumsq_cons, IHv; ring]).
  rewrite E, sqrt_mult by (try apply sumsq_pos; nra). f_equal. now rewrite <- (sqrt_Rsqr_abs c).
Qed.

Fixpoint dot (a b : list R) : R := match a, b with x :: a', y :: b' => x * y + dot a' b' | _, _ => 0 end.

Lemma cauchy a : forall b, dot a b * dot a b <= sumsq a * sumsq b.
Proof.
  induction a as [|x a IH]; intros [|y b]; cbn [dot]; rewrite ?sumsq_cons, ?sumsq_nil; try lra.
  specialize (IH b). pose proof (sumsq_pos a) as A. pose proof (sumsq_pos b) as B.
  set (d := dot a b) in *. set (p := sumsq a) in *. set (q := sumsq b) in *. clearbody d p q.
  assert (K : 2 * (x * y * d) <= x * x * q + y * y * p).
  { destruct (Rle_dec (x * y * d) 0) as [N|N]; [nra|].
    assert (0 <= (x * x * q + y * y * p)) by nra.
    apply Rsqr_incr_0; [|lra|lra]. unfold Rsqr.
    assert ((x * y) * (x * y) * (d * d) <= (x * y) * (x * y) * (p * q)) by (apply Rmult_le_compat_l; [apply Rle_0_sqr|exact IH]).
    assert (0 <= (x * x * q - y * y * p) * (x * x * q - y * y * p)) by apply Rle_0_sqr. nra. }
  nra.
Qed.

Lemma sumsq_add a : forall b, length a = length b -> sumsq (vadd a b) = sumsq a + 2 * dot a b + sumsq b.
Proof. induction a as [|x a IH]; intros [|y b] H; cbn [dot vadd]; cbn [length] in H; rewrite ?sumsq_cons, ?sumsq_nil; try lra; try discriminate. rewrite IH by lia. ring. Qed.

Lemma euclid_triangle a b : length a = length b -> euclid (vadd a b) <= euclid a + euclid b.
Proof.
  intros H. unfold euclid. rewrite sumsq_add by assumption.
  pose proof (sumsq_pos a) as A. pose proof (sumsq_pos b) as B. pose proof (cauchy a b) as C.
  pose proof (sqrt_pos (sumsq a)). pose proof (sqrt_pos (sumsq b)).
  apply Rsqr_incr_0_var; [|lra]. pose proof (sumsq_pos (vadd a b)) as P. rewrite sumsq_add in P by assumption.
  unfold Rsqr. rewrite sqrt_sqrt by exact P.
  replace ((sqrt (sumsq a) + sqrt (sumsq b)) * (sqrt (sumsq a) + sqrt (sumsq b)))
    with (sqrt (sumsq a) * sqrt (sumsq a) + 2 * (sqrt (sumsq a) * sqrt (sumsq b)) + sqrt (sumsq b) * sqrt (sumsq b)) by ring.
  rewrite !sqrt_sqrt by assumption. rewrite <- sqrt_mult by assumption.
  assert (dot a b <= sqrt (sumsq a * sumsq b)); [|lra].
  destruct (Rle_dec (dot a b) 0) as [N|N]; [pose proof (sqrt_pos (sumsq a * sumsq b)); lra|].
  rewrite <- (sqrt_square (dot a b)) by lra. apply sqrt_le_1_alt. exact C.
Qed.

(** * Norms in doubles *)

Lemma fsqrt_inv x : fin (fsqrt x) -> fin x /\ 0 <= RR x /\ RR (fsqrt x) = rnd (sqrt (RR x)).
Proof.
  intros F. destruct (Bsqrt_correct 53 1024 _ _ mode_NE x) as (A & B & _).
  unfold fin, fsqrt in F. rewrite B in F.
  assert (G : fin x /\ 0 <= RR x).
  { destruct x as [s|s| |s m e Hb]; try discriminate F.
    - split; [reflexivity|]. unfold RR. cbn. lra.
    - split; [reflexivity|]. unfold RR. cbn. destruct s; [discriminate F|]. now apply F2R_ge_0. }
  destruct G. repeat split; auto.
Qed.



Lemma square_round x : square_normal x -> (1 - uro) * (x * x) <= rnd (x * x) <= (1 + uro) * (x * x).
Proof.
  intros [->|H].
  - rewrite Rmult_0_r, rnd_0. lra.
  - assert (E : Rabs (rnd (x * x) - x * x) <= uro * Rabs (x * x)).
    { apply rel_err. rewrite Rabs_mult. replace (bpow radix2 (-1000)) with (bpow radix2 (-500) * bpow radix2 (-500)) by (now rewrite <- bpow_plus).
      apply Rmult_le_compat; auto using bpow_ge_0. }
    rewrite (Rabs_pos_eq (x * x)) in E by nra. apply Rabs_le_inv in E. lra.
Qed.

Lemma fold_squares_fin v : forall s, fin (fold_left (fun d x => fadd d (fmul x x)) v s) ->
  fin s /\ Forall (fun x => fin x /\ fin (fmul x x)) v.
Proof.
  induction v as [|x v IH]; intros s F; cbn in *; [auto|].
  destruct (IH _ F) as [G H]. destruct (fadd_inv _ _ G) as (Fs & Fm & _). destruct (fmul_inv _ _ Fm) as (Fx & _).
  split; auto.
Qed.

Lemma fold_squares_bound v : forall s, fin (fold_left (fun d x => fadd d (fmul x x)) v s) ->
  Forall (fun x => square_normal (RR x)) v -> 0 <= RR s ->
  (1 - uro) ^ length v * (RR s + (1 - uro) * sumsq (map RR v)) <= RR (fold_left (fun d x => fadd d (fmul x x)) v s) <=
  (1 + uro) ^ length v * (RR s + (1 + uro) * sumsq (map RR v)).
Proof.
  pose proof uro_pos as U0. pose proof uro_small as U1.
  induction v as [|x v IH]; intros s F N P.
  - cbn [length map fold_left pow]. rewrite sumsq_nil. lra.
  - cbn [fold_left map length] in *. rewrite sumsq_cons. apply Forall_cons_iff in N as [Nx N].
    destruct (fold_squares_fin v _ F) as [Fa _]. destruct (fadd_inv _ _ Fa) as (Fs & Fm & Ra).
    destruct (fmul_inv _ _ Fm) as (Fx & _ & Rm).
    destruct (square_round _ Nx) as [Q1 Q2]. rewrite <- Rm in Q1, Q2.
    assert (X : 0 <= RR x * RR x) by nra.
    assert (Pm : 0 <= RR (fmul x x)) by nra.
    assert (Pa : 0 <= RR (fadd s (fmul x x))) by (rewrite Ra; apply rnd_pos; lra).
    pose proof (plus_err (RR s) (RR (fmul x x)) (fmt_RR _) (fmt_RR _)) as E. rewrite <- Ra in E.
    rewrite (Rabs_pos_eq (RR s + _)) in E by lra. apply Rabs_le_inv in E.
    pose proof (IH _ F N Pa) as [I1 I2].
    set (S' := sumsq (map RR v)) in *. assert (0 <= S') by apply sumsq_pos. clearbody S'.
    set (a := RR (fadd s (fmul x x))) in *. set (m := RR (fmul x x)) in *. set (q := RR x * RR x) in *.
    set (t := RR s) in *. set (res := RR (fold_left _ v _)) in *. clearbody a m q t res.
    assert (G1 : 0 <= (1 - uro) ^ length v) by (apply pow_le; lra).
    assert (G2 : 0 <= (1 + uro) ^ length v) by (apply pow_le; lra).
    assert (A1 : (1 - uro) * (t + (1 - uro) * (q + S')) <= a + (1 - uro) * S').
    { assert ((1 - uro) * (t + m) <= a) by lra. assert ((1 - uro) * (t + (1 - uro) * q) <= (1 - uro) * (t + m)) by (apply Rmult_le_compat_l; lra).
      assert ((1 - uro) * ((1 - uro) * S') <= 1 * ((1 - uro) * S')) by (apply Rmult_le_compat_r; [apply Rmult_le_pos|]; lra). lra. }
    assert (A2 : a + (1 + uro) * S' <= (1 + uro) * (t + (1 + uro) * (q + S'))).
    { assert (a <= (1 + uro) * (t + m)) by lra. assert ((1 + uro) * (t + m) <= (1 + uro) * (t + (1 + uro) * q)) by (apply Rmult_le_compat_l; lra).
      assert (1 * ((1 + uro) * S') <= (1 + uro) * ((1 + uro) * S')) by (apply Rmult_le_compat_r; [apply Rmult_le_pos|]; lra). lra. }
    cbn [pow]. split.
    + apply Rle_trans with (2 := I1). rewrite (Rmult_comm (1 - uro)), Rmult_assoc. now apply Rmult_le_compat_l.
    + apply Rle_trans with (1 := I2). rewrite (Rmult_comm (1 + uro) ((1 + uro) ^ _)), Rmult_assoc. now apply Rmult_le_compat_l.
Qed.

Lemma sum_squared_error v : fin (sum_squared numF v) -> Forall (fun x => square_normal (RR x)) v ->
  (1 - uro) ^ S (length v) * sumsq (map RR v) <= RR (sum_squared numF v) <= (1 + uro) ^ S (length v) * sumsq (map RR v).
Proof.
  intros F N. unfold sum_squared in *. cbn [numF n_add n_mul n_ofZ] in *.
  assert (Z0 : RR (of_Z 0) = 0) by (destruct (of_Z_exact 0) as [E _]; [cbn; lia|exact E]).
  destruct (fold_squares_bound v _ F N) as [A B]; [rewrite Z0; apply Rle_refl|].
  rewrite Z0, Rplus_0_l in A, B. cbn [pow]. split; [rewrite (Rmult_comm (1 - uro) ((1 - uro) ^ _)), Rmult_assoc; exact A|rewrite (Rmult_comm (1 + uro) ((1 + uro) ^ _)), Rmult_assoc; exact B].
Qed.

Lemma sqrt_le_self a : 1 <= a -> sqrt a <= a.
Proof. intros H. rewrite <- (sqrt_square a) at 2 by lra. apply sqrt_le_1_alt. nra. Qed.
Lemma sqrt_ge_self a : 0 <= a <= 1 -> a <= sqrt a.
Proof. intros H. rewrite <- (sqrt_square a) at 1 by lra. apply sqrt_le_1_alt. nra. Qed.

Lemma fmt_min x : fmt x -> x <> 0 -> bpow radix2 (-1074) <= Rabs x.
Proof.
  intros F N. destruct (Rle_or_lt (bpow radix2 (-1074)) (Rabs x)) as [H|H]; auto. exfalso. apply N.
  apply (FLT_format_generic radix2 (-1074) 53) in F. destruct F as [[m e] E _ Ee]. cbn [Fnum Fexp] in *.
  rewrite E in *. rewrite <- F2R_Zabs in H.
  assert (m = 0%Z) as ->; [|apply F2R_0].
  assert (Z.abs m < 1)%Z; [|lia]. apply lt_IZR.
  apply Rmult_lt_reg_r with (bpow radix2 e); [apply bpow_gt_0|]. unfold F2R in H. cbn [Fnum Fexp] in H.
  apply Rlt_le_trans with (1 := H). rewrite Rmult_1_l. now apply bpow_le.
Qed.

Lemma sqrt_normal x : 0 < x -> fmt x -> bpow radix2 (-600) <= sqrt x.
Proof.
  intros P F. apply Rle_trans with (sqrt (bpow radix2 (-1074))).
  - rewrite <- (sqrt_square (bpow radix2 (-600))) by apply bpow_ge_0. apply sqrt_le_1_alt. rewrite <- bpow_plus. now apply bpow_le.
  - apply sqrt_le_1_alt. rewrite <- (Rabs_pos_eq x) by lra. apply (fmt_min _ F). lra.
Qed.

Lemma l2norm_eq v : l2norm numF v = fsqrt (sum_squared numF v). Proof. reflexivity. Qed.

Lemma l2norm_error v : fin (l2norm numF v) -> Forall (fun x => square_normal (RR x)) v ->
  (1 - uro) ^ S (S (length v)) * euclid (map RR v) <= RR (l2norm numF v) <= (1 + uro) ^ S (S (length v)) * euclid (map RR v).
Proof.
  intros F N. pose proof uro_pos as U0. pose proof uro_small as U1.
  rewrite l2norm_eq in *.
  destruct (fsqrt_inv _ F) as (Fs & Ps & E). rewrite E. destruct (sum_squared_error v Fs N) as [A B].
  set (s := RR (sum_squared numF v)) in *. assert (Fmt : fmt s) by apply fmt_RR. clearbody s.
  pose proof (sumsq_pos (map RR v)) as Q. unfold euclid. set (q := sumsq (map RR v)) in *. clearbody q.
  set (n := S (length v)) in *. clearbody n.
  assert (L0 : 0 <= (1 - uro) ^ n) by (apply pow_le; lra).
  assert (L0' : (1 - uro) ^ n <= 1) by (apply Rle_trans with (1 ^ n); [apply pow_incr; lra|rewrite pow1; apply Rle_refl]).
  assert (L1 : 1 <= (1 + uro) ^ n) by (apply pow_R1_Rle; lra).
  assert (SA : (1 - uro) ^ n * sqrt q <= sqrt s).
  { apply Rle_trans with (sqrt ((1 - uro) ^ n * q)); [|now apply sqrt_le_1_alt].
    rewrite sqrt_mult by lra. apply Rmult_le_compat_r; [apply sqrt_pos|]. apply sqrt_ge_self; auto. }
  assert (SB : sqrt s <= (1 + uro) ^ n * sqrt q).
  { apply Rle_trans with (sqrt ((1 + uro) ^ n * q)); [now apply sqrt_le_1_alt|].
    rewrite sqrt_mult by lra. apply Rmult_le_compat_r; [apply sqrt_pos|]. now apply sqrt_le_self. }
  assert (R : (1 - uro) * sqrt s <= rnd (sqrt s) <= (1 + uro) * sqrt s).
  { destruct (Req_dec s 0) as [->|Z]; [rewrite sqrt_0, rnd_0; lra|].
    assert (K : Rabs (rnd (sqrt s) - sqrt s) <= uro * Rabs (sqrt s)).
    { apply rel_err. rewrite Rabs_pos_eq by apply sqrt_pos. apply Rle_trans with (bpow radix2 (-600)); [now apply bpow_le|].
      apply sqrt_normal; [destruct Ps as [Ps|Ps]; [exact Ps|now elim Z]|exact Fmt]. }
    rewrite (Rabs_pos_eq (sqrt s)) in K by apply sqrt_pos. apply Rabs_le_inv in K. lra. }
  pose proof (sqrt_pos s) as P1. pose proof (sqrt_pos q) as P2.
  set (x := sqrt s) in *. set (y := sqrt q) in *. clearbody x y. cbn [pow]. split.
  - apply Rle_trans with (2 := proj1 R). rewrite Rmult_assoc. apply Rmult_le_compat_l; [lra|exact SA].
  - apply Rle_trans with (1 := proj2 R). rewrite Rmult_assoc. apply Rmult_le_compat_l; [lra|exact SB].
Qed.

(** No overflow. *)
Lemma pow_upper n : INR n * uro < 1 -> (1 + uro) ^ n <= / (1 - INR n * uro).
Proof.
  pose proof uro_pos as U. intros H. assert (B : (1 + uro) ^ n * (1 - INR n * uro) <= 1).
  { clear H. induction n as [|n IH]; [cbn; lra|]. rewrite S_INR. cbn [pow].
    assert (0 <= (1 + uro) ^ n) by (apply pow_le; lra).
    assert (0 <= INR n) by apply pos_INR.
    assert ((1 + uro) * (1 - (INR n + 1) * uro) <= 1 - INR n * uro) by nra.
    apply Rle_trans with ((1 + uro) ^ n * ((1 + uro) * (1 - (INR n + 1) * uro))); [right; ring|].
    apply Rle_trans with (2 := IH). now apply Rmult_le_compat_l. }
  apply Rmult_le_reg_r with (1 - INR n * uro); [lra|]. rewrite Rinv_l by lra. exact B.
Qed.

Lemma fold_squares_finite v : forall s (B : R), fin s -> 0 <= RR s -> Forall fin v ->
  (1 + uro) ^ length v * (RR s + (1 + uro) * sumsq (map RR v) + INR (length v) * eta) <= B -> B <= bpow radix2 1023 ->
  fin (fold_left (fun d x => fadd d (fmul x x)) v s) /\ 0 <= RR (fold_left (fun d x => fadd d (fmul x x)) v s) <= B.
Proof.
  pose proof uro_pos as U0. pose proof uro_small as U1. assert (E0 : 0 < eta) by apply bpow_gt_0.
  induction v as [|x v IH]; intros s B Fs Ps Fv H HB.
  - cbn [length map fold_left pow INR] in *. rewrite sumsq_nil in H. split; [exact Fs|]. split; [exact Ps|]. lra.
  - cbn [fold_left map length] in *. rewrite sumsq_cons, S_INR in H. apply Forall_cons_iff in Fv as [Fx Fv].
    cbn [pow] in H. pose proof (sumsq_pos (map RR v)) as Q. pose proof (pos_INR (length v)) as NN.
    assert (G : 1 <= (1 + uro) ^ length v) by (apply pow_R1_Rle; lra).
    assert (X : 0 <= RR x * RR x) by nra.
    set (p := (1 + uro) ^ length v) in *. set (S' := sumsq (map RR v)) in *. set (k := INR (length v)) in *.
    assert (K0 : 0 <= k * eta) by (apply Rmult_le_pos; lra).
    assert (T : (1 + uro) * (RR s + (1 + uro) * (RR x * RR x) + eta) + ((1 + uro) * S' + k * eta) <= 
                (1 + uro) * (RR s + (1 + uro) * (RR x * RR x + S') + (k + 1) * eta)).
    { assert (0 <= uro * ((1 + uro) * S')) by (repeat apply Rmult_le_pos; lra).
      assert (0 <= uro * (k * eta)) by (apply Rmult_le_pos; lra). lra. }
    assert (T' : p * ((1 + uro) * (RR s + (1 + uro) * (RR x * RR x) + eta) + ((1 + uro) * S' + k * eta)) <= B).
    { apply Rle_trans with (2 := H). rewrite (Rmult_comm (1 + uro) p), Rmult_assoc. apply Rmult_le_compat_l; [lra|exact T]. }
    assert (W : (1 + uro) * (RR s + (1 + uro) * (RR x * RR x) + eta) <= B).
    { assert (0 <= (1 + uro) * (RR s + (1 + uro) * (RR x * RR x) + eta)) by (apply Rmult_le_pos; [lra|]; assert (0 <= (1 + uro) * (RR x * RR x)) by (apply Rmult_le_pos; lra); lra).
      assert (0 <= (1 + uro) * S' + k * eta) by (assert (0 <= (1 + uro) * S') by (apply Rmult_le_pos; lra); lra). nra. }
    pose proof (rnd_err (RR x * RR x)) as M. rewrite (Rabs_pos_eq (RR x * RR x)) in M by exact X. apply Rabs_le_inv in M.
    assert (Mp : 0 <= rnd (RR x * RR x)) by (apply rnd_pos; exact X).
    assert (XX : 0 <= uro * (RR x * RR x)) by (apply Rmult_le_pos; lra).
    assert (0 <= uro * (RR s + (1 + uro) * (RR x * RR x) + eta)) by (apply Rmult_le_pos; lra).
    destruct (fmul_ok x x Fx Fx) as [Fm Rm].
    { apply (no_overflow _ 1023); [lia|]. rewrite Rabs_pos_eq by exact X. lra. }
    assert (Sp : 0 <= RR s + RR (fmul x x)) by (rewrite Fm; lra).
    assert (SB : RR s + RR (fmul x x) <= RR s + (1 + uro) * (RR x * RR x) + eta) by (rewrite Fm; lra).
    destruct (fadd_ok s (fmul x x) Fs Rm) as [Ra Fa].
    { apply (no_overflow _ 1023); [lia|]. rewrite Rabs_pos_eq by exact Sp. lra. }
    assert (Pa : 0 <= RR (fadd s (fmul x x))) by (rewrite Ra; apply rnd_pos; exact Sp).
    pose proof (plus_err (RR s) (RR (fmul x x)) (fmt_RR _) (fmt_RR _)) as E. rewrite <- Ra in E.
    rewrite (Rabs_pos_eq (RR s + _)) in E by lra. apply Rabs_le_inv in E.
    apply IH; auto. apply Rle_trans with (2 := T'). apply Rmult_le_compat_l; [lra|].
    assert (RR (fadd s (fmul x x)) <= (1 + uro) * (RR s + RR (fmul x x))) by lra.
    assert ((1 + uro) * (RR s + RR (fmul x x)) <= (1 + uro) * (RR s + (1 + uro) * (RR x * RR x) + eta)) by (apply Rmult_le_compat_l; lra). lra.
Qed.

Lemma norms_finite v : Forall fin v -> (Z.of_nat (length v) <= 2 ^ 50)%Z -> sumsq (map RR v) <= bpow radix2 1021 ->
  fin (sum_squared numF v) /\ fin (l2norm numF v).
Proof.
  intros Fv L S. pose proof uro_pos as U0. pose proof uro_small as U1.
  assert (Z0 : RR (of_Z 0) = 0 /\ fin (of_Z 0)) by (destruct (of_Z_exact 0) as [E F]; [cbn; lia|auto]).
  assert (A : fin (sum_squared numF v) /\ 0 <= RR (sum_squared numF v)).
  { unfold sum_squared. cbn [numF n_add n_mul n_ofZ].
    destruct (fold_squares_finite v (of_Z 0) (bpow radix2 1023)) as [A B]; [apply Z0|rewrite (proj1 Z0); apply Rle_refl|exact Fv| |apply Rle_refl|].
    - rewrite (proj1 Z0), Rplus_0_l.
      assert (N : INR (length v) <= bpow radix2 50).
      { rewrite INR_IZR_INZ. rewrite <- IZR_Zpower by lia. now apply IZR_le. }
      assert (NU : INR (length v) * uro <= / 8).
      { apply Rle_trans with (bpow radix2 50 * uro); [apply Rmult_le_compat_r; lra|]. unfold uro. rewrite <- bpow_plus. cbn. lra. }
      assert (P : (1 + uro) ^ length v <= 8 / 7).
      { apply Rle_trans with (/ (1 - INR (length v) * uro)); [apply pow_upper; lra|]. apply Rmult_le_reg_r with (1 - INR (length v) * uro); [lra|].
        rewrite Rinv_l by lra. lra. }
      assert (NE : INR (length v) * eta <= 1).
      { apply Rle_trans with (bpow radix2 50 * eta); [apply Rmult_le_compat_r; [apply bpow_ge_0|exact N]|]. unfold eta. rewrite <- bpow_plus.
        change 1 with (bpow radix2 0). apply bpow_le. lia. }
      assert (B1 : 1 <= bpow radix2 1021) by (change 1 with (bpow radix2 0); apply bpow_le; lia).
      assert (B2 : bpow radix2 1023 = 4 * bpow radix2 1021) by (replace 4 with (bpow radix2 2) by (cbn; lra); now rewrite <- bpow_plus).
      rewrite B2. set (b := bpow radix2 1021) in *. clearbody b. pose proof (sumsq_pos (map RR v)) as SP.
      set (q := sumsq (map RR v)) in *. clearbody q.
      assert (0 <= INR (length v) * eta) by (apply Rmult_le_pos; [apply pos_INR|apply bpow_ge_0]).
      set (ne := INR (length v) * eta) in *. clearbody ne.
      assert ((1 + uro) * q + ne <= 5 / 2 * b) by nra.
      assert (0 <= (1 + uro) * q + ne) by nra.
      assert (0 <= (1 + uro) ^ length v) by (apply pow_le; lra). nra.
    - tauto. }
  split; [tauto|]. destruct A as [A B]. rewrite l2norm_eq. now apply fsqrt_ok.
Qed.

(** * Norms of integer containers *)

Lemma sumsqZ_ub v : (2 ^ 63 <= sumZ (map (fun x => x * x)%Z v))%Z -> sum_squared_s v = UB.
Proof.
  unfold sum_squared_s.
  enough (G : forall d, (0 <= d)%Z -> (d < 2 ^ 63 <= d + sumZ (map (fun x => x * x)%Z v))%Z ->
     ofold (fun d x => bind (square_s x) (fun q => s64 (d + q))) v d = UB).
  { intros H. apply G; lia. }
  induction v as [|x v IH]; intros d Hd Hs.
  - cbn in Hs. lia.
  - cbn [map] in Hs. rewrite sumZ_cons in Hs. cbn [ofold]. unfold square_s at 1.
    destruct (is_long_dec (x * x)) as [L|L]; [rewrite (s64_is _ L)|now rewrite (s64_ub _ L)]. cbn [bind].
    destruct (is_long_dec (d + x * x)) as [L2|L2]; [rewrite (s64_is _ L2)|now rewrite (s64_ub _ L2)]. cbn [bind].
    unfold is_long in *. apply IH; nia.
Qed.

Lemma l2norm_s_spec v : let s := sumZ (map (fun x => x * x)%Z v) in
  ((2 ^ 63 <= s)%Z -> l2norm_s v = UB) /\
  ((s < 2 ^ 63)%Z -> exists y, l2norm_s v = Ok y /\ fin y /\ RR y = rnd (sqrt (rnd (IZR s)))).
Proof.
  intros s. assert (S0 : (0 <= s)%Z) by apply sumsq_nonneg. split; intros H.
  - unfold l2norm_s. fold (sum_squared_s v). now rewrite (sumsqZ_ub v H).
  - unfold l2norm_s. fold (sum_squared_s v). rewrite (sum_squared_total v H). cbn [bind]. fold s. eexists. split; [reflexivity|].
    destruct (of_Z_ok s) as [A B].
    { apply (Z.le_trans _ (2 ^ 63)); [lia|]. now apply Z.pow_le_mono_r. }
    destruct (fsqrt_ok (of_Z s) B) as [C D]; [rewrite A; apply rnd_pos; now apply IZR_le|]. rewrite A in C. auto.
Qed.

Lemma l2norm_s_exact v : let s := sumZ (map (fun x => x * x)%Z v) in
  (s <= 2 ^ 53)%Z -> exists y, l2norm_s v = Ok y /\ fin y /\ RR y = rnd (euclid (map IZR v)).
Proof.
  intros s H. assert (S0 : (0 <= s)%Z) by apply sumsq_nonneg.
  destruct (l2norm_s_spec v) as [_ A]. fold s in A. destruct A as (y & E & F & R); [apply Z.le_lt_trans with (1 := H); reflexivity|].
  exists y. split; [exact E|]. split; [exact F|]. rewrite R, (rnd_fmt (IZR s)) by (apply fmt_IZR; lia).
  unfold euclid. f_equal. f_equal. unfold s. clear.
  induction v as [|x v IH]; [reflexivity|]. cbn [map]. rewrite sumZ_cons, sumsq_cons, plus_IZR, mult_IZR, IH. reflexivity.
Qed.

(** Underflow and overflow. *)
Lemma l2norm_underflow : fin (dyad 1 (-600)) /\ feq (l2norm numF [dyad 1 (-600)]) f0 = true /\ flt f0 (dyad 1 (-600)) = true.
Proof. vm_compute. auto. Qed.
Lemma l2norm_overflow : fin (dyad 1 600) /\ feq (l2norm numF [dyad 1 600]) finf = true.
Proof. vm_compute. auto. Qed.
