From Coq Require Import ZArith Reals List Bool Lia Lra Psatz.
From Flocq Require Import Core.Core IEEE754.BinarySingleNaN.
From Verif Require Import Base F64 Num S_Math S_MathF M_MathInt L_MathInt M_MathF.
Import ListNotations.
Open Scope Z_scope.

(** * Order on all doubles *)

Lemma flt_fle_trans v x y : flt v x = true -> fle x y = true -> flt v y = true.
Proof.
  intros H1 H2.
  destruct (is_finite v) eqn:Fv, (is_finite x) eqn:Fx, (is_finite y) eqn:Fy.
  - apply flt_R in H1; auto. apply fle_R in H2; auto. apply flt_R; auto. lra.
  - destruct v, x, y; try discriminate; try destruct s1; try destruct s0; try destruct s; auto; discriminate.
  - destruct v, x, y; try discriminate; try destruct s1; try destruct s0; try destruct s; auto; discriminate.
  - destruct v, x, y; try discriminate; try destruct s1; try destruct s0; try destruct s; auto; discriminate.
  - destruct v, x, y; try discriminate; try destruct s1; try destruct s0; try destruct s; auto; discriminate.
  - destruct v, x, y; try discriminate; try destruct s1; try destruct s0; try destruct s; auto; discriminate.
  - destruct v, x, y; try discriminate; try destruct s1; try destruct s0; try destruct s; auto; discriminate.
  - destruct v, x, y; try discriminate; try destruct s1; try destruct s0; try destruct s; auto; discriminate.
Qed.

Lemma flt_irrefl x : flt x x = false.
Proof.
  destruct (is_finite x) eqn:F.
  - apply flt_R_false; auto. lra.
  - destruct x; try discriminate; try destruct s; auto.
Qed.

Lemma flt_fle x y : flt x y = true -> fle x y = true.
Proof. unfold flt, fle, Bltb, Bleb, SpecFloat.SFltb, SpecFloat.SFleb. now destruct (SpecFloat.SFcompare _ _) as [[| |]|]. Qed.

Lemma flt_asym x y : flt x y = true -> flt y x = false.
Proof.
  intros H. destruct (flt y x) eqn:E; auto.
  rewrite <- (flt_irrefl x). symmetry. apply flt_fle_trans with y; auto. now apply flt_fle.
Qed.

Lemma fle_flt_trans v x y : fle v x = true -> flt x y = true -> flt v y = true.
Proof.
  intros H1 H2.
  destruct (is_finite v) eqn:Fv, (is_finite x) eqn:Fx, (is_finite y) eqn:Fy;
  [ apply flt_R in H2; auto; apply fle_R in H1; auto; apply flt_R; auto; lra | .. ];
  destruct v, x, y; try discriminate; try destruct s1; try destruct s0; try destruct s; auto; discriminate.
Qed.

(** Trichotomy away from NaN. *)
Lemma fle_total x y : is_nan x = false -> is_nan y = false -> flt x y = false -> fle y x = true.
Proof.
  intros Nx Ny H.
  destruct (is_finite x) eqn:Fx, (is_finite y) eqn:Fy;
  [ apply fle_R; auto; apply flt_R_false in H; auto | .. ];
  destruct x, y; try discriminate; try destruct s0; try destruct s; auto; discriminate.
Qed.

Lemma flt_not_nan x y : flt x y = true -> is_nan x = false /\ is_nan y = false.
Proof. destruct x, y; try discriminate; auto; destruct s; discriminate. Qed.
Lemma fle_not_nan x y : fle x y = true -> is_nan x = false /\ is_nan y = false.
Proof. destruct x, y; try discriminate; auto; destruct s; discriminate. Qed.

(** * Binary search *)

Lemma vget_some {A} (l : list A) i : 0 <= i < vsize l -> exists x, vget l i = Ok x /\ nth_error l (Z.to_nat i) = Some x.
Proof.
  intros H. destruct (nth_error l (Z.to_nat i)) as [x|] eqn:E.
  - exists x. split; auto. rewrite <- (Z2Nat.id i) by lia. now apply vget_ok.
  - apply nth_error_None in E. unfold vsize in H. lia.
Qed.

Lemma std_upper_bound_splits {A V} (lt : V -> A -> bool) (l : list A) (v : V) first last :
  0 <= first <= last -> last <= vsize l -> vsize l < two63 ->
  (forall i j x y, (i <= j)%nat -> nth_error l i = Some x -> nth_error l j = Some y ->
     lt v x = true -> lt v y = true) ->
  exists p, std_upper_bound lt l v first last = Ok p /\
            splits (fun x => lt v x = true) l first last p.
Proof.
  intros Hf Hl Hs Hm. unfold std_upper_bound.
  refine (while_total (ub_body lt l v)
    (fun st => let '(f, len) := st in first <= f /\ 0 <= len /\ f + len <= last /\
       (forall i x, first <= i < f -> nth_error l (Z.to_nat i) = Some x -> lt v x = false) /\
       (forall i x, f + len <= i < last -> nth_error l (Z.to_nat i) = Some x -> lt v x = true))
    (fun o => exists p, o = Ok p /\ splits (fun x => lt v x = true) l first last p)
    (fun st => snd st) _ _ _ _).
  - intros [f len] (H1 & H2 & H3 & H4 & H5). unfold ub_body.
    destruct (Z.ltb_spec 0 len) as [Hp|Hp].
    + assert (Hh : 0 <= len / 2 < len) by (split; [apply Z.div_pos; lia|apply Z.div_lt; lia]).
      destruct (vget_some l (f + len / 2)) as (x & -> & Ex); [lia|].
      destruct (lt v x) eqn:E; cbn [snd].
      * split; [|lia]. repeat split; auto; try lia.
        intros i y Hi Hy. apply (Hm (Z.to_nat (f + len / 2)) (Z.to_nat i) x y); auto. lia.
      * split; [|lia]. repeat split; auto; try lia.
        -- intros i y Hi Hy. destruct (lt v y) eqn:Ey; auto.
           rewrite <- E. symmetry. apply (Hm (Z.to_nat i) (Z.to_nat (f + len / 2)) y x); auto. lia.
        -- intros i y Hi Hy. apply (H5 i y); auto. lia.
    + exists f. split; auto. split; [lia|]. split.
      * intros i x Hi Hx. rewrite (H4 i x Hi Hx). discriminate.
      * intros i x Hi Hx. apply (H5 i x); auto. lia.
  - cbn. repeat split; try lia.
  - cbn [snd]. pose proof two63_eq. lia.
Qed.

(** * C06 *)

Lemma psum_from_nth acc l : forall i d, (i < length l)%nat ->
  nth i (psum_from acc l) d = fold_left fadd (firstn (S i) l) acc.
Proof.
  revert acc; induction l as [|x l IH]; intros acc i d Hi; simpl in Hi; [lia|].
  destruct i as [|i]; [reflexivity|]. cbn [psum_from nth]. rewrite IH by lia. reflexivity.
Qed.

Lemma psum_from_length acc l : length (psum_from acc l) = length l.
Proof. revert acc; induction l; intros acc; simpl; auto. Qed.

Lemma partial_sum_length l : length (partial_sum l) = length l.
Proof. destruct l; simpl; auto. now rewrite psum_from_length. Qed.

Lemma partial_sum_nth l i d : (i < length l)%nat -> nth i (partial_sum l) d = left_sum l i.
Proof.
  destruct l as [|x l]; simpl; intros Hi; [lia|].
  destruct i as [|i]; [reflexivity|]. rewrite psum_from_nth by lia. reflexivity.
Qed.

Lemma firstn_S_nth {A} (l : list A) d : forall i, (i < length l)%nat ->
  firstn (S i) l = firstn i l ++ [nth i l d].
Proof.
  induction l as [|y l IH]; intros i H; cbn [length] in H; [lia|].
  destruct i as [|i]; [reflexivity|].
  change (y :: firstn (S i) l = y :: (firstn i l ++ [nth i l d])). f_equal. apply IH. lia.
Qed.

Lemma left_sum_S l i : (S i < length l)%nat ->
  left_sum l (S i) = fadd (left_sum l i) (nth (S i) l f0).
Proof.
  destruct l as [|x l]; simpl length; intros Hi; [lia|]. cbn [left_sum].
  change (nth (S i) (x :: l) f0) with (nth i l f0).
  assert (E : firstn (S i) l = firstn i l ++ [nth i l f0]) by (apply firstn_S_nth; lia).
  rewrite E, fold_left_app. reflexivity.
Qed.

Lemma vback_last {A} (l : list A) d : l <> [] -> vback l = Ok (last l d).
Proof.
  intros H. unfold vback. destruct (exists_last H) as (l' & a & ->).
  rewrite rev_app_distr, last_last. reflexivity.
Qed.

Lemma last_nth {A} (l : list A) d : last l d = nth (length l - 1) l d.
Proof.
  induction l as [|a l IH]; [reflexivity|]. destruct l as [|b l]; [reflexivity|].
  change (last (a :: b :: l) d) with (last (b :: l) d). rewrite IH.
  cbn [length]. replace (S (S (length l)) - 1)%nat with (S (S (length l) - 1))%nat by lia. reflexivity.
Qed.

Lemma vback_partial_sum l : l <> [] ->
  vback (partial_sum l) = Ok (left_sum l (length l - 1)).
Proof.
  intros H. rewrite (vback_last _ f0).
  - rewrite last_nth, partial_sum_length, partial_sum_nth; auto. destruct l; [easy|]. simpl. lia.
  - intros E. apply H. apply (f_equal (@length _)) in E. rewrite partial_sum_length in E. now destruct l.
Qed.

Section Weights.
Variable l : list f64.
Hypothesis Hl : l <> [].
Hypothesis Hw : Forall (fun w => fin w /\ (0 <= RR w)%R) l.
Hypothesis Ht : fin (left_sum l (length l - 1)).

Lemma weight_nth i : (i < length l)%nat -> fin (nth i l f0) /\ (0 <= RR (nth i l f0))%R.
Proof. intros Hi. rewrite Forall_forall in Hw. apply Hw. now apply nth_In. Qed.

Lemma sums_fin i : (i < length l)%nat -> fin (left_sum l i).
Proof.
  intros Hi. remember (length l - 1 - i)%nat as k eqn:Ek. revert i Hi Ek.
  induction k as [|k IH]; intros i Hi Ek.
  - now replace i with (length l - 1)%nat by lia.
  - specialize (IH (S i)). rewrite left_sum_S in IH by lia.
    apply fadd_inv in IH as (A & _); auto; lia.
Qed.

Lemma sums_step i : (S i < length l)%nat ->
  RR (left_sum l (S i)) = rnd (RR (left_sum l i) + RR (nth (S i) l f0)).
Proof.
  intros Hi. rewrite left_sum_S by lia. apply fadd_inv. rewrite <- left_sum_S by lia. apply sums_fin; lia.
Qed.

Lemma sums_mono_step i : (S i < length l)%nat -> (RR (left_sum l i) <= RR (left_sum l (S i)))%R.
Proof.
  intros Hi. rewrite sums_step by lia. apply rnd_ge_fmt; [apply fmt_RR|].
  destruct (weight_nth (S i)); [lia|]. lra.
Qed.

Lemma sums_mono i j : (i <= j)%nat -> (j < length l)%nat -> (RR (left_sum l i) <= RR (left_sum l j))%R.
Proof.
  intros H. induction H as [|j H IH]; intros Hj; [lra|].
  apply Rle_trans with (RR (left_sum l j)); [apply IH; lia|apply sums_mono_step; lia].
Qed.

Lemma psums_nth_error i x : nth_error (partial_sum l) i = Some x ->
  (i < length l)%nat /\ x = left_sum l i.
Proof.
  intros E. assert (Hi : (i < length l)%nat).
  { rewrite <- partial_sum_length. apply nth_error_Some. congruence. }
  split; auto. rewrite <- (partial_sum_nth l i f0) by auto. symmetry. now apply nth_error_nth.
Qed.

Lemma choose_search draw :
  choose_between draw l = choose_between_psums draw (partial_sum l) /\
  (choose_between draw l =
   std_upper_bound flt (partial_sum l) (draw (left_sum l (length l - 1))) 0 (vsize l)).
Proof.
  unfold choose_between, choose_between_psums. rewrite vback_partial_sum by auto. cbn [bind].
  unfold vsize. rewrite partial_sum_length. auto.
Qed.

Lemma choose_between_ok draw : vsize l < two63 ->
  let r := draw (left_sum l (length l - 1)) in
  fin r -> (0 <= RR r < RR (left_sum l (length l - 1)))%R ->
  exists i, (i < length l)%nat /\ choose_between draw l = Ok (Z.of_nat i) /\
    (RR r < RR (left_sum l i))%R /\
    (forall j, (j < i)%nat -> (RR (left_sum l j) <= RR r)%R) /\
    (0 < RR (nth i l f0))%R.
Proof.
  intros Hs r Fr Hr. rewrite (proj2 (choose_search draw)). fold r.
  assert (Hlen : (0 < length l)%nat) by (destruct l; [easy|simpl; lia]).
  assert (V : vsize (partial_sum l) = vsize l) by (unfold vsize; now rewrite partial_sum_length).
  destruct (std_upper_bound_splits flt (partial_sum l) r 0 (vsize l)) as (p & -> & (Hp & HA & HB)).
  - unfold vsize. lia.
  - rewrite V. lia.
  - rewrite V. lia.
  - intros i j x y Hij Ex Ey H.
    apply psums_nth_error in Ex as (Hi & ->). apply psums_nth_error in Ey as (Hj & ->).
    apply flt_R in H; auto using sums_fin. apply flt_R; auto using sums_fin.
    pose proof (sums_mono i j Hij Hj). lra.
  - assert (HA' : forall j, (j < Z.to_nat p)%nat -> (RR (left_sum l j) <= RR r)%R).
    { intros j Hj. assert (Hjl : (j < length l)%nat) by (unfold vsize in Hp; lia).
      apply (flt_R_false r); auto using sums_fin. apply not_true_iff_false.
      apply (HA (Z.of_nat j)); [lia|]. rewrite Nat2Z.id.
      rewrite <- (partial_sum_nth l j f0) by auto. apply nth_error_nth'. now rewrite partial_sum_length. }
    assert (Hpl : p < vsize l).
    { destruct (Z_lt_le_dec p (vsize l)); auto. exfalso.
      specialize (HA' (length l - 1)%nat). unfold vsize in *. assert ((length l - 1 < Z.to_nat p)%nat) by lia.
      specialize (HA' H). lra. }
    assert (Hpn : (Z.to_nat p < length l)%nat) by (unfold vsize in *; lia).
    assert (HB' : (RR r < RR (left_sum l (Z.to_nat p)))%R).
    { apply (flt_R r); auto using sums_fin. apply (HB p); [lia|].
      rewrite <- (partial_sum_nth l (Z.to_nat p) f0) by auto. apply nth_error_nth'. now rewrite partial_sum_length. }
    exists (Z.to_nat p). rewrite Z2Nat.id by lia. repeat split; auto.
    destruct (weight_nth (Z.to_nat p) Hpn) as [Fw [Wp|Wz]]; auto. exfalso.
    destruct (Z.to_nat p) as [|k] eqn:Ek.
    + revert HB' Hr Wz. clear. unfold left_sum. destruct l as [|x l']; simpl; [cbn; lra|]. lra.
    + rewrite sums_step in HB' by lia. rewrite <- Wz, Rplus_0_r, rnd_fmt in HB' by apply fmt_RR.
      specialize (HA' k). assert ((k < S k)%nat) by lia. specialize (HA' H). lra.
Qed.

Lemma choose_between_oob draw : vsize l < two63 ->
  let r := draw (left_sum l (length l - 1)) in
  fin r -> (RR (left_sum l (length l - 1)) <= RR r)%R ->
  choose_between draw l = Ok (vsize l).
Proof.
  intros Hs r Fr Hr. rewrite (proj2 (choose_search draw)). fold r.
  assert (Hlen : (0 < length l)%nat) by (destruct l; [easy|simpl; lia]).
  assert (V : vsize (partial_sum l) = vsize l) by (unfold vsize; now rewrite partial_sum_length).
  destruct (std_upper_bound_splits flt (partial_sum l) r 0 (vsize l)) as (p & -> & (Hp & HA & HB)).
  - unfold vsize. lia.
  - rewrite V. lia.
  - rewrite V. lia.
  - intros i j x y Hij Ex Ey H.
    apply psums_nth_error in Ex as (Hi & ->). apply psums_nth_error in Ey as (Hj & ->).
    apply flt_R in H; auto using sums_fin. apply flt_R; auto using sums_fin.
    pose proof (sums_mono i j Hij Hj). lra.
  - destruct (Z_lt_le_dec p (vsize l)); [|f_equal; lia]. exfalso.
    assert (Hpn : (Z.to_nat p < length l)%nat) by (unfold vsize in *; lia).
    assert (HB' : (RR r < RR (left_sum l (Z.to_nat p)))%R).
    { apply (flt_R r); auto using sums_fin. apply (HB p); [lia|].
      rewrite <- (partial_sum_nth l (Z.to_nat p) f0) by auto. apply nth_error_nth'. now rewrite partial_sum_length. }
    pose proof (sums_mono (Z.to_nat p) (length l - 1)). assert (Z.to_nat p <= length l - 1)%nat by lia.
    specialize (H H0). assert (length l - 1 < length l)%nat by lia. specialize (H H1). lra.
Qed.
End Weights.

(** * The draw of libstdc++'s uniform_real_distribution *)

Lemma below_one c : fmt c -> (c < 1)%R -> (c <= 1 - uro)%R.
Proof.
  intros Fc Hc. assert (F1 : fmt 1) by (apply (fmt_IZR 1); cbn; lia).
  pose proof (pred_ge_gt radix2 (FLT_exp (-1074) 53) c 1 Fc F1 Hc) as H.
  change 1%R with (bpow radix2 0) in H. rewrite pred_bpow in H. exact H.
Qed.

(** Multiplying a number above the smallest normal one by something below 1
    gives something smaller, in spite of rounding. *)
Lemma rnd_shrink c b : fmt c -> (0 <= c < 1)%R -> fmt b -> (bpow radix2 (-1022) < b)%R ->
  (rnd (c * b) < b)%R.
Proof.
  intros Fc Hc Fb Hb.
  assert (B0 : (0 < b)%R) by (pose proof (bpow_gt_0 radix2 (-1022)); lra).
  assert (Hc' := below_one c Fc (proj2 Hc)).
  assert (P : (pred radix2 (FLT_exp (-1074) 53) b < b)%R) by (apply pred_lt_id; lra).
  apply Rle_lt_trans with (2 := P).
  apply (round_N_le_midp radix2 (FLT_exp (-1074) 53) (fun x => negb (Z.even x)));
    [now apply generic_format_pred; auto with typeclass_instances|].
  rewrite succ_pred; auto with typeclass_instances.
  assert (G : (b - pred radix2 (FLT_exp (-1074) 53) b < 2 * uro * b)%R).
  { rewrite pred_eq_pos by lra. unfold pred_pos.
    destruct (mag radix2 b) as (e, He). cbn [mag_val].
    specialize (He (Rgt_not_eq _ _ B0)). rewrite Rabs_pos_eq in He by lra.
    assert (Ee : (-1021 <= e)%Z).
    { assert (-1022 < e)%Z; [|lia]. apply (lt_bpow radix2). lra. }
    assert (E53 : (2 * uro)%R = bpow radix2 (-52)).
    { unfold uro. change 2%R with (bpow radix2 1). now rewrite <- bpow_plus. }
    rewrite E53.
    destruct (Req_bool_spec b (bpow radix2 (e - 1))) as [Eb|Nb].
    - replace (b - (b - bpow radix2 (FLT_exp (-1074) 53 (e - 1))))%R with (bpow radix2 (FLT_exp (-1074) 53 (e - 1))) by ring.
      rewrite Eb, <- bpow_plus. apply bpow_lt. unfold FLT_exp.
      assert (-1021 < e)%Z; [|lia]. assert (-1022 < e - 1)%Z; [|lia].
      apply (lt_bpow radix2). now rewrite <- Eb.
    - replace (b - (b - ulp radix2 (FLT_exp (-1074) 53) b))%R with (ulp radix2 (FLT_exp (-1074) 53) b) by ring.
      rewrite ulp_neq_0 by lra. unfold cexp. rewrite (mag_unique_pos radix2 b e He).
      unfold FLT_exp. rewrite Z.max_l by lia.
      replace (e - 53)%Z with (-52 + (e - 1))%Z by ring. rewrite bpow_plus.
      apply Rmult_lt_compat_l; [apply bpow_gt_0|]. lra. }
  assert (uro * b <= b - c * b)%R.
  { replace (b - c * b)%R with ((1 - c) * b)%R by ring. apply Rmult_le_compat_r; lra. }
  lra.
Qed.

Lemma uniform_real_R c top : fin c -> fin top -> (0 <= RR c <= 1)%R -> (0 <= RR top)%R ->
  RR (uniform_real c f0 top) = rnd (RR c * RR top) /\ fin (uniform_real c f0 top).
Proof.
  intros Fc Ft Hc Ht. unfold uniform_real.
  destruct (fsub_ok top f0 Ft fin_f0) as [Es Fs].
  { rewrite RR_f0, Rminus_0_r, rnd_fmt by apply fmt_RR. apply RR_lt_fmax. }
  rewrite RR_f0, Rminus_0_r, rnd_fmt in Es by apply fmt_RR.
  assert (Hm : (Rabs (rnd (RR c * RR top)) < fmax)%R).
  { apply Rle_lt_trans with (RR top).
    - apply rnd_abs_le; [apply fmt_RR|]. rewrite Rabs_mult, !Rabs_pos_eq by lra. nra.
    - pose proof (RR_lt_fmax top). rewrite Rabs_pos_eq in H; lra. }
  destruct (fmul_ok c (fsub top f0) Fc Fs) as [Em Fm]; [now rewrite Es|].
  rewrite Es in Em.
  destruct (fadd_ok (fmul c (fsub top f0)) f0 Fm fin_f0) as [Ea Fa].
  { rewrite RR_f0, Rplus_0_r, rnd_fmt by apply fmt_RR. apply RR_lt_fmax. }
  split; [|exact Fa]. rewrite Ea, RR_f0, Rplus_0_r, rnd_fmt by apply fmt_RR. exact Em.
Qed.

Lemma uniform_real_below c top : fin c -> fin top -> (0 <= RR c < 1)%R ->
  (bpow radix2 (-1022) < RR top)%R ->
  fin (uniform_real c f0 top) /\ (0 <= RR (uniform_real c f0 top) < RR top)%R.
Proof.
  intros Fc Ft Hc Ht. pose proof (bpow_gt_0 radix2 (-1022)).
  destruct (uniform_real_R c top) as [E F]; auto; try lra. split; auto. rewrite E. split.
  - apply rnd_pos. apply Rmult_le_pos; lra.
  - apply rnd_shrink; auto using fmt_RR.
Qed.

(** * C07, C08, C11: comparisons *)

Lemma threshold_true prob r : fin r -> (RR r < 1)%R -> fle f1 prob = true ->
  choose_with_probability prob r = true.
Proof.
  intros Fr Hr H. unfold choose_with_probability. apply flt_fle_trans with f1; auto.
  apply flt_R; auto using fin_f1. now rewrite RR_f1.
Qed.

Lemma threshold_false prob r : fin r -> (0 <= RR r)%R -> fle prob f0 = true \/ is_nan prob = true ->
  choose_with_probability prob r = false.
Proof.
  intros Fr Hr [H|H]; unfold choose_with_probability.
  - destruct (flt r prob) eqn:E; auto. pose proof (flt_fle_trans _ _ _ E H) as E'.
    apply flt_R in E'; auto using fin_f0. rewrite RR_f0 in E'. lra.
  - destruct prob; try discriminate. now destruct r as [|[]| |].
Qed.

Lemma threshold_mono p q r : fle p q = true -> choose_with_probability p r = true ->
  choose_with_probability q r = true.
Proof. unfold choose_with_probability. intros H1 H2. now apply flt_fle_trans with p. Qed.

Lemma sgn_double x :
  (flt f0 x = true -> sgn flt f0 x = 1) /\ (flt x f0 = true -> sgn flt f0 x = -1) /\
  (fin x -> RR x = 0%R -> sgn flt f0 x = 0) /\ (is_nan x = true -> sgn flt f0 x = 0).
Proof.
  unfold sgn. repeat split.
  - intros H. rewrite H, (flt_asym _ _ H). reflexivity.
  - intros H. rewrite H, (flt_asym _ _ H). reflexivity.
  - intros F E. assert (A : flt f0 x = false) by (apply flt_R_false; auto using fin_f0; rewrite RR_f0; lra).
    assert (B : flt x f0 = false) by (apply flt_R_false; auto using fin_f0; rewrite RR_f0; lra).
    now rewrite A, B.
  - destruct x; try discriminate. reflexivity.
Qed.

Lemma heaviside_spec x :
  (fle f0 x = true -> heaviside x = f1) /\ (fle f0 x = false -> heaviside x = f0) /\
  (is_nan x = true -> heaviside x = f0).
Proof.
  unfold heaviside, fge. repeat split; try (intros ->; reflexivity).
  destruct x; try discriminate. reflexivity.
Qed.

Lemma heaviside2_spec x :
  (fin x -> RR x = 0%R -> heaviside2 x = fhalf) /\ (flt f0 x = true -> heaviside2 x = f1) /\
  (flt x f0 = true -> heaviside2 x = f0) /\ (is_nan x = true -> heaviside2 x = f0).
Proof.
  unfold heaviside2, fgt. repeat split.
  - intros F E. replace (feq x f0) with true; auto. symmetry. apply feq_R; auto using fin_f0.
  - intros H. rewrite H. destruct (feq x f0) eqn:E; auto.
    unfold feq, flt, Beqb, Bltb, SpecFloat.SFeqb, SpecFloat.SFltb in *.
    destruct x as [s|[]| |[] m e Hb]; cbn in *; discriminate.
  - intros H. rewrite (flt_asym _ _ H).
    destruct x as [s|[]| |[] m e Hb]; cbn in *; try discriminate; reflexivity.
  - destruct x; try discriminate. reflexivity.
Qed.

Lemma RR_half : RR fhalf = (/ 2)%R /\ fin fhalf.
Proof.
  assert (E : F2R (Float radix2 1 (-1)) = (/ 2)%R) by (unfold F2R; cbn; lra).
  destruct (dyad_ok 1 (-1)) as [A B].
  - apply no_overflow with 0; [lia|]. rewrite E. cbn. rewrite Rabs_pos_eq; lra.
  - split; auto. fold fhalf in A. rewrite A, rnd_fmt; auto.
    rewrite E. replace (/2)%R with (bpow radix2 (-1)) by (cbn; lra). apply fmt_bpow. lia.
Qed.

Lemma fopp_flt x y : flt (fopp x) (fopp y) = flt y x.
Proof.
  destruct (is_finite x) eqn:Fx, (is_finite y) eqn:Fy.
  - destruct (flt y x) eqn:E.
    + apply flt_R; auto; try (apply fin_fopp; assumption). apply flt_R in E; auto. rewrite !RR_fopp. lra.
    + apply flt_R_false; auto; try (apply fin_fopp; assumption). apply flt_R_false in E; auto. rewrite !RR_fopp. lra.
  - destruct x, y; try discriminate; try destruct s0; try destruct s; reflexivity.
  - destruct x, y; try discriminate; try destruct s0; try destruct s; reflexivity.
  - destruct x, y; try discriminate; try destruct s0; try destruct s; reflexivity.
Qed.

Lemma heaviside2_symmetric x : is_nan x = false ->
  fadd (heaviside2 x) (heaviside2 (fopp x)) = f1.
Proof.
  intros N. destruct (heaviside2_spec x) as (A & B & C & _).
  destruct (heaviside2_spec (fopp x)) as (A' & B' & C' & _).
  assert (O : forall y, flt f0 (fopp y) = flt y f0 /\ flt (fopp y) f0 = flt f0 y).
  { intros y. split; [exact (fopp_flt f0 y)|exact (fopp_flt y f0)]. }
  destruct (O x) as [O1 O2]. rewrite O1 in B'. rewrite O2 in C'.
  assert (E1 : fadd f1 f0 = f1) by (apply B2SF_inj; vm_compute; reflexivity).
  assert (E2 : fadd f0 f1 = f1) by (apply B2SF_inj; vm_compute; reflexivity).
  assert (E3 : fadd fhalf fhalf = f1) by (apply B2SF_inj; vm_compute; reflexivity).
  destruct (flt f0 x) eqn:P; [now rewrite (B eq_refl), (C' eq_refl)|].
  destruct (flt x f0) eqn:Q; [now rewrite (C eq_refl), (B' eq_refl)|].
  destruct x as [s|[]| |[] m e Hb]; try discriminate.
  rewrite A, A'; auto; reflexivity.
Qed.

(** * C05: conversion to double *)

Lemma cbinomial_double n k z : cbinomial_int n k = Ok z -> - two63 <= z < two63 ->
  exists x, cbinomial n k = Ok x /\ fin x /\ RR x = rnd (IZR z) /\ (Z.abs z <= 2 ^ 53 -> RR x = IZR z).
Proof.
  intros H Hz. unfold cbinomial. rewrite H. cbn [omap bind]. exists (of_Z z).
  rewrite two63_eq in Hz.
  destruct (of_Z_ok z) as [A B].
  - apply Z.le_trans with (2 ^ 63); [lia|]. now apply Z.pow_le_mono_r.
  - repeat split; auto. intros. now apply of_Z_exact.
Qed.

(** * C10: interpolation *)

Lemma fmul_1_l a : fin a -> RR (fmul f1 a) = RR a /\ fin (fmul f1 a).
Proof.
  intros F. destruct (fmul_ok f1 a fin_f1 F) as [A B]; rewrite RR_f1, Rmult_1_l, rnd_fmt in * by apply fmt_RR; auto.
  apply RR_lt_fmax.
Qed.

Lemma fmul_zero_l z a : fin z -> RR z = 0%R -> fin a -> RR (fmul z a) = 0%R /\ fin (fmul z a).
Proof.
  intros Fz Ez F. destruct (fmul_ok z a Fz F) as [A B]; rewrite Ez, Rmult_0_l, rnd_0 in *; auto.
  rewrite Rabs_R0. apply bpow_gt_0.
Qed.

Lemma lerp_ends a b t : fin a -> fin b -> fin t ->
  (RR t = 0%R -> feq (lerp numF a b t) a = true) /\ (RR t = 1%R -> feq (lerp numF a b t) b = true).
Proof.
  intros Fa Fb Ft.
  assert (E1 : RR f1 = 1%R) by apply RR_f1.
  split; intros Et; unfold lerp; cbn [numF n_add n_mul n_sub n_ofZ]; fold f1.
  - destruct (fsub_ok f1 t fin_f1 Ft) as [A FA].
    { rewrite Et, Rminus_0_r, rnd_fmt by apply fmt_RR. apply RR_lt_fmax. }
    rewrite Et, Rminus_0_r, rnd_fmt in A by apply fmt_RR.
    destruct (fmul_ok (fsub f1 t) a FA Fa) as [B FB]; rewrite A, E1, Rmult_1_l, rnd_fmt in * by apply fmt_RR;
      try apply RR_lt_fmax.
    destruct (fmul_zero_l t b Ft Et Fb) as [C FC].
    destruct (fadd_ok _ _ FB FC) as [D FD]; rewrite B, C, Rplus_0_r, rnd_fmt in * by apply fmt_RR;
      try apply RR_lt_fmax.
    now apply feq_R.
  - destruct (fsub_ok f1 t fin_f1 Ft) as [A FA].
    { rewrite Et, E1. replace (1 - 1)%R with 0%R by ring. rewrite rnd_0, Rabs_R0. apply bpow_gt_0. }
    rewrite Et, E1 in A. replace (1 - 1)%R with 0%R in A by ring. rewrite rnd_0 in A.
    destruct (fmul_zero_l _ a FA A Fa) as [B FB].
    destruct (fmul_ok t b Ft Fb) as [C FC]; rewrite Et, Rmult_1_l, rnd_fmt in * by apply fmt_RR;
      try apply RR_lt_fmax.
    destruct (fadd_ok _ _ FB FC) as [D FD]; rewrite B, C, Rplus_0_l, rnd_fmt in * by apply fmt_RR;
      try apply RR_lt_fmax.
    now apply feq_R.
Qed.

Lemma rnd_IZR_nz j : j <> 0 -> rnd (IZR j) <> 0%R.
Proof.
  intros H. assert (1 <= Rabs (rnd (IZR j)))%R.
  { apply rnd_abs_ge; [apply (fmt_IZR 1); cbn; lia|]. rewrite <- abs_IZR. apply IZR_le. lia. }
  intros E. rewrite E, Rabs_R0 in H0. lra.
Qed.

Lemma two63_1023 j : Z.abs j <= two64 -> Z.abs j <= 2 ^ 1023.
Proof. intros H. apply Z.le_trans with (2 ^ 64); [exact H|]. now apply Z.pow_le_mono_r. Qed.

Lemma lerpi_ends a b j : fin a -> fin b -> j <> 0 -> Z.abs j <= two64 ->
  feq (lerpi numF 0 j a b) a = true /\ feq (lerpi numF j j a b) b = true.
Proof.
  intros Fa Fb Hj Hr. unfold lerpi. cbn [numF n_div n_ofZ].
  destruct (of_Z_ok j (two63_1023 j Hr)) as [Ej Fj].
  assert (Nj : RR (of_Z j) <> 0%R) by (rewrite Ej; now apply rnd_IZR_nz).
  split.
  - destruct (of_Z_exact 0) as [E0 F0]; [cbn; lia|].
    destruct (fdiv_ok (of_Z 0) (of_Z j) F0 Nj) as [Q FQ].
    { rewrite E0. unfold Rdiv. rewrite Rmult_0_l, rnd_0, Rabs_R0. apply bpow_gt_0. }
    apply lerp_ends; auto. rewrite Q, E0. unfold Rdiv. rewrite Rmult_0_l. apply rnd_0.
  - assert (E1 : (RR (of_Z j) / RR (of_Z j) = 1)%R) by (now apply Rinv_r).
    assert (R1 : rnd 1 = 1%R) by (apply rnd_fmt, (fmt_IZR 1); cbn; lia).
    destruct (fdiv_ok (of_Z j) (of_Z j) Fj Nj) as [Q FQ].
    { rewrite E1, R1, Rabs_R1. rewrite fmax_bpow. change 1%R with (bpow radix2 0). apply bpow_lt. lia. }
    apply lerp_ends; auto. now rewrite Q, E1.
Qed.

Lemma lerp_between a b t : (0 <= t <= 1)%R ->
  (Rmin a b <= lerp numR a b t <= Rmax a b)%R.
Proof.
  intros Ht. unfold lerp. cbn [numR n_add n_mul n_sub n_ofZ].
  unfold Rmin, Rmax. destruct (Rle_dec a b); nra.
Qed.

Lemma lerp_monotone a b t t' : (a <= b)%R -> (t <= t')%R -> (lerp numR a b t <= lerp numR a b t')%R.
Proof.
  intros Ht. unfold lerp. cbn [numR n_add n_mul n_sub n_ofZ]. nra.
Qed.

(** * C09: interpolation search *)

Section Isearch.
Variables (off : f64 -> f64 -> f64 -> Z -> out Z) (l : list f64) (v : f64) (first last : Z).
Variable safe : Prop.
Hypothesis Hrange : 0 <= first < last.
Hypothesis Hlast : last <= vsize l.
Hypothesis Hsize : vsize l < two63.
Hypothesis Hinc : increasing l.
Hypothesis Hnan : is_nan v = false.
Hypothesis Hoff : forall itval toval count, flt itval v = true -> flt v toval = true ->
  10000 < count <= last - first ->
  (~ safe /\ last = vsize l /\ off v itval toval count = UB) \/
  exists o, off v itval toval count = Ok o /\ 0 <= o <= count /\ (o = count -> ~ safe /\ last = vsize l).

Let greater (x : f64) := flt v x = true.

Lemma inc_mono i j x y : (i <= j)%nat -> nth_error l i = Some x -> nth_error l j = Some y ->
  flt v x = true -> flt v y = true.
Proof.
  intros Hij Ex Ey H. destruct (Nat.eq_dec i j) as [->|N]; [congruence|].
  apply flt_fle_trans with x; auto. apply flt_fle. apply (Hinc i j); auto. lia.
Qed.

Lemma inc_mono_false i j x y : (i <= j)%nat -> nth_error l i = Some x -> nth_error l j = Some y ->
  flt v y = false -> flt v x = false.
Proof.
  intros Hij Ex Ey H. destruct (flt v x) eqn:E; auto. rewrite <- H. symmetry.
  now apply (inc_mono i j x y).
Qed.

Definition window (it to : Z) : Prop :=
  first <= it /\ to < last /\ it <= to + 1 /\
  (forall i x, first <= i < it -> nth_error l (Z.to_nat i) = Some x -> flt v x = false) /\
  (forall i x, to < i < last -> nth_error l (Z.to_nat i) = Some x -> flt v x = true).

Definition good (o : out (Z + Z * Z)) : Prop :=
  match o with
  | Ok (inl p) => splits greater l first last p
  | Ok (inr (it, to)) => window it to
  | UB => ~ safe
  | _ => False
  end.

Lemma isearch_good : good (isearch off l v first last).
Proof.
  unfold isearch.
  replace (pos_ok l (first + (last - first - 1))) with true
    by (symmetry; unfold pos_ok; apply andb_true_intro; split; [apply Z.leb_le|apply Z.leb_le]; lia).
  refine (while_total (isearch_body off l v)
    (fun st => let '(it, to, count) := st in window it to /\
       (count = to - it \/ (count = to - it + 1 /\ to = last - 1)))
    good (fun st => let '(it, to, count) := st in to - it + 1) _ _ _ _).
  - intros [[it to] count] [(W1 & W2 & W3 & W4 & W5) Hc]. unfold isearch_body.
    destruct (Z.ltb_spec 10000 count) as [H|H]; [|cbn; unfold window; auto].
    destruct (vget_some l it) as (iv & Eiv & Niv); [lia|]. rewrite Eiv. cbn [bind].
    destruct (flt v iv) eqn:C1.
    { cbn. split; [lia|]. split.
      - intros i x Hi Hx. unfold greater. rewrite (W4 i x) by (auto; lia). discriminate.
      - intros i x Hi Hx. unfold greater. apply (inc_mono (Z.to_nat it) (Z.to_nat i) iv x); auto. lia. }
    destruct (flt iv v) eqn:C2; cbn [negb].
    2:{ cbn. split; [lia|].
      assert (Niv' : is_nan iv = false).
      { destruct (vget_some l to) as (tv & _ & Ntv); [lia|].
        apply (flt_not_nan iv tv). apply (Hinc (Z.to_nat it) (Z.to_nat to)); auto. lia. }
      split.
      - intros i x Hi Hx. unfold greater. intros G.
        enough (E : flt v iv = true) by congruence.
        apply (inc_mono (Z.to_nat i) (Z.to_nat it) x iv); auto. lia.
      - intros i x Hi Hx. unfold greater. apply fle_flt_trans with iv.
        + now apply fle_total.
        + apply (Hinc (Z.to_nat it) (Z.to_nat i)); auto. lia. }
    destruct (vget_some l to) as (tv & Etv & Ntv); [lia|]. rewrite Etv. cbn [bind].
    destruct (flt v tv) eqn:C3; cbn [negb].
    2:{ cbn. split; [lia|]. split.
      - intros i x Hi Hx. unfold greater. intros G.
        enough (E : flt v tv = true) by congruence.
        apply (inc_mono (Z.to_nat i) (Z.to_nat to) x tv); auto. lia.
      - intros i x Hi Hx. unfold greater. apply (W5 i x); auto. lia. }
    destruct (Hoff iv tv count C2 C3) as [(S1 & S2 & ->)|(o & -> & Ho & S1)]; [lia|exact S1|].
    cbn [bind].
    replace (pos_ok l (it + o)) with true
      by (symmetry; unfold pos_ok; apply andb_true_intro; split; apply Z.leb_le; lia).
    destruct (Z_lt_le_dec to (it + o)) as [L|L].
    { (* the probe is one past the end *)
      destruct S1 as [S1 S2]; [lia|]. rewrite (vget_oob l (it + o)) by lia. cbn. exact S1. }
    destruct (vget_some l (it + o)) as (nv & Env & Nnv); [lia|]. rewrite Env. cbn [bind].
    destruct (flt v nv) eqn:C4; cbn [negb].
    + assert (o <> 0).
      { intros ->. rewrite Z.add_0_r in Env. rewrite Eiv in Env. injection Env as ->. congruence. }
      replace (pos_ok l (it + o - 1)) with true
        by (symmetry; unfold pos_ok; apply andb_true_intro; split; apply Z.leb_le; lia).
      split; [|lia]. split; [|left; lia]. repeat split; auto; try lia.
      intros i x Hi Hx. apply (inc_mono (Z.to_nat (it + o)) (Z.to_nat i) nv x); auto. lia.
    + split; [|lia]. split; [|left; lia]. repeat split; auto; try lia.
      intros i x Hi Hx. apply (inc_mono_false (Z.to_nat i) (Z.to_nat (it + o)) x nv); auto. lia.
  - split.
    + repeat split; auto; try lia.
    + right. lia.
  - pose proof two63_eq. lia.
Qed.

Lemma upper_bound_with_good :
  (safe -> upper_bound_with off l v first last <> UB) /\
  (upper_bound_with off l v first last = UB \/
   exists p, upper_bound_with off l v first last = Ok p /\ splits greater l first last p).
Proof.
  unfold upper_bound_with. pose proof isearch_good as G.
  destruct (isearch off l v first last) as [[p|[it to]]| | |] eqn:E; cbn [good bind] in *; try tauto.
  - split; [discriminate|]. right. eauto.
  - destruct G as (W1 & W2 & W3 & W4 & W5).
    destruct (std_upper_bound_splits flt l v it (to + 1)) as (p & -> & (P1 & P2 & P3)); try lia.
    { intros i j x y. apply inc_mono. }
    split; [discriminate|]. right. exists p. split; [reflexivity|]. split; [lia|]. split.
    + intros i x Hi Hx. destruct (Z_lt_le_dec i it).
      * unfold greater. rewrite (W4 i x); auto; lia || discriminate.
      * apply (P2 i x); auto; lia.
    + intros i x Hi Hx. unfold greater. destruct (Z_lt_le_dec to i).
      * apply (W5 i x); auto; lia.
      * apply (P3 i x); auto; lia.
Qed.
End Isearch.

(** The interpolated offset, when it is defined, lies between 0 and count. *)
Lemma fix_IZR z : generic_format radix2 (FIX_exp 0) (IZR z).
Proof.
  apply generic_format_FIX. exists (Float radix2 z 0); [|reflexivity].
  unfold F2R. cbn. ring.
Qed.

Lemma fround_range x b : fin x -> (0 <= RR x <= IZR b)%R ->
  fin (fround x) /\ 0 <= Btrunc (fround x) <= b.
Proof.
  intros Fx Hx. unfold fround.
  destruct (Bnearbyint_correct 53 1024 _ mode_NA x) as (A & B & _).
  split; [unfold fin; rewrite B; exact Fx|].
  assert (H1 : (0 <= B2R (Bnearbyint mode_NA x) <= IZR b)%R).
  { rewrite A. split.
    - apply round_ge_generic; auto with typeclass_instances; [apply (fix_IZR 0)|apply Hx].
    - apply round_le_generic; auto with typeclass_instances; [apply (fix_IZR b)|apply Hx]. }
  assert (H2 : (0 <= IZR (Btrunc (Bnearbyint mode_NA x)) <= IZR b)%R).
  { rewrite (Btrunc_correct 53 1024 _). split.
    - apply round_ge_generic; auto with typeclass_instances; [apply (fix_IZR 0)|apply H1].
    - apply round_le_generic; auto with typeclass_instances; [apply (fix_IZR b)|apply H1]. }
  split; apply le_IZR; apply H2.
Qed.

Lemma interp_offset_range v iv tv count : flt iv v = true -> flt v tv = true ->
  0 <= count <= 2 ^ 53 ->
  interp_offset v iv tv count = UB \/
  exists o, interp_offset v iv tv count = Ok o /\ 0 <= o <= count.
Proof.
  intros H1 H2 Hc. destruct (of_Z_exact count) as [Ec Fc]; [lia|].
  assert (Cpos : (0 <= IZR count)%R) by (apply IZR_le; lia).
  assert (Hs : forall o, 0 <= o <= count -> s64 o = Ok o).
  { intros o Ho. apply s64_ok. rewrite two63_eq. lia. }
  unfold interp_offset. cbv zeta.
  set (q := fdiv (fsub v iv) (fsub tv iv)).
  assert (Q : is_finite q = false \/ (fin q /\ (0 <= RR q <= 1)%R)).
  { destruct (is_finite q) eqn:Fq; [right|left; reflexivity]. split; [exact Fq|].
    assert (H3 : flt iv tv = true) by (apply flt_fle_trans with v; auto; now apply flt_fle).
    destruct (is_finite (fsub tv iv)) eqn:FD.
    - destruct (fdiv_inv _ _ Fq FD) as (FN & ND & E).
      destruct (fsub_inv _ _ FN) as (Fv & Fi & EN). destruct (fsub_inv _ _ FD) as (Ft & _ & ED).
      apply flt_R in H1; auto. apply flt_R in H2; auto.
      assert (P : (0 < RR (fsub tv iv))%R) by (rewrite ED; apply rnd_diff_pos; auto using fmt_RR; lra).
      unfold q. rewrite E. rewrite EN, ED in *.
      assert (L : (0 <= rnd (RR v - RR iv) <= rnd (RR tv - RR iv))%R).
      { split; [apply rnd_pos; lra|apply rnd_le; lra]. }
      split.
      + apply rnd_pos. apply Rmult_le_pos; [lra|]. left. now apply Rinv_0_lt_compat.
      + apply rnd_le_fmt; [apply (fmt_IZR 1); cbn; lia|].
        apply Rmult_le_reg_r with (rnd (RR tv - RR iv)); auto. unfold Rdiv.
        rewrite Rmult_assoc, Rinv_l by lra. lra.
    - (* the difference is infinite: the quotient is a zero *)
      unfold q in *. destruct (fsub tv iv) as [s|s| |s m e Hb]; try discriminate.
      + destruct (fsub v iv) as [s'|s'| |s' m' e' Hb']; try discriminate; cbn; lra.
      + destruct (fsub v iv) as [s'|s'| |s' m' e' Hb']; discriminate. }
  set (np := fround (fmul q (of_Z count))).
  assert (NP : is_finite np = false \/ (fin np /\ 0 <= Btrunc np <= count)).
  { destruct (is_finite np) eqn:Fn; [right|left; reflexivity].
    unfold np, fround in Fn. destruct (Bnearbyint_correct 53 1024 _ mode_NA (fmul q (of_Z count))) as (_ & B & _).
    rewrite B in Fn. destruct (fmul_inv _ _ Fn) as (Fq & _ & E).
    destruct Q as [Q|[_ Q]]; [unfold fin in Fq; congruence|].
    apply fround_range; auto. rewrite E, Ec. split.
    - apply rnd_pos. apply Rmult_le_pos; lra.
    - apply rnd_le_fmt; [now apply fmt_IZR; lia|]. nra. }
  destruct NP as [NP|[Fn NP]].
  - left. destruct np; try discriminate; reflexivity.
  - right. exists (Btrunc np). split; auto. destruct np; try discriminate; now apply Hs.
Qed.

(** ** As written: the final call is the function itself. *)
Lemma upper_bound_diverges l v first last :
  0 <= first -> 1 <= last - first <= 10000 -> last <= vsize l ->
  bwsl_upper_bound l v first last = Diverge.
Proof.
  intros Hf Hn Hl. unfold bwsl_upper_bound.
  refine (while_diverge _ (fun st => st = (first, last)) (first, last) _ eq_refl).
  intros s ->. exists (first, last). split; [|reflexivity].
  unfold isearch.
  replace (pos_ok l (first + (last - first - 1))) with true
    by (symmetry; unfold pos_ok; apply andb_true_intro; split; apply Z.leb_le; lia).
  assert (E : while_ (isearch_body interp_offset l v)
                     (first, first + (last - first - 1), last - first)
              = Ok (inr (first, first + (last - first - 1)))).
  { refine (while_total (isearch_body interp_offset l v)
      (fun st => st = (first, first + (last - first - 1), last - first))
      (fun o => o = Ok (inr (first, first + (last - first - 1)))) (fun _ => 0) _ _ eq_refl _); [|lia].
    intros s ->. unfold isearch_body.
    destruct (Z.ltb_spec 10000 (last - first)); [lia|reflexivity]. }
  rewrite E. repeat f_equal. lia.
Qed.

Lemma upper_bound_empty l v : bwsl_upper_bound l v 0 0 = UB.
Proof.
  unfold bwsl_upper_bound.
  refine (while_total _ (fun st => st = (0, 0)) (fun o => o = UB) (fun _ => 0) _ _ eq_refl _); [|lia].
  intros s ->. reflexivity.
Qed.

(** ** With std::upper_bound in line 388 *)
Lemma upper_bound_fixed l v : 0 < vsize l < 2 ^ 53 -> increasing l -> is_nan v = false ->
  upper_bound_with interp_offset l v 0 (vsize l) = UB \/
  exists p, upper_bound_with interp_offset l v 0 (vsize l) = Ok p /\
            splits (fun x => flt v x = true) l 0 (vsize l) p.
Proof.
  intros Hs Hi Hn. assert (HT : 2 ^ 53 < two63) by reflexivity.
  refine (proj2 (upper_bound_with_good interp_offset l v 0 (vsize l) False _ _ _ Hi Hn _)); try lia.
  intros iv tv count H1 H2 H3. destruct (interp_offset_range v iv tv count H1 H2) as [E|(o & E & R)]; [lia| |].
  - left. repeat split; auto.
  - right. exists o. repeat split; auto; lia.
Qed.

Lemma upper_bound_oracle off l v : 0 < vsize l < two63 -> increasing l -> is_nan v = false ->
  (forall iv tv count, flt iv v = true -> flt v tv = true -> 10000 < count ->
     exists o, off v iv tv count = Ok o /\ 0 <= o < count) ->
  exists p, upper_bound_with off l v 0 (vsize l) = Ok p /\
            splits (fun x => flt v x = true) l 0 (vsize l) p.
Proof.
  intros Hs Hi Hn Ho.
  destruct (upper_bound_with_good off l v 0 (vsize l) True) as [A [B|B]]; try lia; auto.
  - intros iv tv count H1 H2 H3. right. destruct (Ho iv tv count H1 H2) as (o & E & R); [lia|].
    exists o. split; [exact E|]. split; lia.
  - now destruct A.
Qed.

Lemma cbinomial_value n k : 0 <= k <= n -> n < two63 - 1 ->
  binomZ n k * Z.min k (n - k) < two63 ->
  exists x, cbinomial n k = Ok x /\ fin x /\ RR x = rnd (IZR (binomZ n k)) /\
            (Z.abs (binomZ n k) <= 2 ^ 53 -> RR x = IZR (binomZ n k)).
Proof.
  intros Hk Hn H. apply cbinomial_double; [now apply cbinomial_int_spec|].
  assert (P : 0 <= binomZ n k) by (unfold binomZ; lia).
  split; [rewrite two63_eq; lia|].
  destruct (Z.eq_dec (Z.min k (n - k)) 0) as [E|E]; [|nia].
  assert (C : k = 0 \/ k = n) by lia.
  assert (binomZ n k = 1) as ->; [|reflexivity].
  destruct C as [->| ->].
  - unfold binomZ. cbn. now destruct (Z.to_nat n).
  - rewrite binomZ_sym by lia. replace (n - n) with 0 by lia.
    unfold binomZ. cbn. now destruct (Z.to_nat n).
Qed.

Lemma choose_psums l : l <> [] -> forall draw,
  choose_between draw l = choose_between_psums draw (partial_sum l) /\
  partial_sum l = map (left_sum l) (seq 0 (length l)).
Proof.
  intros H draw. split; [apply (choose_search l H draw)|].
  apply nth_ext with (d := f0) (d' := left_sum l 0).
  - now rewrite map_length, seq_length, partial_sum_length.
  - intros i Hi. rewrite partial_sum_length in Hi. rewrite map_nth, seq_nth by auto.
    now apply partial_sum_nth.
Qed.

Lemma RR_dyad m e : Z.abs m <= 2 ^ 53 -> -1074 <= e <= 900 ->
  RR (dyad m e) = F2R (Float radix2 m e) /\ fin (dyad m e).
Proof.
  intros Hm He. assert (F : fmt (F2R (Float radix2 m e))) by (apply fmt_F2R; lia).
  destruct (dyad_ok m e) as [A B].
  - apply no_overflow with (53 + e); [lia|]. unfold F2R. cbn [Fnum Fexp].
    rewrite Rabs_mult, (Rabs_pos_eq (bpow radix2 e)) by apply bpow_ge_0.
    rewrite bpow_plus. apply Rmult_le_compat_r; [apply bpow_ge_0|].
    apply IZR_bpow; lia.
  - split; auto. now rewrite A, rnd_fmt.
Qed.

Lemma uniform_real_hits : exists c top,
  fin c /\ fin top /\ (0 <= RR c < 1)%R /\ RR top = bpow radix2 (-1022) /\
  feq (uniform_real c f0 top) top = true /\
  choose_between (uniform_real c f0) [top] = Ok 1.
Proof.
  exists (dyad (2 ^ 53 - 1) (-53)), (dyad 1 (-1022)).
  destruct (RR_dyad (2 ^ 53 - 1) (-53)) as [A B]; [lia|lia|].
  destruct (RR_dyad 1 (-1022)) as [C D]; [lia|lia|].
  split; [exact B|]. split; [exact D|]. split; [|split; [|split; vm_compute; reflexivity]].
  - rewrite A. unfold F2R. cbn [Fnum Fexp]. change (-53) with (- (53)). rewrite bpow_opp.
    rewrite <- IZR_Zpower by lia. change (radix2 ^ 53)%Z with (2 ^ 53).
    assert (0 < IZR (2 ^ 53))%R by (apply IZR_lt; reflexivity).
    rewrite minus_IZR. split.
    + apply Rmult_le_pos; [|left; now apply Rinv_0_lt_compat].
      apply Rle_0_minus. apply IZR_le. discriminate.
    + apply Rmult_lt_reg_r with (IZR (2 ^ 53)); auto. rewrite Rmult_assoc, Rinv_l by lra. lra.
  - rewrite C. unfold F2R. cbn [Fnum Fexp]. ring.
Qed.

Lemma upper_bound_reads_end :
  bwsl_upper_bound (map of_Z (upto 10001)) (dyad 39999 (-2)) 0 10001 = UB /\
  upper_bound_with interp_offset (map of_Z (upto 10001)) (dyad 39999 (-2)) 0 10001 = UB.
Proof. split; vm_compute; reflexivity. Qed.

Lemma upper_bound_duplicates :
  nondecreasing (repeat f0 (Z.to_nat 10001)) /\
  upper_bound_with interp_offset (repeat f0 (Z.to_nat 10001)) f0 0 10001 = Ok 1 /\
  std_upper_bound flt (repeat f0 (Z.to_nat 10001)) f0 0 10001 = Ok 10001.
Proof.
  split; [|split; vm_compute; reflexivity].
  intros i j x y _ Hx Hy. apply nth_error_In, repeat_spec in Hx. apply nth_error_In, repeat_spec in Hy.
  subst. reflexivity.
Qed.

Lemma std_upper_bound_doubles (l : list f64) v first last :
  0 <= first <= last -> last <= vsize l -> vsize l < two63 -> nondecreasing l ->
  exists p, std_upper_bound flt l v first last = Ok p /\
            splits (fun x => flt v x = true) l first last p.
Proof.
  intros Hf Hl Hs Hn. apply std_upper_bound_splits; auto.
  intros i j x y Hij Ex Ey H. apply flt_fle_trans with x; auto. now apply (Hn i j).
Qed.

Lemma lerp_constant :
  flt (lerp numF (of_Z 3) (of_Z 3) (dyad 0x13333333333333 (-54))) (of_Z 3) = true /\
  flt (of_Z 15) (lerp numF (of_Z 15) (of_Z 15) (dyad 0x15555555555555 (-54))) = true.
Proof. split; vm_compute; reflexivity. Qed.
