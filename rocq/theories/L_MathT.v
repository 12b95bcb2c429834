(** Lemmas about the templates of MathUtils.hpp at further types. *)
From Coq Require Import ZArith Reals List Bool Lia Lra Psatz.
From Flocq Require Import Core.Core IEEE754.BinarySingleNaN.
From Verif Require Import Base F64 Num S_Math S_Accum S_MathT M_MathInt M_MathF M_MathT M_Accum
  L_MathInt L_MathF L_Sum L_Accum L_Approx L_Space L_Bravais.
Import ListNotations.
Open Scope R_scope.

(** ** Sums *)

Lemma sum_f_snoc l x : accumulate_sum_f (l ++ [x]) = fadd (accumulate_sum_f l) x.
Proof. unfold accumulate_sum_f. now rewrite fold_left_app. Qed.

Lemma sum_f_error l : fin (accumulate_sum_f l) ->
  Forall fin l /\
  Rabs (RR (accumulate_sum_f l) - sumR (map RR l)) <= ((1 + uro) ^ (length l - 1) - 1) * sum_abs (map RR l).
Proof.
  pose proof uro_pos as U. induction l as [|x l IH] using rev_ind; intros F.
  - split; [constructor|]. cbn. unfold sumR, sum_abs, sumR. cbn. rewrite Rminus_0_r, Rabs_R0. lra.
  - rewrite sum_f_snoc in *. destruct (fadd_inv _ _ F) as (Fs & Fx & E). destruct (IH Fs) as [Fl B].
    split; [apply Forall_app; auto|]. rewrite E, map_app, app_length. cbn [map length]. rewrite sumR_snoc, sum_abs_snoc.
    replace (length l + 1 - 1)%nat with (length l) by lia.
    destruct l as [|y l'].
    { cbn [accumulate_sum_f fold_left length pow map]. unfold accumulate_sum_f. cbn [fold_left]. rewrite RR_f0, Rplus_0_l, rnd_fmt by apply fmt_RR.
      unfold sumR, sum_abs, sumR. cbn. replace (RR x - (0 + RR x)) with 0 by ring. rewrite Rabs_R0. lra. }
    set (l := y :: l') in *. assert (L : length l = S (length l - 1)) by (unfold l; cbn [length]; lia).
    rewrite L. replace (S (length l - 1) - 1)%nat with (length l - 1)%nat by lia. cbn [pow].
    set (s := accumulate_sum_f l) in *. pose proof (plus_err (RR s) (RR x) (fmt_RR _) (fmt_RR _)) as P.
    pose proof (pow_ge_1 (length l - 1)) as G. set (g := (1 + uro) ^ (length l - 1)) in *.
    set (S0 := sumR (map RR l)) in *. set (A := sum_abs (map RR l)) in *.
    assert (SA : Rabs S0 <= A) by apply sumR_abs.
    assert (A0 : 0 <= A) by apply sum_abs_pos.
    replace (rnd (RR s + RR x) - (S0 + RR x)) with ((rnd (RR s + RR x) - (RR s + RR x)) + (RR s - S0)) by ring.
    apply Rle_trans with (1 := Rabs_triang _ _).
    assert (Q : Rabs (RR s + RR x) <= Rabs (RR s - S0) + (A + Rabs (RR x))).
    { replace (RR s + RR x) with ((RR s - S0) + S0 + RR x) by ring. apply Rle_trans with (1 := Rabs_le_3 _ _ _). lra. }
    pose proof (Rabs_pos (RR x)) as X0. set (e := Rabs (RR s - S0)) in *. set (X := Rabs (RR x)) in *.
    set (T := Rabs (RR s + RR x)) in *. set (W := Rabs (rnd (RR s + RR x) - (RR s + RR x))) in *. clearbody S0 A g e X T W.
    assert (I1 : uro * T <= uro * (e + (A + X))) by (apply Rmult_le_compat_l; lra).
    assert (I2 : (1 + uro) * e <= (1 + uro) * ((g - 1) * A)) by (apply Rmult_le_compat_l; lra).
    assert (I3 : 0 <= (1 + uro) * (g - 1) * X) by (apply Rmult_le_pos; [apply Rmult_le_pos|]; lra).
    lra.
Qed.

Lemma sum_f_finite l : (Z.of_nat (length l) <= 2 ^ 49)%Z -> Forall fin l -> sum_abs (map RR l) <= bpow radix2 1019 ->
  fin (accumulate_sum_f l).
Proof.
  pose proof uro_pos as U. induction l as [|x l IH] using rev_ind; intros N F A.
  - exact fin_f0.
  - rewrite app_length in N. cbn [length] in N. apply Forall_app in F as [Fl Fx]. apply Forall_cons_iff in Fx as [Fx _].
    rewrite map_app in A. cbn [map] in A. rewrite sum_abs_snoc in A. pose proof (Rabs_pos (RR x)) as X0.
    assert (Fs : fin (accumulate_sum_f l)) by (apply IH; [lia|assumption|lra]).
    destruct (sum_f_error l Fs) as [_ B]. rewrite sum_f_snoc.
    assert (Nl : INR (length l - 1) * uro <= / 16).
    { apply Rle_trans with (INR (length l) * uro); [apply Rmult_le_compat_r; [lra|]; apply le_INR; lia|apply len_uro; lia]. }
    pose proof (pow_small (length l - 1) ltac:(lra)) as P. pose proof (pow_ge_1 (length l - 1)) as G.
    pose proof (sum_abs_pos (map RR l)) as A0. pose proof (sumR_abs (map RR l)) as SA.
    apply fadd_ok; auto. apply (no_overflow _ 1020); [lia|].
    replace (RR (accumulate_sum_f l) + RR x) with ((RR (accumulate_sum_f l) - sumR (map RR l)) + sumR (map RR l) + RR x) by ring.
    apply Rle_trans with (1 := Rabs_le_3 _ _ _). change 1020%Z with (1 + 1019)%Z. rewrite bpow_plus. change (bpow radix2 1) with 2.
    set (g := (1 + uro) ^ (length l - 1)) in *. set (A1 := sum_abs (map RR l)) in *.
    assert ((g - 1) * A1 <= A1) by nra. lra.
Qed.

Lemma sum_f_integers l : (sumZ (map Z.abs l) <= 2 ^ 53)%Z ->
  fin (accumulate_sum_f (map of_Z l)) /\ RR (accumulate_sum_f (map of_Z l)) = IZR (sumZ l).
Proof.
  induction l as [|x l IH] using rev_ind; intros H; [split; [exact fin_f0|reflexivity]|].
  rewrite map_app in H |- *. cbn [map] in H |- *.
  assert (S1 : forall a b, sumZ (a ++ [b]) = (sumZ a + b)%Z).
  { intros a b. unfold sumZ. induction a as [|c a IHa]; cbn [app fold_right]; [lia|]. rewrite IHa. lia. }
  assert (S2 : forall a, (Z.abs (sumZ a) <= sumZ (map Z.abs a))%Z).
  { unfold sumZ. induction a as [|c a IHa]; cbn [map fold_right]; lia. }
  rewrite S1 in H. pose proof (S2 l). destruct IH as [F E]; [lia|]. rewrite sum_f_snoc, S1, plus_IZR.
  destruct (of_Z_exact x) as [Ex Fx]; [lia|].
  assert (K : rnd (RR (accumulate_sum_f (map of_Z l)) + RR (of_Z x)) = IZR (sumZ l) + IZR x).
  { rewrite E, Ex, <- plus_IZR. apply rnd_fmt, fmt_IZR. lia. }
  destruct (fadd_ok _ _ F Fx) as [R1 F1].
  - rewrite K, <- plus_IZR. apply Rle_lt_trans with (bpow radix2 53).
    + apply IZR_bpow; lia.
    + rewrite fmax_bpow. apply bpow_lt. lia.
  - split; [exact F1|]. now rewrite R1, K.
Qed.

(** ** Products *)

Lemma prodR_snoc a x : prodR (a ++ [x]) = prodR a * x.
Proof. unfold prodR. induction a as [|y a IH]; cbn [app fold_right]; [ring|]. rewrite IH. ring. Qed.

Lemma prod_f_snoc l x : accumulate_product_f (l ++ [x]) = fmul (accumulate_product_f l) x.
Proof. unfold accumulate_product_f. now rewrite fold_left_app. Qed.

Lemma pow_lower n : INR n * uro <= / 16 -> / 2 <= (1 - uro) ^ n.
Proof.
  pose proof uro_pos as U. pose proof uro_small as U1. intros H.
  assert (G : 1 - INR n * uro <= (1 - uro) ^ n).
  { clear H. induction n as [|n IH]; [cbn; lra|]. rewrite S_INR. cbn [pow]. pose proof (pos_INR n). nra. }
  lra.
Qed.

Lemma prod_f_error l : (Z.of_nat (length l) <= 2 ^ 49)%Z -> fin (accumulate_product_f l) -> no_underflow (map RR l) ->
  Forall fin l /\ exists d, RR (accumulate_product_f l) = d * prodR (map RR l) /\
    (1 - uro) ^ (length l - 1) <= d <= (1 + uro) ^ (length l - 1).
Proof.
  pose proof uro_pos as U. pose proof uro_small as U1. induction l as [|x l IH] using rev_ind; intros N F H.
  - split; [constructor|]. exists 1. split; [change (RR f1 = 1 * 1); rewrite RR_f1; ring|cbn; lra].
  - rewrite app_length in N. cbn [length] in N. rewrite prod_f_snoc in *. destruct (fmul_inv _ _ F) as (Fs & Fx & E).
    assert (H0 : no_underflow (map RR l)).
    { intros p q Q. apply (H p (q ++ [RR x])). rewrite map_app. cbn [map]. now rewrite app_assoc, <- Q. }
    destruct (IH ltac:(lia) Fs H0) as (Fl & d & D & D1 & D2). clear IH.
    split; [apply Forall_app; auto|]. rewrite E, map_app, app_length. cbn [map length]. rewrite prodR_snoc.
    replace (length l + 1 - 1)%nat with (length l) by lia.
    destruct l as [|y l'].
    { unfold accumulate_product_f in *. cbn [fold_left length pow map] in *. rewrite RR_f1, Rmult_1_l, rnd_fmt by apply fmt_RR.
      exists 1. unfold prodR. cbn. lra. }
    set (l := y :: l') in *. assert (L : length l = S (length l - 1)) by (unfold l; cbn [length]; lia).
    rewrite L. replace (S (length l - 1) - 1)%nat with (length l - 1)%nat by lia. cbn [pow].
    specialize (H (map RR l ++ [RR x]) []). rewrite app_nil_r, map_app in H. specialize (H eq_refl). rewrite prodR_snoc in H.
    rewrite D, Rmult_assoc. set (P := prodR (map RR l) * RR x) in *.
    assert (Nl : INR (length l - 1) * uro <= / 16).
    { apply Rle_trans with (INR (length l) * uro); [apply Rmult_le_compat_r; [lra|]; apply le_INR; lia|apply len_uro; lia]. }
    pose proof (pow_lower _ Nl) as PL. pose proof (pow_ge_1 (length l - 1)) as G.
    destruct H as [Z|H].
    { exists d. rewrite Z, !Rmult_0_r, rnd_0. split; [reflexivity|]. nra. }
    assert (R : Rabs (rnd (d * P) - d * P) <= uro * Rabs (d * P)).
    { apply rnd_rel. rewrite Rabs_mult, (Rabs_pos_eq d) by lra.
      apply Rle_trans with (/ 2 * bpow radix2 (-1000)); [|apply Rmult_le_compat; try lra; apply bpow_ge_0].
      change (/ 2) with (bpow radix2 (-1)). rewrite <- bpow_plus. apply bpow_le. lia. }
    assert (P0 : P <> 0). { intros Z. rewrite Z, Rabs_R0 in H. pose proof (bpow_gt_0 radix2 (-1000)). lra. }
    exists (rnd (d * P) / P). split; [field; exact P0|].
    assert (B : Rabs (rnd (d * P) / P - d) <= uro * d).
    { replace (rnd (d * P) / P - d) with ((rnd (d * P) - d * P) / P) by (field; exact P0).
      unfold Rdiv. rewrite Rabs_mult, Rabs_inv. rewrite Rabs_mult, (Rabs_pos_eq d) in R by lra.
      pose proof (Rabs_pos_lt _ P0). apply Rmult_le_reg_r with (Rabs P); [assumption|].
      rewrite Rmult_assoc, Rinv_l by lra. lra. }
    apply Rabs_le_inv in B. set (h := (1 - uro) ^ (length l - 1)) in *. set (g := (1 + uro) ^ (length l - 1)) in *.
    clearbody h g. split; nra.
Qed.

(** ** absdiff *)

Lemma absdiff_f_ok a b : fin a -> fin b -> Rabs (rnd (RR a - RR b)) < fmax ->
  fin (absdiff_f a b) /\ RR (absdiff_f a b) = rnd (Rabs (RR a - RR b)).
Proof.
  intros Fa Fb H. unfold absdiff_f, fgt. destruct (flt b a) eqn:C.
  - apply flt_R in C; auto. destruct (fsub_ok a b Fa Fb H) as [E F]. split; [exact F|]. rewrite E, Rabs_pos_eq by lra. reflexivity.
  - apply flt_R_false in C; auto.
    assert (H' : Rabs (rnd (RR b - RR a)) < fmax) by (replace (RR b - RR a) with (- (RR a - RR b)) by ring; now rewrite rnd_opp, Rabs_Ropp).
    destruct (fsub_ok b a Fb Fa H') as [E F]. split; [exact F|]. rewrite E. f_equal. rewrite Rabs_left1 by lra. ring.
Qed.

Lemma absdiff_f_zero a b : fin a -> fin b -> Rabs (rnd (RR a - RR b)) < fmax ->
  (RR (absdiff_f a b) = 0 <-> RR a = RR b).
Proof.
  intros Fa Fb H. rewrite (proj2 (absdiff_f_ok a b Fa Fb H)), rnd_abs. split; intros E.
  - destruct (Req_dec (RR a - RR b) 0) as [Z|Z]; [lra|]. exfalso.
    assert (rnd (RR a + - RR b) <> 0) by (apply rnd_plus_nz; [apply fmt_RR|apply fmt_opp, fmt_RR|exact Z]).
    assert (K : Rabs (rnd (RR a - RR b)) <> 0) by (apply Rabs_no_R0; assumption). auto.
  - rewrite E, Rminus_diag_eq by reflexivity. rewrite rnd_0. apply Rabs_R0.
Qed.

Lemma absdiff_f_sym a b : absdiff_f a b = absdiff_f b a \/ feq (absdiff_f a b) (absdiff_f b a) = true.
Proof.
  unfold absdiff_f, fgt. destruct (flt b a) eqn:C1, (flt a b) eqn:C2; auto.
  - exfalso. pose proof (flt_fle_trans a b a C2 (flt_fle _ _ C1)) as K. rewrite flt_irrefl in K. discriminate.
  - destruct (is_nan a) eqn:Na. { left. destruct a; try discriminate. destruct b as [s|s| |s m e p]; reflexivity. }
    destruct (is_nan b) eqn:Nb. { left. destruct b; try discriminate. destruct a as [s|s| |s m e p]; reflexivity. }
    destruct (is_finite a) eqn:Fa, (is_finite b) eqn:Fb.
    + right. apply flt_R_false in C1, C2; auto. assert (Q : RR a = RR b) by lra.
      assert (Z1 : Rabs (rnd (RR a - RR b)) < fmax) by (rewrite Q, Rminus_diag_eq by reflexivity; rewrite rnd_0, Rabs_R0; apply bpow_gt_0).
      assert (Z2 : Rabs (rnd (RR b - RR a)) < fmax) by (rewrite Q, Rminus_diag_eq by reflexivity; rewrite rnd_0, Rabs_R0; apply bpow_gt_0).
      destruct (fsub_ok _ _ Fa Fb Z1) as [E1 F1]. destruct (fsub_ok _ _ Fb Fa Z2) as [E2 F2].
      apply feq_R; auto. rewrite E1, E2, Q. reflexivity.
    + exfalso. destruct b as [s|s| |s m e p]; try discriminate; destruct a as [s'|s'| |s' m' e' p'], s; try discriminate; destruct s'; discriminate.
    + exfalso. destruct a as [s|s| |s m e p]; try discriminate; destruct b as [s'|s'| |s' m' e' p'], s; try discriminate; destruct s'; discriminate.
    + left. destruct a as [s|s| |s m e p], b as [s'|s'| |s' m' e' p']; try discriminate; destruct s, s'; try discriminate; reflexivity.
Qed.

(** ** max and min *)

Lemma fold_max v : forall a, is_nan a = false -> numbers v ->
  let m := fold_left (fun best x => if flt best x then x else best) v a in
  In m (a :: v) /\ fle a m = true /\ Forall (fun x => fle x m = true) v.
Proof.
  induction v as [|x v IH]; intros a Na Nv; cbn [fold_left].
  - split; [now left|]. split; [now apply fle_refl|constructor].
  - apply Forall_cons_iff in Nv as [Nx Nv]. destruct (flt a x) eqn:C.
    + destruct (IH x Nx Nv) as (I & Lx & L). split; [now right|]. split; [|constructor; auto].
      apply fle_trans with x; [now apply flt_fle|exact Lx].
    + destruct (IH a Na Nv) as (I & La & L). split; [destruct I; [left|right; right]; auto|]. split; [exact La|]. constructor; auto.
      apply fle_trans with a; [now apply fle_total|exact La].
Qed.

Lemma fold_min v : forall a, is_nan a = false -> numbers v ->
  let m := fold_left (fun best x => if flt x best then x else best) v a in
  In m (a :: v) /\ fle m a = true /\ Forall (fun x => fle m x = true) v.
Proof.
  induction v as [|x v IH]; intros a Na Nv; cbn [fold_left].
  - split; [now left|]. split; [now apply fle_refl|constructor].
  - apply Forall_cons_iff in Nv as [Nx Nv]. destruct (flt x a) eqn:C.
    + destruct (IH x Nx Nv) as (I & Lx & L). split; [now right|]. split; [|constructor; auto].
      apply fle_trans with x; [exact Lx|now apply flt_fle].
    + destruct (IH a Na Nv) as (I & La & L). split; [destruct I; [left|right; right]; auto|]. split; [exact La|]. constructor; auto.
      apply fle_trans with a; [exact La|now apply fle_total].
Qed.

Lemma flt_nan_l x y : is_nan x = true -> flt x y = false.
Proof. destruct x; try discriminate. intros _. destruct y; reflexivity. Qed.
Lemma flt_nan_r x y : is_nan y = true -> flt x y = false.
Proof. destruct y; try discriminate. intros _. destruct x as [s|s| |s m e p]; try reflexivity; destruct s; reflexivity. Qed.

Lemma fold_max_skip v : forall a, fold_left (fun best x => if flt best x then x else best) v a =
  fold_left (fun best x => if flt best x then x else best) (filter (fun x => negb (is_nan x)) v) a.
Proof.
  induction v as [|x v IH]; intros a; [reflexivity|]. cbn [fold_left filter]. destruct (is_nan x) eqn:N; cbn [negb].
  - rewrite flt_nan_r by assumption. apply IH.
  - cbn [fold_left]. apply IH.
Qed.

Lemma fold_min_skip v : forall a, fold_left (fun best x => if flt x best then x else best) v a =
  fold_left (fun best x => if flt x best then x else best) (filter (fun x => negb (is_nan x)) v) a.
Proof.
  induction v as [|x v IH]; intros a; [reflexivity|]. cbn [fold_left filter]. destruct (is_nan x) eqn:N; cbn [negb].
  - rewrite flt_nan_l by assumption. apply IH.
  - cbn [fold_left]. apply IH.
Qed.

Lemma fold_max_nan v : forall a, is_nan a = true -> fold_left (fun best x => if flt best x then x else best) v a = a.
Proof. induction v as [|x v IH]; intros a N; [reflexivity|]. cbn [fold_left]. rewrite flt_nan_l by assumption. now apply IH. Qed.

Lemma fold_min_nan v : forall a, is_nan a = true -> fold_left (fun best x => if flt x best then x else best) v a = a.
Proof. induction v as [|x v IH]; intros a N; [reflexivity|]. cbn [fold_left]. rewrite flt_nan_r by assumption. now apply IH. Qed.

(** ** Vectors *)

Lemma transform_f_spec op l : forall r,
  ((length l <= length r)%nat -> exists s, transform_f op l r = Ok s /\ length s = length l /\
     forall i, (i < length l)%nat -> nth i s f0 = op (nth i l f0) (nth i r f0)) /\
  ((length r < length l)%nat -> transform_f op l r = UB).
Proof.
  induction l as [|a l IH]; intros r; cbn [length].
  - split; [|lia]. intros _. exists []. cbn. repeat split. intros i H. lia.
  - destruct r as [|b r]; cbn [length transform_f]; [split; [lia|reflexivity]|]. destruct (IH r) as [I1 I2]. split; intros H.
    + destruct I1 as (s & -> & L & E); [lia|]. cbn [bind]. exists (op a b :: s). cbn [length]. repeat split; [lia|].
      intros [|i] Hi; cbn [nth]; [reflexivity|]. apply E. lia.
    + rewrite I2 by lia. reflexivity.
Qed.

(** ** Integers *)

Open Scope Z_scope.

Lemma cbinomial_u_loop n k : 0 <= k -> 2 * k <= n -> n < two64 -> binomZ n k * k < two64 ->
  while_ (cbinomial_u_body n k) (1, 1) = Ok (binomZ n k).
Proof.
  intros Hk Hkn Hn Hfit. pose proof two64_eq as E64.
  apply (while_total (cbinomial_u_body n k)
    (fun st => 1 <= fst st <= k + 1 /\ snd st = binomZ n (fst st - 1))
    (fun r => r = Ok (binomZ n k))
    (fun st => k + 1 - fst st)).
  - intros [i res] [Hi Hres]. cbn [fst snd] in *. unfold cbinomial_u_body.
    destruct (Z.leb_spec i k) as [Hle|Hgt].
    + pose proof (binomZ_step n i ltac:(lia)) as Hst.
      pose proof (binomZ_mono n i k ltac:(lia) ltac:(lia)) as Hmono.
      pose proof (binomZ_pos n i ltac:(lia)) as Hpos.
      assert (Hp : res * (n + 1 - i) = binomZ n i * i) by (rewrite Hres; lia).
      assert (Hu : u64 (u64 (n + 1) - i) = n + 1 - i).
      { unfold u64. rewrite Zminus_mod_idemp_l. apply Z.mod_small. lia. }
      rewrite Hu, Hp. unfold u64. rewrite (Z.mod_small (binomZ n i * i)) by nia. rewrite (Z.mod_small (i + 1)) by lia.
      rewrite Z.div_mul by lia. cbn [fst snd].
      split; [split; [lia|]|lia]. f_equal. lia.
    + f_equal. rewrite Hres. f_equal. lia.
  - cbn [fst snd]. split; [lia|]. unfold binomZ. simpl. destruct (Z.to_nat n); reflexivity.
  - cbn [fst]. lia.
Qed.

Lemma cbinomial_u_spec n k : 0 <= k <= n -> n < two64 -> binomZ n k * Z.min k (n - k) < two64 ->
  cbinomial_u n k = Ok (binomZ n k).
Proof.
  intros Hk Hn Hfit. unfold cbinomial_u.
  destruct (Z.ltb_spec n k); [lia|]. unfold u64. rewrite Z.mod_small by lia.
  destruct (Z.ltb_spec (n - k) k).
  - rewrite (binomZ_sym n k) in * by lia. rewrite Z.min_r in Hfit by lia.
    apply cbinomial_u_loop; lia.
  - rewrite Z.min_l in Hfit by lia. apply cbinomial_u_loop; lia.
Qed.

Lemma get_gcd_u_spec a b : 0 <= a -> 0 <= b < two64 -> get_gcd_u a b = Ok (Z.gcd a b).
Proof.
  intros Ha Hb. unfold get_gcd_u. pose proof two64_eq.
  apply (while_total gcd_u_body (fun st => 0 <= fst st /\ 0 <= snd st < two64 /\ Z.gcd (fst st) (snd st) = Z.gcd a b)
          (fun r => r = Ok (Z.gcd a b)) snd).
  - intros [x y] (Hx & Hy & Hg). cbn [fst snd] in *. unfold gcd_u_body. destruct (Z.eqb_spec y 0) as [->|Hn].
    + rewrite Z.gcd_0_r, Z.abs_eq in Hg by lia. now rewrite Hg.
    + cbn [fst snd]. pose proof (Z.mod_pos_bound x y ltac:(lia)). repeat split; try lia.
      rewrite <- Hg. rewrite Z.gcd_comm, Z.gcd_mod by lia. apply Z.gcd_comm.
  - cbn. auto.
  - cbn. lia.
Qed.

Lemma i2a32_agrees size : forall prod index l, Forall (fun s => 0 < s <= 2 ^ 31) size ->
  0 <= index < prod -> prod = prodZ size -> prod < two64 ->
  i2a_loop size prod index = Ok l -> i2a32_loop size prod index = Ok l.
Proof.
  pose proof two64_eq as E64. pose proof two63_eq as E63.
  induction size as [|s size IH]; intros prod index l H Hi Hp Hl; [auto|].
  apply Forall_cons_iff in H as [Hs H]. cbn [i2a_loop i2a32_loop].
  destruct (Z.eqb_spec s 0); [lia|].
  assert (P : 0 < prodZ size).
  { clear -H. induction H as [|x l0 Hx _ IHl]; unfold prodZ in *; cbn [fold_right]; lia. }
  assert (D : prod / s = prodZ size).
  { rewrite Hp. unfold prodZ. cbn [fold_right]. rewrite Z.mul_comm. apply Z.div_mul. lia. }
  rewrite D. destruct (Z.eqb_spec (prodZ size) 0); [lia|].
  assert (Hps : prod = s * prodZ size) by (rewrite Hp; reflexivity).
  intros E. destruct (i2a_loop size (prodZ size) (index mod prodZ size)) as [r| | |] eqn:L; try discriminate.
  rewrite (IH _ _ r H); auto; [|apply Z.mod_pos_bound; lia|nia].
  cbn [bind] in *. injection E as <-. f_equal. f_equal.
  assert (Q : 0 <= index / prodZ size < s).
  { split; [apply Z.div_pos; lia|]. apply Z.div_lt_upper_bound; lia. }
  unfold to_s32, to_s64. rewrite !Z.mod_small by lia.
  destruct (Z.ltb_spec (index / prodZ size) (2 ^ 31)), (Z.ltb_spec (index / prodZ size) two63); lia.
Qed.
