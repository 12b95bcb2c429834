(** Lemmas about Approx. *)
From Coq Require Import ZArith Reals Lia Lra Bool Psatz.
From Flocq Require Import Core.Core IEEE754.BinarySingleNaN.
From Verif Require Import Base F64 L_MathF L_Accum M_Approx.
Open Scope R_scope.

Lemma fle_trans x y z : fle x y = true -> fle y z = true -> fle x z = true.
Proof.
  intros H1 H2. destruct (fle_not_nan _ _ H1) as [Nx Ny]. destruct (fle_not_nan _ _ H2) as [_ Nz].
  destruct (flt z x) eqn:E; [|now apply fle_total].
  exfalso. pose proof (fle_flt_trans y z x H2 E) as K. pose proof (flt_fle_trans y x y K H1) as K2.
  rewrite flt_irrefl in K2. discriminate.
Qed.

Lemma fle_refl x : is_nan x = false -> fle x x = true.
Proof. intros N. apply fle_total; auto. apply flt_irrefl. Qed.

Definition inf (x : f64) : Prop := fabs x = finf.

Lemma overflow_inf (z : f64) s : B2SF z = binary_overflow 53 1024 mode_NE s -> inf z.
Proof. intros H. unfold inf. destruct z; try discriminate H. reflexivity. Qed.

Lemma fmul_cases x y : fin x -> fin y ->
  (fin (fmul x y) /\ RR (fmul x y) = rnd (RR x * RR y)) \/
  (inf (fmul x y) /\ fmax <= Rabs (rnd (RR x * RR y))).
Proof.
  intros Fx Fy. pose proof (Bmult_correct 53 1024 _ _ mode_NE x y) as C.
  change (round radix2 (SpecFloat.fexp 53 1024) (round_mode mode_NE) (B2R x * B2R y)) with (rnd (RR x * RR y)) in C.
  destruct (Rlt_bool_spec (Rabs (rnd (RR x * RR y))) (bpow radix2 1024)) as [Hb|Hb].
  - left. destruct C as (A & B & _). split; [|exact A]. unfold fin, fmul. rewrite B, Fx, Fy. reflexivity.
  - right. split; [|exact Hb]. eapply overflow_inf, C.
Qed.

Lemma fsub_cases x y : fin x -> fin y ->
  (fin (fsub x y) /\ RR (fsub x y) = rnd (RR x - RR y)) \/
  (inf (fsub x y) /\ fmax <= Rabs (rnd (RR x - RR y))).
Proof.
  intros Fx Fy. pose proof (Bminus_correct 53 1024 _ _ mode_NE x y Fx Fy) as C.
  change (round radix2 (SpecFloat.fexp 53 1024) (round_mode mode_NE) (B2R x - B2R y)) with (rnd (RR x - RR y)) in C.
  destruct (Rlt_bool_spec (Rabs (rnd (RR x - RR y))) (bpow radix2 1024)) as [Hb|Hb].
  - left. destruct C as (A & B & _). split; [exact B|exact A].
  - right. split; [|exact Hb]. eapply overflow_inf, C.
Qed.

Lemma fle_finf x : is_nan x = false -> fle x finf = true.
Proof. destruct x as [[]|[]| |[]]; try discriminate; reflexivity. Qed.

Lemma fabs_nonneg x : is_nan x = false -> nonneg (fabs x).
Proof. intros N. unfold nonneg. destruct x; try discriminate; reflexivity. Qed.

Lemma is_nan_fabs x : is_nan (fabs x) = is_nan x.
Proof. destruct x; reflexivity. Qed.

Lemma fin_not_nan x : fin x -> is_nan x = false.
Proof. destruct x; try discriminate; reflexivity. Qed.

Lemma fin_or_not (x : f64) : fin x \/ inf x \/ is_nan x = true.
Proof. destruct x as [s|s| |s m e B]; [left|right; left|right; right|left]; reflexivity. Qed.

(** ** std::max *)

Lemma std_max_l a b : is_nan a = false -> fle a (std_max a b) = true.
Proof. intros N. unfold std_max. destruct (flt a b) eqn:E; [now apply flt_fle|now apply fle_refl]. Qed.

Lemma std_max_r a b : is_nan a = false -> is_nan b = false -> fle b (std_max a b) = true.
Proof. intros Na Nb. unfold std_max. destruct (flt a b) eqn:E; [now apply fle_refl|now apply fle_total]. Qed.

(** ** Equality *)

Lemma eq_reflexive x a : fin x -> ap_value a = x -> nonneg (ap_abs a) -> eq_da x a = true.
Proof.
  intros F E Na. unfold eq_da. rewrite E. set (m := std_max _ _).
  assert (Hm : nonneg m).
  { unfold nonneg in *. apply fle_trans with (ap_abs a); [exact Na|]. apply std_max_l.
    apply fle_not_nan in Na. tauto. }
  destruct (fsub_cases x x F F) as [[F' E']|[_ B]].
  2:{ exfalso. rewrite Rminus_diag_eq, rnd_0, Rabs_R0 in B by reflexivity. unfold fmax in B. pose proof (bpow_gt_0 radix2 1024). lra. }
  apply fle_trans with f0; [|exact Hm]. apply fle_R; [now apply fin_fabs|reflexivity|].
  rewrite RR_fabs, E', Rminus_diag_eq, rnd_0, Rabs_R0 by reflexivity. unfold RR. cbn. lra.
Qed.

Lemma eq_nan x a : is_nan x = true \/ is_nan (ap_value a) = true -> eq_da x a = false.
Proof.
  intros H. unfold eq_da. assert (E : fsub x (ap_value a) = fnan).
  { destruct H as [H|H]; [destruct x; try discriminate; reflexivity|].
    destruct (ap_value a); try discriminate. destruct x; reflexivity. }
  rewrite E. reflexivity.
Qed.

(** |r v| grows with r, except that inf * 0 is NaN. *)
Lemma fmul_mono r r' v : fin v -> nonneg r -> fle r r' = true ->
  fle (fabs (fmul r v)) (fabs (fmul r' v)) = true \/ (RR v = 0 /\ r' = finf).
Proof.
  intros Fv Hr Hle. assert (Hr' : nonneg r') by (unfold nonneg in *; eapply fle_trans; eauto).
  apply nonneg_cases in Hr. apply nonneg_cases in Hr'.
  assert (N : RR v <> 0 \/ fin r -> is_nan (fmul r v) = false).
  { intros Hv. destruct Hr as [[Fr Pr]| ->].
    - destruct (fmul_cases r v Fr Fv) as [[F _]|[I _]]; [now apply fin_not_nan|].
      unfold inf in I. rewrite <- is_nan_fabs, I. reflexivity.
    - destruct Hv as [Hv|Hv]; [|discriminate]. destruct v as [s| | |s m e B]; try discriminate; [|reflexivity].
      exfalso. apply Hv. reflexivity. }
  destruct Hr' as [[Fr' Pr']| ->].
  - assert (Fr : fin r). { destruct Hr as [[Fr _]| ->]; [exact Fr|]. exfalso. destruct r'; try discriminate Fr'; destruct s; discriminate Hle. }
    left. destruct Hr as [[_ Pr]| ->]; [|discriminate].
    apply fle_R in Hle; auto.
    assert (Hp : Rabs (rnd (RR r * RR v)) <= Rabs (rnd (RR r' * RR v))).
    { rewrite <- !rnd_abs. apply rnd_le. rewrite !Rabs_mult, (Rabs_pos_eq (RR r)), (Rabs_pos_eq (RR r')) by assumption.
      apply Rmult_le_compat_r; [apply Rabs_pos|assumption]. }
    destruct (fmul_cases r' v Fr' Fv) as [[F' E']|[I' _]].
    + destruct (fmul_cases r v Fr Fv) as [[F E]|[_ B]].
      * apply fle_R; [now apply fin_fabs|now apply fin_fabs|]. now rewrite !RR_fabs, E, E'.
      * exfalso. pose proof (RR_lt_fmax (fmul r' v)) as L. rewrite E' in L. lra.
    + unfold inf in I'. rewrite I'. apply fle_finf. rewrite is_nan_fabs. auto.
  - destruct (Req_dec (RR v) 0) as [Z|Z]; [right; auto|left].
    assert (E : fabs (fmul finf v) = finf).
    { destruct v as [s| | |s m e B]; try discriminate; [|reflexivity]. exfalso. apply Z. reflexivity. }
    rewrite E. apply fle_finf. rewrite is_nan_fabs. auto.
Qed.

Lemma eq_mono x a a' : ap_value a' = ap_value a ->
  nonneg (ap_abs a) -> nonneg (ap_rel a) ->
  fle (ap_abs a) (ap_abs a') = true -> fle (ap_rel a) (ap_rel a') = true ->
  eq_da x a = true -> eq_da x a' = true.
Proof.
  intros Ev Ha Hr La Lr. unfold eq_da. rewrite Ev. set (v := ap_value a). set (d := fabs (fsub x v)). intros H.
  assert (Na : is_nan (ap_abs a) = false /\ is_nan (ap_abs a') = false) by (now apply fle_not_nan).
  assert (Nr : is_nan (ap_rel a) = false /\ is_nan (ap_rel a') = false) by (now apply fle_not_nan).
  apply fle_trans with (1 := H).
  assert (HH : fle (ap_abs a) (std_max (ap_abs a') (fabs (fmul (ap_rel a') v))) = true)
    by (eapply fle_trans; [exact La|now apply std_max_l]).
  unfold std_max at 1. destruct (flt (ap_abs a) (fabs (fmul (ap_rel a) v))) eqn:E; [|exact HH].
  destruct (fin_or_not v) as [Fv|Iv].
  - destruct (fmul_mono _ (ap_rel a') v Fv Hr Lr) as [K|[Z K]].
    + apply fle_trans with (1 := K). apply std_max_r; [tauto|]. apply fle_not_nan in K. tauto.
    + exfalso. apply nonneg_cases in Hr. destruct Hr as [[Fr Pr]|Er].
      * destruct (fmul_cases (ap_rel a) v Fr Fv) as [[F0 E0]|[_ B]].
        -- rewrite Z, Rmult_0_r, rnd_0 in E0. apply nonneg_cases in Ha. destruct Ha as [[Fa Pa]|Ea].
           ++ apply flt_R in E; [|assumption|now apply fin_fabs]. rewrite RR_fabs, E0, Rabs_R0 in E. lra.
           ++ rewrite Ea in E. destruct (fmul (ap_rel a) v) as [[]|[]| |[]]; discriminate E.
        -- rewrite Z, Rmult_0_r, rnd_0, Rabs_R0 in B. pose proof (bpow_gt_0 radix2 1024). unfold fmax in B. lra.
      * rewrite Er in E. destruct v as [s| | |s m e B]; try discriminate Fv;
        [destruct (ap_abs a) as [[]|[]| |[]]; discriminate E|].
        apply (Rgt_not_eq (Rabs (RR (B754_finite s m e B))) 0); [|rewrite Z; apply Rabs_R0].
        apply Rabs_pos_lt. unfold RR, B2R. destruct s; [apply Rlt_not_eq; apply F2R_lt_0; reflexivity|apply Rgt_not_eq; apply F2R_gt_0; reflexivity].
  - destruct Iv as [Iv|Nv].
    + (* v infinite: the product was not NaN, so it was infinite, and it still is *)
      assert (P : fabs (fmul (ap_rel a) v) = finf).
      { assert (N : is_nan (fabs (fmul (ap_rel a) v)) = false) by (now apply flt_not_nan in E).
        unfold inf in Iv. destruct v as [|s| |]; try discriminate Iv.
        destruct (ap_rel a) as [t|t| |t m e B]; try discriminate; reflexivity. }
      assert (P' : fabs (fmul (ap_rel a') v) = finf).
      { unfold inf in Iv. destruct v as [|s| |]; try discriminate Iv.
        assert (Hp : flt f0 (ap_rel a) = true).
        { destruct (ap_rel a) as [t|t| |t m e B]; try discriminate P; [destruct t; [discriminate Hr|reflexivity]|].
          destruct t; [discriminate Hr|reflexivity]. }
        pose proof (flt_fle_trans _ _ _ Hp Lr) as Hp'.
        destruct (ap_rel a') as [[]|[]| |[] m e B]; try discriminate Hp'; reflexivity. }
      rewrite P, P'. apply std_max_r; [tauto|reflexivity].
    + exfalso. subst d. destruct v; try discriminate. destruct x; discriminate H.
Qed.

(** ** In terms of real numbers *)

Lemma rnd_lt_back (x : R) y : fmt y -> rnd x < y -> x < y.
Proof. intros Fy H. destruct (Rlt_le_dec x y) as [L|L]; [exact L|]. pose proof (rnd_ge_fmt x y Fy L). lra. Qed.

(** Close enough in real numbers: equal. *)
Lemma eq_complete x a : fin x -> fin (ap_value a) -> fin (ap_abs a) -> fin (ap_rel a) ->
  let d := Rabs (RR x - RR (ap_value a)) in
  d <= RR (ap_abs a) \/ d <= Rabs (RR (ap_rel a) * RR (ap_value a)) -> eq_da x a = true.
Proof.
  intros Fx Fv Fa Fr d H. unfold eq_da. set (v := ap_value a) in *.
  destruct H as [H|H].
  - destruct (fsub_cases x v Fx Fv) as [[F E]|[_ B]].
    + apply fle_trans with (ap_abs a); [|apply std_max_l, fin_not_nan, Fa].
      apply fle_R; [now apply fin_fabs|exact Fa|]. rewrite RR_fabs, E. apply rnd_abs_le; [apply fmt_RR|exact H].
    + exfalso. pose proof (RR_lt_fmax (ap_abs a)) as L. apply Rabs_lt_inv in L.
      pose proof (rnd_abs_le _ _ (fmt_RR (ap_abs a)) H). lra.
  - assert (H2 : Rabs (rnd (RR x - RR v)) <= Rabs (rnd (RR (ap_rel a) * RR v))) by (rewrite <- !rnd_abs; now apply rnd_le).
    apply fle_trans with (fabs (fmul (ap_rel a) v)).
    + destruct (fmul_cases (ap_rel a) v Fr Fv) as [[F' E']|[I' B']].
      * destruct (fsub_cases x v Fx Fv) as [[F E]|[_ B]].
        -- apply fle_R; [now apply fin_fabs|now apply fin_fabs|]. now rewrite !RR_fabs, E, E'.
        -- exfalso. pose proof (RR_lt_fmax (fmul (ap_rel a) v)) as L. rewrite E' in L. lra.
      * unfold inf in I'. rewrite I'. apply fle_finf. rewrite is_nan_fabs.
        destruct (fsub_cases x v Fx Fv) as [[F E]|[I _]]; [now apply fin_not_nan|].
        unfold inf in I. rewrite <- is_nan_fabs, I. reflexivity.
    + apply std_max_r; [apply fin_not_nan, Fa|]. rewrite is_nan_fabs.
      destruct (fmul_cases (ap_rel a) v Fr Fv) as [[F E]|[I _]]; [now apply fin_not_nan|].
      unfold inf in I. rewrite <- is_nan_fabs, I. reflexivity.
Qed.

(** Equal: close up to rounding. *)
Lemma eq_sound x a : fin x -> fin (ap_value a) -> fin (ap_abs a) ->
  fin (fmul (ap_rel a) (ap_value a)) -> eq_da x a = true ->
  Rabs (RR x - RR (ap_value a)) <=
  (1 + uro) * Rmax (RR (ap_abs a)) ((1 + uro) * Rabs (RR (ap_rel a) * RR (ap_value a)) + eta).
Proof.
  intros Fx Fv Fa Fp H. unfold eq_da in H. set (v := ap_value a) in *. set (p := fmul (ap_rel a) v) in *.
  destruct (fmul_inv _ _ Fp) as (Fr & _ & Ep). fold p in Ep.
  assert (Fm : fin (std_max (ap_abs a) (fabs p))) by (unfold std_max; destruct (flt _ _); [now apply fin_fabs|exact Fa]).
  assert (Fs : fin (fsub x v)).
  { destruct (fsub_cases x v Fx Fv) as [[F _]|[I _]]; [exact F|]. exfalso. unfold inf in I. rewrite I in H.
    destruct (std_max (ap_abs a) (fabs p)); try discriminate Fm; discriminate H. }
  destruct (fsub_inv _ _ Fs) as (_ & _ & Es).
  apply fle_R in H; [|now apply fin_fabs|exact Fm]. rewrite RR_fabs, Es in H.
  assert (E1 : Rabs (rnd (RR x - RR v) - (RR x - RR v)) <= uro * Rabs (rnd (RR x - RR v))).
  { unfold Rminus at 2 3 4. apply plus_err_r; [apply fmt_RR|apply fmt_opp, fmt_RR]. }
  assert (E2 : Rabs (RR x - RR v) <= (1 + uro) * Rabs (rnd (RR x - RR v))).
  { replace (RR x - RR v) with (rnd (RR x - RR v) - (rnd (RR x - RR v) - (RR x - RR v))) at 1 by ring.
    eapply Rle_trans; [apply Rabs_triang|]. rewrite Rabs_Ropp. lra. }
  apply Rle_trans with (1 := E2). apply Rmult_le_compat_l; [pose proof uro_pos; lra|].
  apply Rle_trans with (1 := H).
  assert (E3 : Rabs (RR p) <= (1 + uro) * Rabs (RR (ap_rel a) * RR v) + eta).
  { rewrite Ep. pose proof (rnd_err (RR (ap_rel a) * RR v)) as K. set (q := RR (ap_rel a) * RR v) in *.
    replace (rnd q) with (q + (rnd q - q)) by ring. eapply Rle_trans; [apply Rabs_triang|]. lra. }
  unfold std_max. destruct (flt (ap_abs a) (fabs p)).
  - rewrite RR_fabs. apply Rle_trans with (1 := E3). apply Rmax_r.
  - apply Rmax_l.
Qed.

(** ** Order *)

Lemma le_or_ge x a : is_nan x = false -> is_nan (ap_value a) = false -> fin x \/ fin (ap_value a) ->
  nonneg (ap_abs a) -> le_da x a = true \/ ge_da x a = true.
Proof.
  intros Nx Nv Fxv Ha. unfold le_da, ge_da, fgt.
  destruct (flt x (ap_value a)) eqn:L; [left; reflexivity|].
  destruct (flt (ap_value a) x) eqn:G; [right; reflexivity|]. left. cbn [orb].
  assert (L1 := fle_total _ _ Nx Nv L). assert (L2 := fle_total _ _ Nv Nx G).
  assert (F : fin x /\ fin (ap_value a)).
  { destruct (fin_or_not x) as [Fx|[Ix|Ix]], (fin_or_not (ap_value a)) as [Fv|[Iv|Iv]]; try congruence; [tauto| | |].
    - exfalso. unfold inf in Iv. destruct (ap_value a) as [|s| |]; try discriminate Iv; destruct x as [|?| |]; try discriminate Fx; destruct s; discriminate.
    - exfalso. unfold inf in Ix. destruct x as [|s| |]; try discriminate Ix; destruct (ap_value a) as [|?| |]; try discriminate Fv; destruct s; discriminate.
    - exfalso. unfold inf in Ix, Iv. destruct Fxv; [destruct x|destruct (ap_value a)]; discriminate. }
  destruct F as [Fx Fv]. apply fle_R in L1; auto. apply fle_R in L2; auto.
  unfold eq_da. assert (Na : is_nan (ap_abs a) = false) by (apply fle_not_nan in Ha; tauto).
  apply fle_trans with (ap_abs a); [|now apply std_max_l]. apply fle_trans with f0; [|exact Ha].
  destruct (fsub_cases x (ap_value a) Fx Fv) as [[F' E']|[_ B]];
    replace (RR x - RR (ap_value a)) with 0 in * by lra; rewrite rnd_0 in *.
  - apply fle_R; [now apply fin_fabs|reflexivity|]. rewrite RR_fabs, E', Rabs_R0. unfold RR. cbn. lra.
  - rewrite Rabs_R0 in B. unfold fmax in B. pose proof (bpow_gt_0 radix2 1024). lra.
Qed.

Lemma nonneg_SetAbs a t : is_nan t = false -> nonneg (ap_abs (SetAbs a t)).
Proof. apply fabs_nonneg. Qed.
