(** IEEE-754 binary64 arithmetic, round to nearest even: Flocq's executable
    [binary_float 53 1024] with a single NaN.  C++ [double] operations of the
    modelled headers are the operations of this file: no excess precision, no
    contraction into fused multiply-add. *)
From Coq Require Import ZArith Reals Lia Lra Bool Psatz.
From Flocq Require Import Core.Core IEEE754.BinarySingleNaN.
From Flocq Require Import Relative Plus_error.
Open Scope R_scope.

Definition f64 := binary_float 53 1024.

Global Instance prec53 : Prec_gt_0 53 := eq_refl.
Global Instance emax1024 : Prec_lt_emax 53 1024 := eq_refl.

Definition fadd : f64 -> f64 -> f64 := Bplus mode_NE.
Definition fsub : f64 -> f64 -> f64 := Bminus mode_NE.
Definition fmul : f64 -> f64 -> f64 := Bmult mode_NE.
Definition fdiv : f64 -> f64 -> f64 := Bdiv mode_NE.
Definition fsqrt : f64 -> f64 := Bsqrt mode_NE.
Definition fopp : f64 -> f64 := Bopp.
Definition fabs : f64 -> f64 := Babs.
Definition flt : f64 -> f64 -> bool := Bltb.
Definition fle : f64 -> f64 -> bool := Bleb.
Definition feq : f64 -> f64 -> bool := Beqb.
Definition fgt (x y : f64) : bool := flt y x.
Definition fge (x y : f64) : bool := fle y x.

(** Conversion of an integer (static_cast<double>) and the literal m * 2^e. *)
Definition of_Z (z : Z) : f64 := binary_normalize 53 1024 _ _ mode_NE z 0 false.
Definition dyad (m e : Z) : f64 := binary_normalize 53 1024 _ _ mode_NE m e false.
Definition f0 : f64 := B754_zero false.
Definition f1 : f64 := of_Z 1.
Definition fnan : f64 := B754_nan.
Definition finf : f64 := B754_infinity false.
(** std::round: half away from zero, result a double. *)
Definition fround : f64 -> f64 := Bnearbyint mode_NA.

(** Finite, and the real number a finite double stands for. *)
Definition fin (x : f64) : Prop := is_finite x = true.
Definition RR (x : f64) : R := B2R x.

(** Rounding of a real to binary64, exponent unbounded above. *)
Definition rnd (x : R) : R := round radix2 (FLT_exp (-1074) 53) ZnearestE x.
Definition fmt (x : R) : Prop := generic_format radix2 (FLT_exp (-1074) 53) x.
Definition fmax : R := bpow radix2 1024.

Global Instance vexp53 : Valid_exp (FLT_exp (-1074) 53) := FLT_exp_valid (-1074) 53.
Global Instance mono53 : Monotone_exp (FLT_exp (-1074) 53) := FLT_exp_monotone (-1074) 53.

(** * Rounding *)

Lemma rnd_le x y : x <= y -> rnd x <= rnd y.
Proof. apply round_le; auto with typeclass_instances. Qed.
Lemma rnd_fmt x : fmt x -> rnd x = x.
Proof. apply round_generic; auto with typeclass_instances. Qed.
Lemma fmt_rnd x : fmt (rnd x).
Proof. apply generic_format_round; auto with typeclass_instances. Qed.
Lemma rnd_0 : rnd 0 = 0.
Proof. apply round_0; auto with typeclass_instances. Qed.
Lemma rnd_opp x : rnd (- x) = - rnd x.
Proof. apply round_NE_opp. Qed.
Lemma rnd_abs x : rnd (Rabs x) = Rabs (rnd x).
Proof. apply round_NE_abs; auto with typeclass_instances. Qed.
Lemma fmt_opp x : fmt x -> fmt (- x).
Proof. apply generic_format_opp. Qed.
Lemma fmt_abs x : fmt x -> fmt (Rabs x).
Proof. apply generic_format_abs. Qed.
Lemma fmt_0 : fmt 0.
Proof. apply generic_format_0. Qed.
Lemma fmt_RR x : fmt (RR x).
Proof. exact (generic_format_B2R 53 1024 x). Qed.

Lemma rnd_le_fmt x b : fmt b -> x <= b -> rnd x <= b.
Proof. intros Hb H. rewrite <- (rnd_fmt b Hb). now apply rnd_le. Qed.
Lemma rnd_ge_fmt x b : fmt b -> b <= x -> b <= rnd x.
Proof. intros Hb H. rewrite <- (rnd_fmt b Hb). now apply rnd_le. Qed.
Lemma rnd_abs_le x b : fmt b -> Rabs x <= b -> Rabs (rnd x) <= b.
Proof. intros Hb H. rewrite <- rnd_abs. now apply rnd_le_fmt. Qed.
Lemma rnd_abs_ge x b : fmt b -> b <= Rabs x -> b <= Rabs (rnd x).
Proof. intros Hb H. rewrite <- rnd_abs. now apply rnd_ge_fmt. Qed.
Lemma rnd_pos x : 0 <= x -> 0 <= rnd x.
Proof. apply rnd_ge_fmt, fmt_0. Qed.
Lemma rnd_neg x : x <= 0 -> rnd x <= 0.
Proof. apply rnd_le_fmt, fmt_0. Qed.

Lemma fmt_bpow e : (-1074 <= e)%Z -> fmt (bpow radix2 e).
Proof. intros H. apply generic_format_FLT_bpow; auto with typeclass_instances. Qed.

Lemma fmt_F2R m e : (Z.abs m <= 2 ^ 53)%Z -> (-1074 <= e)%Z -> fmt (F2R (Float radix2 m e)).
Proof.
  intros Hm He. destruct (Z_lt_le_dec (Z.abs m) (2 ^ 53)) as [H|H].
  - apply generic_format_FLT. exists (Float radix2 m e); auto.
  - assert (E : (Z.abs m = 2 ^ 53)%Z) by lia.
    destruct (Z.abs_eq_or_opp m) as [E'|E'].
    + replace m with (2 ^ 53)%Z by lia. unfold F2R. cbn [Fnum Fexp].
      change (IZR (2 ^ 53)) with (IZR (Zpower radix2 53)). rewrite IZR_Zpower by lia.
      rewrite <- bpow_plus. apply fmt_bpow. lia.
    + replace m with (- (2 ^ 53))%Z by lia. rewrite F2R_Zopp. apply fmt_opp.
      unfold F2R. cbn [Fnum Fexp].
      change (IZR (2 ^ 53)) with (IZR (Zpower radix2 53)). rewrite IZR_Zpower by lia.
      rewrite <- bpow_plus. apply fmt_bpow. lia.
Qed.

Lemma fmt_IZR z : (Z.abs z <= 2 ^ 53)%Z -> fmt (IZR z).
Proof.
  intros H. replace (IZR z) with (F2R (Float radix2 z 0)).
  - apply fmt_F2R; [assumption|lia].
  - unfold F2R. cbn. ring.
Qed.

Lemma fmax_bpow : fmax = bpow radix2 1024. Proof. reflexivity. Qed.
Lemma RR_lt_fmax x : Rabs (RR x) < fmax.
Proof. apply abs_B2R_lt_emax. Qed.

(** Anything at most 2^1023 in size does not overflow. *)
Lemma no_overflow x e : (-1074 <= e <= 1023)%Z -> Rabs x <= bpow radix2 e -> Rabs (rnd x) < fmax.
Proof.
  intros He H. apply Rle_lt_trans with (bpow radix2 e).
  - apply rnd_abs_le; auto. apply fmt_bpow; lia.
  - apply bpow_lt. lia.
Qed.

Lemma RR_fin_nz x : RR x <> 0 -> fin x.
Proof. destruct x; unfold RR, fin; cbn; auto; intros; exfalso; auto. Qed.

(** * Operations *)

Ltac nov H := rewrite (Rlt_bool_true _ _ H).

Lemma fadd_ok x y : fin x -> fin y -> Rabs (rnd (RR x + RR y)) < fmax ->
  RR (fadd x y) = rnd (RR x + RR y) /\ fin (fadd x y).
Proof.
  intros Fx Fy H. pose proof (Bplus_correct 53 1024 _ _ mode_NE x y Fx Fy) as C.
  change (round radix2 (SpecFloat.fexp 53 1024) (round_mode mode_NE) (B2R x + B2R y)) with (rnd (RR x + RR y)) in C.
  change (bpow radix2 1024) with fmax in C.
  rewrite (Rlt_bool_true _ _ H) in C. destruct C as (A & B & _). split; assumption.
Qed.

Lemma fsub_ok x y : fin x -> fin y -> Rabs (rnd (RR x - RR y)) < fmax ->
  RR (fsub x y) = rnd (RR x - RR y) /\ fin (fsub x y).
Proof.
  intros Fx Fy H. pose proof (Bminus_correct 53 1024 _ _ mode_NE x y Fx Fy) as C.
  change (round radix2 (SpecFloat.fexp 53 1024) (round_mode mode_NE) (B2R x - B2R y)) with (rnd (RR x - RR y)) in C.
  change (bpow radix2 1024) with fmax in C.
  rewrite (Rlt_bool_true _ _ H) in C. destruct C as (A & B & _). split; assumption.
Qed.

Lemma fmul_ok x y : fin x -> fin y -> Rabs (rnd (RR x * RR y)) < fmax ->
  RR (fmul x y) = rnd (RR x * RR y) /\ fin (fmul x y).
Proof.
  intros Fx Fy H. pose proof (Bmult_correct 53 1024 _ _ mode_NE x y) as C.
  change (round radix2 (SpecFloat.fexp 53 1024) (round_mode mode_NE) (B2R x * B2R y)) with (rnd (RR x * RR y)) in C.
  change (bpow radix2 1024) with fmax in C.
  rewrite (Rlt_bool_true _ _ H) in C. destruct C as (A & B & _). split; [assumption|].
  unfold fin in *. rewrite Fx, Fy in B. exact B.
Qed.

Lemma fdiv_ok x y : fin x -> RR y <> 0 -> Rabs (rnd (RR x / RR y)) < fmax ->
  RR (fdiv x y) = rnd (RR x / RR y) /\ fin (fdiv x y).
Proof.
  intros Fx Hy H. pose proof (Bdiv_correct 53 1024 _ _ mode_NE x y Hy) as C.
  change (round radix2 (SpecFloat.fexp 53 1024) (round_mode mode_NE) (B2R x / B2R y)) with (rnd (RR x / RR y)) in C.
  change (bpow radix2 1024) with fmax in C.
  rewrite (Rlt_bool_true _ _ H) in C. destruct C as (A & B & _). split; [assumption|].
  unfold fin in *. rewrite Fx in B. exact B.
Qed.

Lemma overflow_not_fin z s : B2SF z = binary_overflow 53 1024 mode_NE s -> ~ @is_finite 53 1024 z = true.
Proof. destruct z; cbn; discriminate. Qed.

(** Finite results come from finite operands. *)
Lemma fadd_inv x y : fin (fadd x y) -> fin x /\ fin y /\ RR (fadd x y) = rnd (RR x + RR y).
Proof.
  intros F. assert (Fx : fin x) by (destruct x as [| | |], y as [| | |]; try reflexivity; unfold fin, fadd in *; cbn in *; try discriminate;
     destruct (Bool.eqb _ _); discriminate).
  assert (Fy : fin y) by (destruct x as [| | |], y as [| | |]; try reflexivity; unfold fin, fadd in *; cbn in *; try discriminate;
     destruct (Bool.eqb _ _); discriminate).
  repeat split; auto.
  pose proof (Bplus_correct 53 1024 _ _ mode_NE x y Fx Fy) as C.
  change (round radix2 (SpecFloat.fexp 53 1024) (round_mode mode_NE) (B2R x + B2R y)) with (rnd (RR x + RR y)) in C.
  change (bpow radix2 1024) with fmax in C.
  destruct (Rlt_bool _ _); [exact (proj1 C)|].
  destruct (overflow_not_fin _ _ (proj1 C) F).
Qed.

Lemma fsub_inv x y : fin (fsub x y) -> fin x /\ fin y /\ RR (fsub x y) = rnd (RR x - RR y).
Proof.
  intros F. assert (Fx : fin x) by (destruct x as [| | |], y as [| | |]; try reflexivity; unfold fin, fsub in *; cbn in *; try discriminate;
     destruct (Bool.eqb _ _); discriminate).
  assert (Fy : fin y) by (destruct x as [| | |], y as [| | |]; try reflexivity; unfold fin, fsub in *; cbn in *; try discriminate;
     destruct (Bool.eqb _ _); discriminate).
  repeat split; auto.
  pose proof (Bminus_correct 53 1024 _ _ mode_NE x y Fx Fy) as C.
  change (round radix2 (SpecFloat.fexp 53 1024) (round_mode mode_NE) (B2R x - B2R y)) with (rnd (RR x - RR y)) in C.
  change (bpow radix2 1024) with fmax in C.
  destruct (Rlt_bool _ _); [exact (proj1 C)|].
  destruct (overflow_not_fin _ _ (proj1 C) F).
Qed.

Lemma fmul_inv x y : fin (fmul x y) -> fin x /\ fin y /\ RR (fmul x y) = rnd (RR x * RR y).
Proof.
  intros F. pose proof (Bmult_correct 53 1024 _ _ mode_NE x y) as C.
  change (round radix2 (SpecFloat.fexp 53 1024) (round_mode mode_NE) (B2R x * B2R y)) with (rnd (RR x * RR y)) in C.
  change (bpow radix2 1024) with fmax in C.
  destruct (Rlt_bool _ _).
  - destruct C as (A & B & _). unfold fin, fmul in *. rewrite B in F. apply andb_prop in F as [Fx Fy]. auto.
  - destruct (overflow_not_fin _ _ C F).
Qed.

Lemma fdiv_inv x y : fin (fdiv x y) -> fin y -> fin x /\ RR y <> 0 /\ RR (fdiv x y) = rnd (RR x / RR y).
Proof.
  intros F Fy.
  assert (Ny : RR y <> 0).
  { destruct y as [sy| | |sy my ey Hy]; try discriminate.
    - destruct x; discriminate F.
    - unfold RR.
      cbn. apply F2R_neq_0. destruct sy; discriminate. }
  pose proof (Bdiv_correct 53 1024 _ _ mode_NE x y Ny) as C.
  change (round radix2 (SpecFloat.fexp 53 1024) (round_mode mode_NE) (B2R x / B2R y)) with (rnd (RR x / RR y)) in C.
  change (bpow radix2 1024) with fmax in C.
  destruct (Rlt_bool _ _).
  - destruct C as (A & B & _). unfold fin, fdiv in *. rewrite B in F. auto.
  - destruct (overflow_not_fin _ _ C F).
Qed.

Lemma fsqrt_ok x : fin x -> 0 <= RR x -> RR (fsqrt x) = rnd (sqrt (RR x)) /\ fin (fsqrt x).
Proof.
  intros F H. destruct (Bsqrt_correct 53 1024 _ _ mode_NE x) as (A & B & _).
  split; [exact A|]. unfold fin, fsqrt. rewrite B.
  destruct x as [| | |s m e Hb]; auto; try discriminate. destruct s; auto.
  exfalso. unfold RR in H. cbn in H. apply (Rle_not_lt _ _ H). now apply F2R_lt_0.
Qed.

Lemma RR_fopp x : RR (fopp x) = - RR x. Proof. apply B2R_Bopp. Qed.
Lemma fin_fopp x : fin (fopp x) <-> fin x.
Proof. unfold fin, fopp. now rewrite is_finite_Bopp. Qed.
Lemma RR_fabs x : RR (fabs x) = Rabs (RR x). Proof. apply B2R_Babs. Qed.
Lemma fin_fabs x : fin (fabs x) <-> fin x.
Proof. unfold fin, fabs. now rewrite is_finite_Babs. Qed.
Lemma RR_f0 : RR f0 = 0. Proof. reflexivity. Qed.
Lemma fin_f0 : fin f0. Proof. reflexivity. Qed.

Lemma dyad_ok m e : Rabs (rnd (F2R (Float radix2 m e))) < fmax ->
  RR (dyad m e) = rnd (F2R (Float radix2 m e)) /\ fin (dyad m e).
Proof.
  intros H. pose proof (binary_normalize_correct 53 1024 _ _ mode_NE m e false) as C. cbv zeta in C.
  change (round radix2 (SpecFloat.fexp 53 1024) (round_mode mode_NE) (F2R (Float radix2 m e))) with (rnd (F2R (Float radix2 m e))) in C.
  change (bpow radix2 1024) with fmax in C.
  rewrite (Rlt_bool_true _ _ H) in C. destruct C as (A & B & _). split; assumption.
Qed.

Lemma F2R_0exp z : F2R (Float radix2 z 0) = IZR z.
Proof. unfold F2R. cbn. ring. Qed.

Lemma IZR_bpow z e : (0 <= e)%Z -> (Z.abs z <= 2 ^ e)%Z -> Rabs (IZR z) <= bpow radix2 e.
Proof.
  intros He H. rewrite <- abs_IZR, <- IZR_Zpower by assumption. now apply IZR_le.
Qed.

Lemma of_Z_ok z : (Z.abs z <= 2 ^ 1023)%Z -> RR (of_Z z) = rnd (IZR z) /\ fin (of_Z z).
Proof.
  intros H. unfold of_Z. fold (dyad z 0). rewrite <- (F2R_0exp z). apply dyad_ok. rewrite F2R_0exp.
  apply no_overflow with 1023%Z; [lia|]. apply IZR_bpow; [lia|assumption].
Qed.

Lemma of_Z_exact z : (Z.abs z <= 2 ^ 53)%Z -> RR (of_Z z) = IZR z /\ fin (of_Z z).
Proof.
  intros H. destruct (of_Z_ok z) as [A B].
  - apply Z.le_trans with (1 := H). now apply Z.pow_le_mono_r.
  - split; [|exact B]. rewrite A. apply rnd_fmt, fmt_IZR, H.
Qed.

Lemma RR_f1 : RR f1 = 1. Proof. apply (of_Z_exact 1). cbn. lia. Qed.
Lemma fin_f1 : fin f1. Proof. apply (of_Z_exact 1). cbn. lia. Qed.

(** * Comparisons *)

Lemma flt_R x y : fin x -> fin y -> (flt x y = true <-> RR x < RR y).
Proof.
  intros Fx Fy. unfold flt. rewrite Bltb_correct by assumption.
  destruct (Rlt_bool_spec (B2R x) (B2R y)) as [H|H]; split; intros E; auto; try discriminate.
  exfalso. apply (Rle_not_lt _ _ H E).
Qed.
Lemma fle_R x y : fin x -> fin y -> (fle x y = true <-> RR x <= RR y).
Proof.
  intros Fx Fy. unfold fle. rewrite Bleb_correct by assumption.
  destruct (Rle_bool_spec (B2R x) (B2R y)) as [H|H]; split; intros E; auto; try discriminate.
  exfalso. apply (Rle_not_lt _ _ E H).
Qed.
Lemma feq_R x y : fin x -> fin y -> (feq x y = true <-> RR x = RR y).
Proof.
  intros Fx Fy. unfold feq. rewrite Beqb_correct by assumption.
  destruct (Req_bool_spec (B2R x) (B2R y)) as [H|H]; split; intros E; auto; try discriminate.
Qed.
Lemma flt_R_false x y : fin x -> fin y -> (flt x y = false <-> RR y <= RR x).
Proof.
  intros Fx Fy. rewrite <- not_true_iff_false, flt_R by assumption. split; lra.
Qed.
Lemma fle_R_false x y : fin x -> fin y -> (fle x y = false <-> RR y < RR x).
Proof.
  intros Fx Fy. rewrite <- not_true_iff_false, fle_R by assumption. split; lra.
Qed.

Lemma RR_inj x y : RR x = RR y -> RR x <> 0 -> x = y.
Proof.
  intros E N. assert (Fx := RR_fin_nz x N). rewrite E in N. assert (Fy := RR_fin_nz y N).
  apply B2R_inj; auto; [destruct x|destruct y]; try discriminate; auto; exfalso; apply N; auto.
Qed.

(** * Error of one rounding *)

(** Unit roundoff 2^-53 and the spacing of subnormals. *)
Definition uro : R := bpow radix2 (-53).

Lemma uro_pos : 0 < uro. Proof. apply bpow_gt_0. Qed.
Lemma uro_val : uro = / IZR (2 ^ 53).
Proof. unfold uro. change (-53)%Z with (- (53))%Z. rewrite bpow_opp. rewrite <- IZR_Zpower by lia. reflexivity. Qed.
Lemma uro_small : uro <= / 1000000.
Proof. rewrite uro_val. apply Rinv_le; [lra|]. apply IZR_le. discriminate. Qed.

Lemma rnd_plus_nz x y : fmt x -> fmt y -> x + y <> 0 -> rnd (x + y) <> 0.
Proof. intros. apply round_plus_neq_0; auto with typeclass_instances. Qed.

Lemma rnd_diff_pos x y : fmt x -> fmt y -> x < y -> 0 < rnd (y - x).
Proof.
  intros Fx Fy H. assert (N : rnd (y + - x) <> 0) by (apply rnd_plus_nz; [auto|now apply fmt_opp|lra]).
  destruct (rnd_pos (y - x)); try lra. exfalso. apply N. unfold Rminus in *. auto.
Qed.

Lemma uro_u_ro : u_ro radix2 53 = uro.
Proof. unfold u_ro, uro. change (/2) with (bpow radix2 (-1)). now rewrite <- bpow_plus. Qed.

(** The error of an addition is a double, relatively bounded by the unit roundoff. *)
Lemma plus_err_fmt x y : fmt x -> fmt y -> fmt (rnd (x + y) - (x + y)).
Proof. intros. apply plus_error; auto with typeclass_instances. Qed.

Lemma plus_err x y : fmt x -> fmt y -> Rabs (rnd (x + y) - (x + y)) <= uro * Rabs (x + y).
Proof.
  intros Fx Fy. pose proof uro_pos.
  destruct (FLT_plus_error_N_ex radix2 (-1074) 53 (fun x => negb (Z.even x)) x y Fx Fy) as (e & He & E).
  rewrite uro_u_ro in He.
  unfold rnd. rewrite E. replace ((x + y) * (1 + e) - (x + y)) with (e * (x + y)) by ring.
  rewrite Rabs_mult. apply Rmult_le_compat_r; [apply Rabs_pos|].
  apply Rle_trans with (1 := He). apply Rmult_le_reg_r with (1 + uro); [lra|].
  unfold Rdiv. rewrite Rmult_assoc, Rinv_l by lra. nra.
Qed.

Lemma plus_err_r x y : fmt x -> fmt y -> Rabs (rnd (x + y) - (x + y)) <= uro * Rabs (rnd (x + y)).
Proof.
  intros Fx Fy. pose proof uro_pos.
  destruct (FLT_plus_error_N_round_ex radix2 (-1074) 53 (fun x => negb (Z.even x)) x y Fx Fy) as (e & He & E).
  rewrite uro_u_ro in He. fold (rnd (x + y)) in E.
  rewrite E at 2. replace (rnd (x + y) - rnd (x + y) * (1 + e)) with (- e * rnd (x + y)) by ring.
  rewrite Rabs_mult, Rabs_Ropp. apply Rmult_le_compat_r; [apply Rabs_pos|exact He].
Qed.

Lemma minus_err x y : fmt x -> fmt y -> Rabs (rnd (x - y) - (x - y)) <= uro * Rabs (x - y).
Proof. intros Fx Fy. unfold Rminus at 1 3 4. apply plus_err; auto using fmt_opp. Qed.

(** Any rounding: relative unit roundoff plus half the smallest subnormal. *)
Definition eta : R := bpow radix2 (-1075).
Lemma rnd_err x : Rabs (rnd x - x) <= uro * Rabs x + eta.
Proof.
  destruct (error_N_FLT radix2 (-1074) 53 eq_refl (fun x => negb (Z.even x)) x) as (e & h & He & Hh & _ & E).
  unfold rnd. rewrite E. replace (x * (1 + e) + h - x) with (e * x + h) by ring.
  apply Rle_trans with (1 := Rabs_triang _ _). rewrite Rabs_mult. apply Rplus_le_compat.
  - apply Rmult_le_compat_r; [apply Rabs_pos|]. rewrite <- uro_u_ro. exact He.
  - unfold eta. replace (bpow radix2 (-1075)) with (/ 2 * bpow radix2 (-1074)); [exact Hh|].
    change (/2) with (bpow radix2 (-1)). now rewrite <- bpow_plus.
Qed.
