(** Lemmas about accumulators on data with the opposite sign or in other units. *)
From Coq Require Import ZArith Reals List Bool Lia Lra.
From Flocq Require Import Core.Core IEEE754.BinarySingleNaN.
From Verif Require Import Base F64 Num M_Accum S_Bravais S_Mirror L_Approx L_Space L_Bravais L_Accum.
Import ListNotations.
Open Scope R_scope.

Lemma fsub_fadd x y : fsub x y = fadd x (fopp y).
Proof. destruct x as [[]|[]| |], y as [[]|[]| |]; reflexivity. Qed.

Lemma negated_opp x y : negated x y -> negated (fopp x) (fopp y).
Proof.
  intros [->|(Fx & Fy & Ex & Ey)]; [now left|]. right. rewrite !RR_fopp. repeat split; [now apply fin_fopp|now apply fin_fopp|lra|lra].
Qed.
Lemma negated_sub x y x' y' : negated x y -> negated x' y' -> negated (fsub x x') (fsub y y').
Proof. intros. rewrite !fsub_fadd. apply negated_add; [assumption|now apply negated_opp]. Qed.

Lemma fdiv_opp_l x y : fdiv (fopp x) y = fopp (fdiv x y).
Proof.
  destruct (fin_split x) as [Fx|Nx], (fin_split y) as [Fy|Ny].
  2-4: destruct x as [[]|[]| |[] m e b], y as [[]|[]| |[] m' e' b']; try (now exfalso; apply Nx); try (now exfalso; apply Ny); reflexivity.
  destruct (Req_dec (RR y) 0) as [Zy|Zy].
  { destruct (fin_zero y Fy Zy) as [[] ->]; destruct x as [[]|[]| |[] m e b]; reflexivity. }
  assert (Fo : fin (fopp x)) by now apply fin_fopp.
  pose proof (Bdiv_correct 53 1024 _ _ mode_NE x y Zy) as C. pose proof (Bdiv_correct 53 1024 _ _ mode_NE (fopp x) y Zy) as C'.
  change (round radix2 (SpecFloat.fexp 53 1024) (round_mode mode_NE) (B2R x / B2R y)) with (rnd (RR x / RR y)) in C.
  change (round radix2 (SpecFloat.fexp 53 1024) (round_mode mode_NE) (B2R (fopp x) / B2R y)) with (rnd (RR (fopp x) / RR y)) in C'.
  assert (E : rnd (RR (fopp x) / RR y) = - rnd (RR x / RR y)) by (rewrite RR_fopp; unfold Rdiv; rewrite Ropp_mult_distr_l_reverse; apply rnd_opp).
  rewrite E, Rabs_Ropp in C'.
  assert (So : Bsign (fopp x) = negb (Bsign x)) by (destruct x; reflexivity || discriminate Fx).
  destruct (Rlt_bool_spec (Rabs (rnd (RR x / RR y))) (bpow radix2 1024)) as [H|H].
  - destruct C as (A & B & S), C' as (A' & B' & S').
    change (Bdiv mode_NE x y) with (fdiv x y) in *. change (Bdiv mode_NE (fopp x) y) with (fdiv (fopp x) y) in *.
    unfold fin in Fx, Fy, Fo. rewrite Fx in B. rewrite Fo in B'.
    assert (N1 : is_nan (fdiv x y) = false) by (destruct (fdiv x y); cbn in *; congruence).
    assert (N2 : is_nan (fdiv (fopp x) y) = false) by (destruct (fdiv (fopp x) y); cbn in *; congruence).
    specialize (S N1). specialize (S' N2).
    apply B2R_Bsign_inj.
    + exact B'.
    + unfold fopp. rewrite is_finite_Bopp. exact B.
    + change (RR (fdiv (fopp x) y) = RR (fopp (fdiv x y))). rewrite RR_fopp. unfold RR in *. now rewrite A, A'.
    + rewrite S', So. unfold fopp. rewrite (Bsign_Bopp _ _ (fdiv x y) N1). rewrite S. now destruct (Bsign x), (Bsign y).
  - apply B2SF_inj. change (Bdiv mode_NE x y) with (fdiv x y) in *. change (Bdiv mode_NE (fopp x) y) with (fdiv (fopp x) y) in *.
    rewrite C', So, B2SF_overflow. rewrite B2SF_overflow in C.
    destruct (fdiv x y) as [|s| |]; try discriminate C. cbn in C. injection C as ->. cbn. now destruct (Bsign x), (Bsign y).
Qed.

Lemma negated_div x y v : negated x y -> negated (fdiv x v) (fdiv y v).
Proof.
  intros [->|(Fx & Fy & Ex & Ey)]; [left; apply fdiv_opp_l|].
  destruct (fin_zero x Fx Ex) as [s ->]. destruct (fin_zero y Fy Ey) as [s' ->].
  destruct v as [sv|sv| |sv m e b]; [left; reflexivity|right|left; reflexivity|right]; now repeat split.
Qed.
Lemma negated_mul_r x y v : negated x y -> negated (fmul v x) (fmul v y).
Proof.
  intros [->|(Fx & Fy & Ex & Ey)]; [left; apply fmul_opp_r|].
  destruct (fin_zero x Fx Ex) as [s ->]. destruct (fin_zero y Fy Ey) as [s' ->].
  destruct v as [sv|sv| |sv m e b]; [right|left; reflexivity|left; reflexivity|right]; now repeat split.
Qed.

Lemma negated_fabs x y : negated x y -> fabs y = fabs x.
Proof.
  intros [->|(Fx & Fy & Ex & Ey)]; [unfold fabs, fopp; apply Babs_Bopp|].
  destruct (fin_zero x Fx Ex) as [s ->]. destruct (fin_zero y Fy Ey) as [s' ->]. reflexivity.
Qed.

(** * The same up to the sign of zero *)
Lemma alike_refl x : alike x x. Proof. now left. Qed.
Lemma negated_twice x y z : negated x y -> negated y z -> alike x z.
Proof.
  intros [->|(Fx & Fy & Ex & Ey)] [->|(Fy' & Fz & Ey' & Ez)].
  - left. apply fopp_fopp.
  - right. rewrite RR_fopp in Ey'. repeat split; [now apply fin_fopp|assumption|lra|assumption].
  - right. rewrite RR_fopp. repeat split; [assumption|now apply fin_fopp|assumption|lra].
  - right. now repeat split.
Qed.
Lemma negated_self x : negated x (fopp x). Proof. now left. Qed.
Lemma negated_sym x y : negated x y -> negated y x.
Proof. intros [->|(Fx & Fy & Ex & Ey)]; [left; symmetry; apply fopp_fopp|right; now repeat split]. Qed.
Lemma alike_negated x y : alike x y -> negated x (fopp y).
Proof. intros [->|(Fx & Fy & Ex & Ey)]; [now left|right]. rewrite RR_fopp. repeat split; [assumption|now apply fin_fopp|assumption|lra]. Qed.

Lemma alike_product x y x' y' : negated x y -> negated x' y' -> alike (fmul x x') (fmul y y').
Proof. intros H H'. apply (negated_twice _ (fmul y x')); [now apply negated_mul|now apply negated_mul_r]. Qed.

Lemma alike_add x y x' y' : alike x y -> alike x' y' -> alike (fadd x x') (fadd y y').
Proof.
  intros H H'. apply (negated_twice _ (fadd (fopp y) (fopp y'))); [apply negated_add; now apply alike_negated|].
  apply negated_add; apply negated_sym, negated_self.
Qed.
Lemma alike_div x y v : alike x y -> alike (fdiv x v) (fdiv y v).
Proof.
  intros H. apply (negated_twice _ (fdiv (fopp y) v)); [now apply negated_div, alike_negated|]. apply negated_div, negated_sym, negated_self.
Qed.
Lemma alike_sqrt x y : alike x y -> alike (fsqrt x) (fsqrt y).
Proof.
  intros [->|(Fx & Fy & Ex & Ey)]; [now left|]. destruct (fin_zero x Fx Ex) as [s ->]. destruct (fin_zero y Fy Ey) as [s' ->].
  right. now repeat split.
Qed.

(** * Simulation *)
Lemma apply_related {S X} (add : S -> X -> S * out unit) (f : X -> X) (R : S -> S -> Prop) :
  (forall a a' x, R a a' -> R (fst (add a x)) (fst (add a' (f x))) /\ snd (add a' (f x)) = snd (add a x)) ->
  forall l a a', R a a' ->
  R (fst (apply_accumulator add l a)) (fst (apply_accumulator add (map f l) a')) /\
  snd (apply_accumulator add (map f l) a') = snd (apply_accumulator add l a).
Proof.
  intros H l. induction l as [|x l IH]; intros a a' Q; [split; [exact Q|reflexivity]|]. cbn [map apply_accumulator].
  destruct (H a a' x Q) as [Q' E]. destruct (add a x) as [b o], (add a' (f x)) as [b' o']. cbn [fst snd] in *. subst o'.
  destruct o; [now apply IH|now split..].
Qed.

Definition kahan_mirror (a a' : kahan f64) : Prop := negated (k_sum a) (k_sum a') /\ negated (k_c a) (k_c a') /\ k_count a' = k_count a.
Definition neumaier_mirror (a a' : neumaier f64) : Prop := negated (n_sum a) (n_sum a') /\ negated (n_c a) (n_c a') /\ n_count a' = n_count a.
Definition kw_mirror (a a' : kw f64) : Prop := negated (kw_mean a) (kw_mean a') /\ alike (kw_m2 a) (kw_m2 a') /\ kw_count a' = kw_count a.
Definition west_mirror (a a' : west f64) : Prop :=
  w_sw a' = w_sw a /\ w_sw2 a' = w_sw2 a /\ negated (w_mean a) (w_mean a') /\ alike (w_m2 a) (w_m2 a') /\ w_count a' = w_count a.

Lemma negated_zero : negated f0 f0. Proof. right. now repeat split. Qed.

Lemma kahan_mirrored chk l : let r := apply_accumulator (KahanAdd numF chk) l (kahan_new numF) in
  let r' := apply_accumulator (KahanAdd numF chk) (map fopp l) (kahan_new numF) in kahan_mirror (fst r) (fst r') /\ snd r' = snd r.
Proof.
  apply apply_related; [|split; [apply negated_zero|split; [apply negated_zero|reflexivity]]].
  intros a a' x (Es & Ec & En). unfold KahanAdd. rewrite En. destruct (chk && (k_count a =? ulong_max)%Z); cbn [fst snd]; [now repeat split|].
  split; [|reflexivity]. unfold kahan_mirror, kahan_step. cbn [k_sum k_c k_count]. rewrite En.
  assert (Ey : negated (n_sub numF x (k_c a)) (n_sub numF (fopp x) (k_c a'))) by (apply negated_sub; [apply negated_self|exact Ec]).
  assert (Et : negated (n_add numF (k_sum a) (n_sub numF x (k_c a))) (n_add numF (k_sum a') (n_sub numF (fopp x) (k_c a')))) by now apply negated_add.
  split; [exact Et|]. split; [|reflexivity]. apply negated_sub; [now apply negated_sub|exact Ey].
Qed.

Lemma neumaier_mirrored chk l : let r := apply_accumulator (NeumaierAdd numF chk) l (neumaier_new numF) in
  let r' := apply_accumulator (NeumaierAdd numF chk) (map fopp l) (neumaier_new numF) in neumaier_mirror (fst r) (fst r') /\ snd r' = snd r.
Proof.
  apply apply_related; [|split; [apply negated_zero|split; [apply negated_zero|reflexivity]]].
  intros a a' x (Es & Ec & En). unfold NeumaierAdd. rewrite En. destruct (chk && (n_count a =? ulong_max)%Z); cbn [fst snd]; [now repeat split|].
  split; [|reflexivity]. unfold neumaier_mirror, neumaier_step. cbn [n_sum n_c n_count]. rewrite En.
  pose proof (negated_self x) as Ex.
  assert (Et : negated (n_add numF (n_sum a) x) (n_add numF (n_sum a') (fopp x))) by now apply negated_add.
  split; [exact Et|]. split; [|reflexivity].
  replace (n_le numF (n_abs numF (fopp x)) (n_abs numF (n_sum a'))) with (n_le numF (n_abs numF x) (n_abs numF (n_sum a))).
  - destruct (n_le numF (n_abs numF x) (n_abs numF (n_sum a))); (apply negated_add; [exact Ec|]); apply negated_add; try assumption; now apply negated_sub.
  - cbn [numF n_abs]. now rewrite (negated_fabs _ _ Ex), (negated_fabs _ _ Es).
Qed.

Lemma kw_mirrored chk l : let r := apply_accumulator (KwAdd numF chk) l (kw_new numF) in
  let r' := apply_accumulator (KwAdd numF chk) (map fopp l) (kw_new numF) in kw_mirror (fst r) (fst r') /\ snd r' = snd r.
Proof.
  apply apply_related; [|split; [apply negated_zero|split; [apply alike_refl|reflexivity]]].
  intros a a' x (Es & Ec & En). unfold KwAdd. rewrite En. destruct (chk && (kw_count a =? ulong_max)%Z); cbn [fst snd]; [now repeat split|].
  split; [|reflexivity]. unfold kw_mirror, kw_step. cbn [kw_mean kw_m2 kw_count]. rewrite En.
  pose proof (negated_self x) as Ex. pose proof (negated_sub _ _ _ _ Ex Es) as Ed.
  pose proof (negated_add _ _ _ _ Es (negated_div _ _ (of_Z (u64 (kw_count a + 1))) Ed)) as Em.
  split; [exact Em|]. split; [|reflexivity]. apply alike_add; [exact Ec|]. apply alike_product; [exact Ed|]. now apply negated_sub.
Qed.

Lemma west_mirrored chk l : let r := apply_accumulator (fun a p => WestAdd numF chk a (fst p) (snd p)) l (west_new numF) in
  let r' := apply_accumulator (fun a p => WestAdd numF chk a (fst p) (snd p)) (map (fun p => (fopp (fst p), snd p)) l) (west_new numF) in
  west_mirror (fst r) (fst r') /\ snd r' = snd r.
Proof.
  apply apply_related; [|split; [reflexivity|split; [reflexivity|split; [apply negated_zero|split; [apply alike_refl|reflexivity]]]]].
  intros a a' [x w] (E1 & E2 & Es & Ec & En). cbn [fst snd]. unfold WestAdd. rewrite En.
  destruct (n_lt numF (n_ofZ numF 0) w); [|now repeat split].
  destruct (chk && (w_count a =? ulong_max)%Z); cbn [fst snd]; [now repeat split|].
  split; [|reflexivity]. unfold west_mirror, west_step. cbn [w_sw w_sw2 w_mean w_m2 w_count]. rewrite En, E1, E2.
  split; [reflexivity|]. split; [reflexivity|].
  pose proof (negated_self x) as Ex. pose proof (negated_sub _ _ _ _ Ex Es) as Ed.
  pose proof (negated_add _ _ _ _ Es (negated_mul_r _ _ (fdiv w (fadd (w_sw a) w)) Ed)) as Em.
  split; [exact Em|]. split; [|reflexivity]. apply alike_add; [exact Ec|]. apply alike_product; [now apply negated_mul_r|]. now apply negated_sub.
Qed.

(** * Powers of two *)
Lemma mult_sum x y : fmt x -> fmt y -> exists m, x + y = IZR m * bpow radix2 (-1074).
Proof.
  assert (G : forall z, fmt z -> exists m, z = IZR m * bpow radix2 (-1074)).
  { intros z Fz. rewrite (Fz : z = _). set (e := cexp radix2 (FLT_exp (-1074) 53) z). assert (He : (-1074 <= e)%Z) by (unfold e, cexp, FLT_exp; lia).
    exists (Ztrunc (scaled_mantissa radix2 (FLT_exp (-1074) 53) z) * 2 ^ (e - -1074))%Z. unfold F2R. cbn [Fnum Fexp]. fold e.
    rewrite mult_IZR, Rmult_assoc. f_equal. replace e with ((e - -1074) + -1074)%Z at 1 by lia. rewrite bpow_plus. f_equal.
    rewrite <- IZR_Zpower by lia. reflexivity. }
  intros Hx Hy. destruct (G x Hx) as [m Em]. destruct (G y Hy) as [m' Em']. exists (m + m')%Z. rewrite plus_IZR, Em, Em'. ring.
Qed.

Lemma rnd_scale x y k : (0 <= k)%Z -> fmt x -> fmt y -> rnd ((x + y) * bpow radix2 k) = rnd (x + y) * bpow radix2 k.
Proof.
  intros Hk Hx Hy. destruct (mult_sum x y Hx Hy) as [m Em]. rewrite Em. clear x y Hx Hy Em.
  set (r := IZR m * bpow radix2 (-1074)).
  destruct (Z.eq_dec m 0) as [->|Nm].
  { unfold r. replace (0 * bpow radix2 (-1074) * bpow radix2 k) with 0 by ring. replace (0 * bpow radix2 (-1074)) with 0 by ring.
    unfold rnd. rewrite round_0 by apply valid_rnd_N. ring. }
  assert (Nr : r <> 0).
  { unfold r. apply Rmult_integral_contrapositive. split; [now apply not_0_IZR|]. apply Rgt_not_eq, bpow_gt_0. }
  destruct (Z_le_gt_dec (-1021) (mag radix2 r)) as [B|B].
  - assert (Ec : cexp radix2 (FLT_exp (-1074) 53) (r * bpow radix2 k) = (cexp radix2 (FLT_exp (-1074) 53) r + k)%Z).
    { unfold cexp. rewrite mag_mult_bpow by exact Nr. unfold FLT_exp. lia. }
    unfold rnd, round, scaled_mantissa. change (SpecFloat.fexp 53 1024) with (FLT_exp (-1074) 53). rewrite Ec. unfold F2R. cbn [Fnum Fexp].
    replace (r * bpow radix2 k * bpow radix2 (- (cexp radix2 (FLT_exp (-1074) 53) r + k))) with (r * bpow radix2 (- cexp radix2 (FLT_exp (-1074) 53) r)).
    + rewrite bpow_plus. ring.
    + replace (- cexp radix2 (FLT_exp (-1074) 53) r)%Z with (k + - (cexp radix2 (FLT_exp (-1074) 53) r + k))%Z by lia. rewrite bpow_plus. ring.
  - assert (Bm : (Z.abs m < 2 ^ 53)%Z).
    { apply lt_IZR. apply Rmult_lt_reg_r with (bpow radix2 (-1074)); [apply bpow_gt_0|].
      replace (IZR (Z.abs m) * bpow radix2 (-1074)) with (Rabs r) by (unfold r; rewrite Rabs_mult, abs_IZR, (Rabs_pos_eq (bpow _ _)); [reflexivity|apply bpow_ge_0]).
      change (IZR (2 ^ 53)) with (bpow radix2 53). rewrite <- bpow_plus. apply Rlt_le_trans with (bpow radix2 (mag radix2 r)); [apply bpow_mag_gt|apply bpow_le; lia]. }
    assert (Fm : forall e, (-1074 <= e)%Z -> fmt (IZR m * bpow radix2 e)).
    { intros e He. apply generic_format_FLT. apply (FLT_spec radix2 (-1074) 53 _ (Float radix2 m e)); [reflexivity|exact Bm|exact He]. }
    replace (r * bpow radix2 k) with (IZR m * bpow radix2 (-1074 + k)) by (unfold r; rewrite bpow_plus; ring).
    rewrite !rnd_fmt by (try apply Fm; unfold r; try apply Fm; lia). unfold r. rewrite bpow_plus. ring.
Qed.


Lemma scale_bound k x : (0 <= k)%Z -> Rabs x <= Rabs (x * bpow radix2 k).
Proof.
  intros Hk. rewrite Rabs_mult, (Rabs_pos_eq (bpow _ _)) by apply bpow_ge_0. rewrite <- (Rmult_1_r (Rabs x)) at 1.
  apply Rmult_le_compat_l; [apply Rabs_pos|]. change 1 with (bpow radix2 0). now apply bpow_le.
Qed.

Lemma scaled_add k x y x' y' : (0 <= k)%Z -> scaled k x y -> scaled k x' y' -> fin (fadd y y') -> scaled k (fadd x x') (fadd y y').
Proof.
  intros Hk (Fx & Fy & E) (Fx' & Fy' & E') F. destruct (fadd_inv y y' F) as (_ & _ & Ey).
  assert (Q : RR (fadd y y') = rnd (RR x + RR x') * bpow radix2 k).
  { rewrite Ey, E, E', <- Rmult_plus_distr_r. apply rnd_scale; [exact Hk|apply fmt_RR..]. }
  destruct (fadd_ok x x' Fx Fx') as [Ex F'].
  - apply Rle_lt_trans with (1 := scale_bound k _ Hk). rewrite <- Q. apply RR_lt_fmax.
  - split; [exact F'|]. split; [exact F|]. now rewrite Q, Ex.
Qed.
Lemma scaled_opp k x y : scaled k x y -> scaled k (fopp x) (fopp y).
Proof. intros (Fx & Fy & E). split; [now apply fin_fopp|]. split; [now apply fin_fopp|]. rewrite !RR_fopp, E. ring. Qed.
Lemma scaled_sub k x y x' y' : (0 <= k)%Z -> scaled k x y -> scaled k x' y' -> fin (fsub y y') -> scaled k (fsub x x') (fsub y y').
Proof. intros Hk H H'. rewrite !fsub_fadd. intros F. apply scaled_add; [exact Hk|exact H|now apply scaled_opp|exact F]. Qed.
Lemma scaled_zero k : scaled k f0 f0.
Proof. split; [reflexivity|]. split; [reflexivity|]. change (RR f0) with 0. ring. Qed.

Lemma fold_snoc {S X} (f : S -> X -> S) l x a : fold_left f (l ++ [x]) a = f (fold_left f l a) x.
Proof. now rewrite fold_left_app. Qed.

Lemma kahan_scaled k l l' : (0 <= k)%Z -> Forall2 (scaled k) l l' ->
  let a := fold_left (kahan_step numF) l (kahan_new numF) in let a' := fold_left (kahan_step numF) l' (kahan_new numF) in
  (fin (k_sum a') -> scaled k (k_sum a) (k_sum a')) /\ (fin (k_sum a') -> fin (k_c a') -> scaled k (k_c a) (k_c a')).
Proof.
  intros Hk. revert l'. induction l as [|x l IH] using rev_ind; intros l' F.
  { inversion F; subst. cbv zeta. cbn [fold_left]. split; intros; apply scaled_zero. }
  apply Forall2_app_inv_l in F as (l1 & l2 & F1 & F2 & ->). inversion F2 as [|? x' ? l3 Sx F3]; subst. inversion F3; subst.
  specialize (IH l1 F1). cbv zeta in *. rewrite !fold_snoc.
  set (a := fold_left (kahan_step numF) l (kahan_new numF)) in *. set (a' := fold_left (kahan_step numF) l1 (kahan_new numF)) in *.
  destruct IH as [IS IC]. unfold kahan_step. cbn [k_sum k_c numF n_add n_sub].
  assert (G : fin (fadd (k_sum a') (fsub x' (k_c a'))) ->
    scaled k (k_sum a) (k_sum a') /\ scaled k (fsub x (k_c a)) (fsub x' (k_c a')) /\ scaled k (fadd (k_sum a) (fsub x (k_c a))) (fadd (k_sum a') (fsub x' (k_c a')))).
  { intros Ft. destruct (fadd_inv _ _ Ft) as (Fs & Fy & _). destruct (fsub_inv _ _ Fy) as (_ & Fc & _).
    pose proof (IS Fs) as S1. pose proof (scaled_sub k _ _ _ _ Hk Sx (IC Fs Fc) Fy) as S2. split; [exact S1|]. split; [exact S2|]. now apply scaled_add. }
  split; [intros Ft; now apply G|]. intros Ft Fc. destruct (G Ft) as (S1 & S2 & S3). destruct (fsub_inv _ _ Fc) as (Fd & _ & _).
  apply scaled_sub; auto. now apply scaled_sub.
Qed.

Lemma scaled_le k x y x' y' : scaled k x y -> scaled k x' y' -> fle (fabs y) (fabs y') = fle (fabs x) (fabs x').
Proof.
  intros (Fx & Fy & E) (Fx' & Fy' & E'). apply eq_true_iff_eq.
  assert (A : forall z, fin z -> fin (fabs z) /\ RR (fabs z) = Rabs (RR z)).
  { intros z Fz. unfold fin, fabs, RR in *. rewrite is_finite_Babs, B2R_Babs. auto. }
  destruct (A x Fx) as [F1 E1], (A y Fy) as [F2 E2], (A x' Fx') as [F3 E3], (A y' Fy') as [F4 E4].
  rewrite !fle_R by assumption. rewrite E1, E2, E3, E4, E, E', !Rabs_mult, (Rabs_pos_eq (bpow _ _)) by apply bpow_ge_0.
  pose proof (bpow_gt_0 radix2 k). split; intros Q; [now apply Rmult_le_reg_r with (bpow radix2 k)|apply Rmult_le_compat_r; lra].
Qed.

Lemma neumaier_scaled k l l' : (0 <= k)%Z -> Forall2 (scaled k) l l' ->
  let a := fold_left (neumaier_step numF) l (neumaier_new numF) in let a' := fold_left (neumaier_step numF) l' (neumaier_new numF) in
  fin (n_sum a') -> fin (n_c a') -> scaled k (n_sum a) (n_sum a') /\ scaled k (n_c a) (n_c a').
Proof.
  intros Hk. revert l'. induction l as [|x l IH] using rev_ind; intros l' F.
  { inversion F; subst. cbv zeta. cbn [fold_left]. split; apply scaled_zero. }
  apply Forall2_app_inv_l in F as (l1 & l2 & F1 & F2 & ->). inversion F2 as [|? x' ? l3 Sx F3]; subst. inversion F3; subst.
  specialize (IH l1 F1). cbv zeta in *. rewrite !fold_snoc.
  set (a := fold_left (neumaier_step numF) l (neumaier_new numF)) in *. set (a' := fold_left (neumaier_step numF) l1 (neumaier_new numF)) in *.
  unfold neumaier_step. cbn [n_sum n_c numF n_add n_sub n_le n_abs]. intros Ft Fc.
  destruct (fadd_inv _ _ Ft) as (Fs & _ & _).
  assert (Fc' : fin (n_c a')) by (destruct (fle (fabs x') (fabs (n_sum a'))); now apply fadd_inv in Fc).
  destruct (IH Fs Fc') as [S1 S2]. pose proof (scaled_add k _ _ _ _ Hk S1 Sx Ft) as St. split; [exact St|].
  rewrite (scaled_le k _ _ _ _ Sx S1) in Fc |- *. destruct (fle (fabs x) (fabs (n_sum a))).
  - destruct (fadd_inv _ _ Fc) as (_ & Fd & _). destruct (fadd_inv _ _ Fd) as (Fe & _ & _).
    apply scaled_add; auto. apply scaled_add; auto. now apply scaled_sub.
  - destruct (fadd_inv _ _ Fc) as (_ & Fd & _). destruct (fadd_inv _ _ Fd) as (Fe & _ & _).
    apply scaled_add; auto. apply scaled_add; auto. now apply scaled_sub.
Qed.

Lemma dyad_tiny m : (Z.abs m < 2 ^ 53)%Z -> RR (dyad m (-1074)) = IZR m * bpow radix2 (-1074) /\ fin (dyad m (-1074)).
Proof.
  intros Hm. assert (F : fmt (IZR m * bpow radix2 (-1074))).
  { apply generic_format_FLT. apply (FLT_spec radix2 (-1074) 53 _ (Float radix2 m (-1074))); [reflexivity|exact Hm|cbn; lia]. }
  destruct (dyad_ok m (-1074)) as [E G].
  - apply (no_overflow _ 0); [lia|]. unfold F2R. cbn [Fnum Fexp]. rewrite Rabs_mult, (Rabs_pos_eq (bpow _ _)) by apply bpow_ge_0.
    apply Rle_trans with (bpow radix2 53 * bpow radix2 (-1074)); [|rewrite <- bpow_plus; apply bpow_le; lia].
    apply Rmult_le_compat_r; [apply bpow_ge_0|]. rewrite <- abs_IZR. change (bpow radix2 53) with (IZR (2 ^ 53)). apply IZR_le. lia.
  - split; [|exact G]. rewrite E. unfold F2R. cbn [Fnum Fexp]. now apply rnd_fmt.
Qed.
