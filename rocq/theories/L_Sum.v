(** Error analysis of the compensated sums. *)
From Coq Require Import ZArith Reals List Lia Lra Psatz Bool.
From Flocq Require Import Core.Core Pff.Pff2Flocq.
From Verif Require Import Base F64 Num M_Archive M_Accum S_Accum.
Import ListNotations.
Open Scope R_scope.

(** ** Sums of lists *)

Lemma sumR_app a b : sumR (a ++ b) = sumR a + sumR b.
Proof. unfold sumR. induction a; simpl; lra. Qed.
Lemma sumR_snoc a x : sumR (a ++ [x]) = sumR a + x.
Proof. rewrite sumR_app. unfold sumR at 2. simpl. lra. Qed.
Lemma sum_abs_snoc a x : sum_abs (a ++ [x]) = sum_abs a + Rabs x.
Proof. unfold sum_abs. rewrite map_app. apply sumR_snoc. Qed.
Lemma sum_abs_pos a : 0 <= sum_abs a.
Proof.
  induction a as [|x a IH] using rev_ind; [unfold sum_abs, sumR; simpl; lra|].
  rewrite sum_abs_snoc. pose proof (Rabs_pos x). lra.
Qed.
Lemma sumR_abs a : Rabs (sumR a) <= sum_abs a.
Proof.
  induction a as [|x a IH] using rev_ind; [unfold sum_abs, sumR; simpl; rewrite Rabs_R0; lra|].
  rewrite sum_abs_snoc, sumR_snoc. pose proof (Rabs_triang (sumR a) x). lra.
Qed.

Lemma Rabs_le_3 a b c : Rabs (a + b + c) <= Rabs a + Rabs b + Rabs c.
Proof. pose proof (Rabs_triang (a + b) c). pose proof (Rabs_triang a b). lra. Qed.

(** ** The error-free transformation *)

Lemma fast2sum x y : fmt x -> fmt y -> Rabs y <= Rabs x ->
  rnd (y + rnd (x - rnd (x + y))) = x + y - rnd (x + y).
Proof.
  intros Fx Fy H.
  assert (E : rnd (x + y) + rnd (y + rnd (x - rnd (x + y))) = x + y).
  { apply (Fast2Sum_correct (-1074) 53 (fun z => negb (Z.even z))); auto; try lia.
    intros z. rewrite Z.even_opp. replace (z + 1)%Z with (Z.succ z) by lia.
    rewrite Z.even_succ, <- Z.negb_even. now rewrite negb_involutive. }
  lra.
Qed.

(** ** Kahan *)

Lemma kahan_real_step s c x y t d c' :
  fmt s -> fmt c -> fmt x ->
  y = rnd (x - c) -> t = rnd (s + y) -> d = rnd (t - s) -> c' = rnd (d - y) ->
  exists e1 e2 e34,
    y = x - c + e1 /\ t = s + y + e2 /\ c' = e2 + e34 /\
    Rabs e1 <= uro * (Rabs x + Rabs c) /\
    Rabs e2 <= uro * Rabs t /\ Rabs e2 <= uro * (Rabs s + Rabs y) /\
    Rabs e34 <= (uro + 6 * (uro * uro)) * Rabs y.
Proof.
  intros Fs Fc Fx Ey Et Ed Ec. pose proof uro_pos. pose proof uro_small.
  assert (Fy : fmt y) by (rewrite Ey; apply fmt_rnd).
  assert (Ft : fmt t) by (rewrite Et; apply fmt_rnd).
  assert (Fd : fmt d) by (rewrite Ed; apply fmt_rnd).
  exists (y - (x - c)), (t - (s + y)), (c' - (t - (s + y))).
  assert (H2 : Rabs (t - (s + y)) <= uro * Rabs (s + y)) by (rewrite Et; now apply plus_err).
  assert (H2' : Rabs (t - (s + y)) <= uro * (Rabs s + Rabs y)).
  { pose proof (Rabs_triang s y). nra. }
  repeat split; try lra.
  - rewrite Ey. apply Rle_trans with (1 := minus_err x c Fx Fc).
    pose proof (Rabs_triang x (- c)). rewrite Rabs_Ropp in *. unfold Rminus. nra.
  - rewrite Et. now apply plus_err_r.
  - destruct (Rle_lt_dec (Rabs y) (Rabs s)) as [Hc|Hc].
    + assert (E : c' = t - (s + y)).
      { rewrite Ec, Ed. pose proof (fast2sum s y Fs Fy Hc) as F. rewrite <- Et in F.
        replace (t - s) with (- (s - t)) by ring. rewrite rnd_opp.
        replace (- rnd (s - t) - y) with (- (y + rnd (s - t))) by ring.
        rewrite rnd_opp, F. lra. }
      rewrite E. replace (t - (s + y) - (t - (s + y))) with 0 by ring. rewrite Rabs_R0.
      pose proof (Rabs_pos y). nra.
    + pose proof (minus_err t s Ft Fs) as H3. rewrite <- Ed in H3.
      pose proof (minus_err d y Fd Fy) as H4. rewrite <- Ec in H4.
      pose proof (Rabs_pos y). pose proof (Rabs_pos s).
      assert (A2 : Rabs (t - (s + y)) <= 2 * uro * Rabs y) by nra.
      assert (A3 : Rabs (d - (t - s)) <= uro * ((1 + 2 * uro) * Rabs y)).
      { apply Rle_trans with (1 := H3). apply Rmult_le_compat_l; [lra|].
        replace (t - s) with (y + (t - (s + y))) by ring.
        pose proof (Rabs_triang y (t - (s + y))). lra. }
      assert (A4 : Rabs (c' - (d - y)) <= uro * ((3 * uro + 2 * (uro * uro)) * Rabs y)).
      { apply Rle_trans with (1 := H4). apply Rmult_le_compat_l; [lra|].
        replace (d - y) with ((d - (t - s)) + (t - (s + y))) by ring.
        pose proof (Rabs_triang (d - (t - s)) (t - (s + y))). lra. }
      replace (c' - (t - (s + y))) with ((c' - (d - y)) + (d - (t - s))) by ring.
      apply Rle_trans with (1 := Rabs_triang _ _).
      assert (uro * uro * uro * Rabs y <= / 1000000 * (uro * uro * Rabs y)).
      { assert (0 <= uro * uro * Rabs y) by nra. nra. }
      nra.
Qed.

(** Constants of the bound: |z - X| <= (2u + 16 n u^2) A and |c| <= 4 u A. *)
Lemma kahan_real_inv k A X s c x e1 e2 e34 y t c' :
  0 <= A -> 0 <= k -> k * uro <= / 16 ->
  Rabs X <= A ->
  Rabs (s - c - X) <= (2 * uro + 16 * (k * (uro * uro))) * A ->
  Rabs c <= 4 * uro * A ->
  y = x - c + e1 -> t = s + y + e2 -> c' = e2 + e34 ->
  Rabs e1 <= uro * (Rabs x + Rabs c) ->
  Rabs e2 <= uro * Rabs t -> Rabs e2 <= uro * (Rabs s + Rabs y) ->
  Rabs e34 <= (uro + 6 * (uro * uro)) * Rabs y ->
  Rabs (t - c' - (X + x)) <= (2 * uro + 16 * ((k + 1) * (uro * uro))) * (A + Rabs x) /\
  Rabs c' <= 4 * uro * (A + Rabs x) /\
  Rabs (t - (X + x)) <= uro * Rabs t + (2 * uro + 16 * ((k + 1) * (uro * uro))) * (A + Rabs x).
Proof.
  intros HA Hk Hku HX Hz Hc Ey Et Ec H1 H2 H2' H34.
  pose proof uro_pos as Hu. pose proof uro_small as Hus. set (u := uro) in *.
  set (ax := Rabs x) in *. assert (Hax : 0 <= ax) by apply Rabs_pos.
  (* orders of magnitude *)
  set (P := u * A). set (Q := u * ax). set (PP := u * P). set (QQ := u * Q).
  assert (HP : 0 <= P) by (unfold P; nra). assert (HQ : 0 <= Q) by (unfold Q; nra).
  assert (HPP : 0 <= PP <= / 1000000 * P) by (unfold PP; nra).
  assert (HQQ : 0 <= QQ <= / 1000000 * Q) by (unfold QQ; nra).
  set (P3 := u * PP). set (Q3 := u * QQ).
  assert (HP3 : 0 <= P3 <= / 1000000 * PP) by (unfold P3; nra).
  assert (HQ3 : 0 <= Q3 <= / 1000000 * QQ) by (unfold Q3; nra).
  assert (HPA : P <= / 1000000 * A) by (unfold P; nra).
  assert (HQx : Q <= / 1000000 * ax) by (unfold Q; nra).
  set (K := k * PP). assert (HK : 0 <= K) by (unfold K; nra).
  assert (HKP : K <= / 16 * P).
  { unfold K, PP. replace (k * (u * P)) with (k * u * P) by ring.
    apply Rmult_le_compat_r; [lra|exact Hku]. }
  assert (Ez : (2 * u + 16 * (k * (u * u))) * A = 2 * P + 16 * K) by (unfold K, PP, P; ring).
  rewrite Ez in Hz. assert (Hc' : Rabs c <= 4 * P) by (unfold P; lra).
  assert (H1' : Rabs e1 <= Q + 4 * PP).
  { apply Rle_trans with (1 := H1). unfold Q, PP. nra. }
  assert (Hs : Rabs s <= A + 7 * P).
  { replace s with ((s - c - X) + X + c) by ring.
    pose proof (Rabs_le_3 (s - c - X) X c). lra. }
  assert (Hy : Rabs y <= ax + Q + 4 * P + 4 * PP).
  { rewrite Ey. replace (x - c + e1) with (x + - c + e1) by ring.
    pose proof (Rabs_le_3 x (- c) e1). rewrite Rabs_Ropp in *. fold ax in H. lra. }
  assert (H34' : Rabs e34 <= Q + 12 * (PP + QQ)).
  { apply Rle_trans with (1 := H34).
    apply Rle_trans with ((u + 6 * (u * u)) * (ax + Q + 4 * P + 4 * PP)).
    - apply Rmult_le_compat_l; [nra|exact Hy].
    - replace ((u + 6 * (u * u)) * (ax + Q + 4 * P + 4 * PP))
        with (Q + QQ + 4 * PP + 4 * P3 + 6 * (QQ + Q3 + 4 * P3 + 4 * (u * P3)))
        by (unfold P3, Q3, QQ, PP, Q, P; ring).
      assert (u * P3 <= / 1000000 * P3) by nra. lra. }
  assert (E2 : Rabs e2 <= P + Q + 12 * (PP + QQ)).
  { apply Rle_trans with (1 := H2').
    apply Rle_trans with (u * (A + 7 * P + (ax + Q + 4 * P + 4 * PP))).
    - apply Rmult_le_compat_l; lra.
    - replace (u * (A + 7 * P + (ax + Q + 4 * P + 4 * PP)))
        with (P + 7 * PP + Q + QQ + 4 * PP + 4 * P3)
        by (unfold P3, QQ, PP, Q, P; ring). lra. }
  assert (EB : (2 * u + 16 * ((k + 1) * (u * u))) * (A + ax)
               = 2 * P + 2 * Q + 16 * K + 16 * (k * QQ) + 16 * PP + 16 * QQ).
  { unfold K, PP, QQ, P, Q. ring. }
  assert (Hkq : 0 <= k * QQ) by nra.
  rewrite EB. split; [|split].
  - replace (t - c' - (X + x)) with ((s - c - X) + e1 + - e34) by (rewrite Et, Ec, Ey; ring).
    pose proof (Rabs_le_3 (s - c - X) e1 (- e34)) as T. rewrite Rabs_Ropp in T. lra.
  - rewrite Ec. pose proof (Rabs_triang e2 e34).
    replace (4 * u * (A + ax)) with (4 * P + 4 * Q) by (unfold P, Q; ring). lra.
  - replace (t - (X + x)) with ((s - c - X) + e1 + e2) by (rewrite Et, Ey; ring).
    pose proof (Rabs_le_3 (s - c - X) e1 e2). lra.
Qed.

Lemma len_uro {A} (l : list A) :
  (Z.of_nat (length l) <= 2 ^ 49)%Z -> INR (length l) * uro <= / 16.
Proof.
  intros Hn. apply Rle_trans with (IZR (2 ^ 49) * uro).
  - apply Rmult_le_compat_r; [left; apply uro_pos|]. rewrite INR_IZR_INZ. now apply IZR_le.
  - assert (N : IZR (2 ^ 49) <> 0) by (apply not_eq_sym, Rlt_not_eq, IZR_lt; reflexivity).
    rewrite uro_val. change (2 ^ 53)%Z with (16 * 2 ^ 49)%Z. rewrite mult_IZR.
    right. field. exact N.
Qed.

Definition kahan_of (l : list f64) : kahan f64 := fold_left (kahan_step numF) l (kahan_new numF).

Lemma kahan_of_snoc l x : kahan_of (l ++ [x]) = kahan_step numF (kahan_of l) x.
Proof. unfold kahan_of. now rewrite fold_left_app. Qed.

Lemma of_Z_0 : of_Z 0 = f0. Proof. reflexivity. Qed.

(** Bits of a step whose new sum is finite. *)
Lemma kahan_step_fin a x :
  fin (k_sum (kahan_step numF a x)) ->
  fin x /\ fin (k_sum a) /\ fin (k_c a) /\
  exists y, y = rnd (RR x - RR (k_c a)) /\
    RR (k_sum (kahan_step numF a x)) = rnd (RR (k_sum a) + y) /\
    (fin (k_c (kahan_step numF a x)) ->
     RR (k_c (kahan_step numF a x)) =
     rnd (rnd (RR (k_sum (kahan_step numF a x)) - RR (k_sum a)) - y)).
Proof.
  destruct a as [s c n]. unfold kahan_step. cbn [k_sum k_c numF n_sub n_add].
  set (y := fsub x c). set (t := fadd s y). intros Ft.
  destruct (fadd_inv _ _ Ft) as (Fs & Fy & Et). destruct (fsub_inv _ _ Fy) as (Fx & Fc & Ey).
  repeat split; auto. exists (RR y). repeat split; auto.
  intros Fc'. destruct (fsub_inv _ _ Fc') as (Fd & _ & Ec'). destruct (fsub_inv _ _ Fd) as (_ & _ & Ed).
  rewrite Ec', Ed. reflexivity.
Qed.

Lemma kahan_inv l :
  (Z.of_nat (length l) <= 2 ^ 49)%Z ->
  fin (k_sum (kahan_of l)) -> fin (k_c (kahan_of l)) ->
  Forall fin l /\
  Rabs (RR (k_sum (kahan_of l)) - RR (k_c (kahan_of l)) - sumR (map RR l))
    <= (2 * uro + 16 * (INR (length l) * (uro * uro))) * sum_abs (map RR l) /\
  Rabs (RR (k_c (kahan_of l))) <= 4 * uro * sum_abs (map RR l).
Proof.
  induction l as [|x l IH] using rev_ind; intros Hn Fs Fc.
  - repeat split; [constructor| |]; unfold kahan_of, sumR, sum_abs; cbn [fold_left map kahan_new k_sum k_c numF n_ofZ];
      rewrite of_Z_0, RR_f0; unfold sumR; cbn [map fold_right length INR];
      rewrite ?Rminus_0_r, Rabs_R0; lra.
  - rewrite app_length in Hn. cbn [length] in Hn.
    rewrite kahan_of_snoc in *.
    destruct (kahan_step_fin _ _ Fs) as (Fx & Fs0 & Fc0 & y & Ey & Et & Ec). specialize (Ec Fc).
    destruct IH as (Hl & Hz & Hc); auto; [lia|].
    destruct (kahan_real_step (RR (k_sum (kahan_of l))) (RR (k_c (kahan_of l))) (RR x) y _ _ _
       (fmt_RR _) (fmt_RR _) (fmt_RR _) Ey Et eq_refl Ec)
      as (e1 & e2 & e34 & E1 & E2 & E3 & B1 & B2 & B2' & B34).
    split. { apply Forall_app. split; [assumption|]. constructor; auto. }
    rewrite map_app. cbn [map]. rewrite sumR_snoc, sum_abs_snoc.
    rewrite app_length. cbn [length]. rewrite plus_INR. cbn [INR].
    destruct (kahan_real_inv _ _ _ _ _ _ _ _ _ _ _ _
      (sum_abs_pos _) (pos_INR (length l)) (len_uro l ltac:(lia)) (sumR_abs _)
      Hz Hc E1 E2 E3 B1 B2 B2' B34) as (Z1 & Z2 & _).
    split; [exact Z1|exact Z2].
Qed.

(** The compensated sum: twice the unit roundoff whatever the length. *)
Lemma kahan_bound l :
  (Z.of_nat (length l) <= 2 ^ 49)%Z ->
  fin (KahanSum (kahan_of l)) ->
  Forall fin l /\
  Rabs (RR (KahanSum (kahan_of l)) - sumR (map RR l))
    <= uro * Rabs (RR (KahanSum (kahan_of l))) +
       (2 * uro + 16 * (INR (length l) * (uro * uro))) * sum_abs (map RR l).
Proof.
  destruct l as [|x l _] using rev_ind; intros Hn Fs.
  - split; [constructor|]. unfold KahanSum, kahan_of, sumR, sum_abs. cbn [fold_left map kahan_new k_sum numF n_ofZ].
    rewrite of_Z_0, RR_f0; unfold sumR; cbn [map fold_right length INR]. rewrite Rminus_0_r, Rabs_R0. lra.
  - unfold KahanSum in *. rewrite app_length in Hn. cbn [length] in Hn.
    rewrite kahan_of_snoc in *.
    destruct (kahan_step_fin _ _ Fs) as (Fx & Fs0 & Fc0 & y & Ey & Et & _).
    destruct (kahan_inv l) as (Hl & Hz & Hc); auto; [lia|].
    destruct (kahan_real_step (RR (k_sum (kahan_of l))) (RR (k_c (kahan_of l))) (RR x) y _ _ _
       (fmt_RR _) (fmt_RR _) (fmt_RR _) Ey Et eq_refl eq_refl)
      as (e1 & e2 & e34 & E1 & E2 & E3 & B1 & B2 & B2' & B34).
    split. { apply Forall_app. split; [assumption|]. constructor; auto. }
    rewrite map_app. cbn [map]. rewrite sumR_snoc, sum_abs_snoc.
    rewrite app_length. cbn [length]. rewrite plus_INR. cbn [INR].
    destruct (kahan_real_inv _ _ _ _ _ _ _ _ _ _ _ _
      (sum_abs_pos _) (pos_INR (length l)) (len_uro l ltac:(lia)) (sumR_abs _)
      Hz Hc E1 E2 E3 B1 B2 B2' B34) as (_ & _ & Z3).
    exact Z3.
Qed.

(** ** Neumaier *)

Definition neumaier_of (l : list f64) : neumaier f64 :=
  fold_left (neumaier_step numF) l (neumaier_new numF).

Lemma neumaier_of_snoc l x : neumaier_of (l ++ [x]) = neumaier_step numF (neumaier_of l) x.
Proof. unfold neumaier_of. now rewrite fold_left_app. Qed.

Lemma neumaier_step_fin a x :
  fin (n_sum (neumaier_step numF a x)) -> fin (n_c (neumaier_step numF a x)) ->
  fin x /\ fin (n_sum a) /\ fin (n_c a) /\
  RR (n_sum (neumaier_step numF a x)) = rnd (RR (n_sum a) + RR x) /\
  RR (n_c (neumaier_step numF a x)) =
    rnd (RR (n_c a) + (RR (n_sum a) + RR x - rnd (RR (n_sum a) + RR x))).
Proof.
  destruct a as [s c n]. unfold neumaier_step. cbn [n_sum n_c numF n_sub n_add n_le n_abs].
  set (t := fadd s x). intros Ft Fc.
  destruct (fadd_inv _ _ Ft) as (Fs & Fx & Et). fold t in Et.
  destruct (fle (fabs x) (fabs s)) eqn:Hle.
  - apply fle_R in Hle; [|now apply fin_fabs|now apply fin_fabs]. rewrite !RR_fabs in Hle.
    destruct (fadd_inv _ _ Fc) as (Fc0 & Fe & Ec). destruct (fadd_inv _ _ Fe) as (Fd & _ & Ee).
    destruct (fsub_inv _ _ Fd) as (_ & _ & Ed). repeat split; auto.
    rewrite Ec, Ee, Ed, Et. f_equal. f_equal. rewrite Rplus_comm.
    apply fast2sum; auto using fmt_RR.
  - apply fle_R_false in Hle; [|now apply fin_fabs|now apply fin_fabs]. rewrite !RR_fabs in Hle.
    destruct (fadd_inv _ _ Fc) as (Fc0 & Fe & Ec). destruct (fadd_inv _ _ Fe) as (Fd & _ & Ee).
    destruct (fsub_inv _ _ Fd) as (_ & _ & Ed). repeat split; auto.
    rewrite Ec, Ee, Ed, Et. f_equal. f_equal. rewrite Rplus_comm.
    rewrite (Rplus_comm (RR s) (RR x)).
    apply fast2sum; auto using fmt_RR. lra.
Qed.

Lemma pow_ge_1 n : 1 <= (1 + uro) ^ n.
Proof. apply pow_R1_Rle. pose proof uro_pos. lra. Qed.

Lemma neumaier_inv l :
  fin (n_sum (neumaier_of l)) -> fin (n_c (neumaier_of l)) ->
  let g := (1 + uro) ^ length l in
  let A := sum_abs (map RR l) in
  Forall fin l /\ exists E F,
    RR (n_sum (neumaier_of l)) + E = sumR (map RR l) /\
    Rabs E <= F /\ F <= (g - 1) * A /\
    Rabs (RR (n_sum (neumaier_of l))) <= g * A /\
    Rabs (RR (n_c (neumaier_of l)) - E) <= (g - 1) * F.
Proof.
  induction l as [|x l IH] using rev_ind; intros Fs Fc.
  - split; [constructor|]. exists 0, 0. unfold neumaier_of, sum_abs.
    cbn [fold_left neumaier_new n_sum n_c numF n_ofZ length pow map]. rewrite of_Z_0, RR_f0.
    unfold sumR. cbn [map fold_right]. rewrite Rminus_0_r, Rabs_R0. repeat split; lra.
  - rewrite neumaier_of_snoc in *.
    destruct (neumaier_step_fin _ _ Fs Fc) as (Fx & Fs0 & Fc0 & Et & Ec).
    destruct (IH Fs0 Fc0) as (Hl & E & F & HE & HEF & HF & Hs & Hc). clear IH.
    split. { apply Forall_app. split; [assumption|]. constructor; auto. }
    rewrite Et, Ec. rewrite map_app. cbn [map]. rewrite sumR_snoc, sum_abs_snoc.
    rewrite app_length. cbn [length]. rewrite Nat.add_1_r. cbn [pow].
    pose proof (pow_ge_1 (length l)) as Hg. set (g := (1 + uro) ^ length l) in *.
    pose proof uro_pos as Hu. set (u := uro) in *.
    pose proof (sum_abs_pos (map RR l)) as HA. set (A := sum_abs (map RR l)) in *.
    pose proof (plus_err (RR (n_sum (neumaier_of l))) (RR x) (fmt_RR _) (fmt_RR _)) as He.
    pose proof (fmt_RR (n_c (neumaier_of l))) as Fmc.
    pose proof (plus_err_fmt (RR (n_sum (neumaier_of l))) (RR x) (fmt_RR _) (fmt_RR _)) as Fme.
    set (s := RR (n_sum (neumaier_of l))) in *. set (c := RR (n_c (neumaier_of l))) in *.
    set (X := sumR (map RR l)) in *. set (x0 := RR x) in *. set (t := rnd (s + x0)) in *.
    assert (Hax : 0 <= Rabs x0) by apply Rabs_pos.
    assert (Hsx : Rabs (s + x0) <= g * (A + Rabs x0)).
    { pose proof (Rabs_triang s x0). nra. }
    assert (He' : Rabs (s + x0 - t) <= u * (g * (A + Rabs x0))).
    { rewrite Rabs_minus_sym. apply Rle_trans with (1 := He). apply Rmult_le_compat_l; lra. }
    assert (HF0 : 0 <= F) by (pose proof (Rabs_pos E); lra).
    exists (E + (s + x0 - t)), (F + Rabs (s + x0 - t)).
    assert (Hae : 0 <= Rabs (s + x0 - t)) by apply Rabs_pos.
    split; [|split; [|split; [|split]]].
    + lra.
    + pose proof (Rabs_triang E (s + x0 - t)). lra.
    + assert (F <= (g - 1) * (A + Rabs x0)) by nra. nra.
    + replace t with ((s + x0) + (t - (s + x0))) by ring.
      pose proof (Rabs_triang (s + x0) (t - (s + x0))). rewrite (Rabs_minus_sym t) in *. nra.
    + pose proof (plus_err c (s + x0 - t)) as H5.
      assert (F5 : fmt (s + x0 - t)).
      { replace (s + x0 - t) with (- (t - (s + x0))) by ring. now apply fmt_opp. }
      specialize (H5 Fmc F5). fold u in H5.
      set (e := s + x0 - t) in *. set (c' := rnd (c + e)) in *.
      replace (c' - (E + e)) with ((c - E) + (c' - (c + e))) by ring.
      apply Rle_trans with (1 := Rabs_triang _ _).
      assert (Hce : Rabs (c + e) <= g * (F + Rabs e)).
      { replace (c + e) with ((c - E) + E + e) by ring.
        pose proof (Rabs_le_3 (c - E) E e). nra. }
      assert (u * Rabs (c + e) <= u * (g * (F + Rabs e))) by (apply Rmult_le_compat_l; lra).
      nra.
Qed.

Lemma neumaier_bound l :
  fin (NeumaierSum numF (neumaier_of l)) ->
  let g := (1 + uro) ^ length l in
  Forall fin l /\
  Rabs (RR (NeumaierSum numF (neumaier_of l)) - sumR (map RR l))
    <= uro * Rabs (sumR (map RR l)) + (1 + uro) * (g - 1) ^ 2 * sum_abs (map RR l).
Proof.
  unfold NeumaierSum. cbn [numF n_add]. intros Fs.
  destruct (fadd_inv _ _ Fs) as (F1 & F2 & Es).
  destruct (neumaier_inv l F1 F2) as (Hl & E & F & HE & HEF & HF & Hs & Hc). cbv zeta in *.
  split; [assumption|]. rewrite Es.
  pose proof (plus_err _ _ (fmt_RR (n_sum (neumaier_of l))) (fmt_RR (n_c (neumaier_of l)))) as H5.
  set (s := RR (n_sum (neumaier_of l))) in *. set (c := RR (n_c (neumaier_of l))) in *.
  set (X := sumR (map RR l)) in *. set (g := (1 + uro) ^ length l) in *.
  pose proof (pow_ge_1 (length l)) as Hg. fold g in Hg. pose proof uro_pos as Hu.
  set (A := sum_abs (map RR l)) in *.
  assert (HA : 0 <= A) by apply sum_abs_pos.
  assert (HF0 : 0 <= F) by (pose proof (Rabs_pos E); lra).
  assert (Hc' : Rabs (c - E) <= (g - 1) ^ 2 * A).
  { apply Rle_trans with (1 := Hc). replace ((g - 1) ^ 2 * A) with ((g - 1) * ((g - 1) * A)) by ring.
    apply Rmult_le_compat_l; lra. }
  replace (rnd (s + c) - X) with ((rnd (s + c) - (s + c)) + (c - E)) by lra.
  apply Rle_trans with (1 := Rabs_triang _ _).
  assert (Hsc : Rabs (s + c) <= Rabs X + Rabs (c - E)).
  { replace (s + c) with (X + (c - E)) by lra. apply Rabs_triang. }
  assert (uro * Rabs (s + c) <= uro * (Rabs X + Rabs (c - E))) by (apply Rmult_le_compat_l; lra).
  nra.
Qed.

Lemma pow_small n : 2 * (INR n * uro) <= 1 -> (1 + uro) ^ n <= 1 + 2 * (INR n * uro).
Proof.
  pose proof uro_pos as Hu. induction n as [|n IH]; intros H.
  - cbn [pow INR]. lra.
  - rewrite S_INR in *. cbn [pow]. pose proof (pos_INR n).
    assert (IH' : (1 + uro) ^ n <= 1 + 2 * (INR n * uro)) by (apply IH; nra).
    apply Rle_trans with ((1 + uro) * (1 + 2 * (INR n * uro))); [apply Rmult_le_compat_l; lra|].
    nra.
Qed.

(** With at most 2^52 values the second-order term is n^2 u^2 up to a constant. *)
Lemma neumaier_bound_simple l :
  (Z.of_nat (length l) <= 2 ^ 52)%Z ->
  fin (NeumaierSum numF (neumaier_of l)) ->
  Rabs (RR (NeumaierSum numF (neumaier_of l)) - sumR (map RR l))
    <= uro * Rabs (sumR (map RR l)) + 5 * (INR (length l) * uro) ^ 2 * sum_abs (map RR l).
Proof.
  intros Hn F. destruct (neumaier_bound l F) as [_ H]. cbv zeta in H.
  apply Rle_trans with (1 := H). apply Rplus_le_compat_l.
  apply Rmult_le_compat_r; [apply sum_abs_pos|].
  assert (Hnu : 2 * (INR (length l) * uro) <= 1).
  { apply Rle_trans with (2 * (IZR (2 ^ 52) * uro)).
    - apply Rmult_le_compat_l; [lra|]. apply Rmult_le_compat_r; [left; apply uro_pos|].
      rewrite INR_IZR_INZ. now apply IZR_le.
    - assert (N : IZR (2 ^ 52) <> 0) by (apply not_eq_sym, Rlt_not_eq, IZR_lt; reflexivity).
      rewrite uro_val. change (2 ^ 53)%Z with (2 * 2 ^ 52)%Z. rewrite mult_IZR.
      right. field. exact N. }
  pose proof (pow_small _ Hnu). pose proof (pow_ge_1 (length l)). pose proof uro_pos.
  pose proof uro_small. set (g := (1 + uro) ^ length l) in *. set (y := INR (length l) * uro) in *.
  assert (0 <= (g - 1) ^ 2 <= 4 * y ^ 2) by (simpl; nra). nra.
Qed.

(** ** Integers *)

Lemma sum_abs_Z (l : list Z) : (0 <= fold_right Z.add 0 (map Z.abs l))%Z.
Proof. induction l; simpl; lia. Qed.

Definition sumZabs (l : list Z) : Z := fold_right Z.add 0%Z (map Z.abs l).
Definition sumZs (l : list Z) : Z := fold_right Z.add 0%Z l.

Lemma sumZs_snoc l x : sumZs (l ++ [x]) = (sumZs l + x)%Z.
Proof. unfold sumZs. induction l; simpl; lia. Qed.
Lemma sumZabs_snoc l x : sumZabs (l ++ [x]) = (sumZabs l + Z.abs x)%Z.
Proof. unfold sumZabs. induction l; simpl; lia. Qed.
Lemma sumZ_le_abs l : (Z.abs (sumZs l) <= sumZabs l)%Z.
Proof. unfold sumZs, sumZabs. induction l; simpl; lia. Qed.

Lemma rnd_IZR z : (Z.abs z <= 2 ^ 53)%Z -> rnd (IZR z) = IZR z.
Proof. intros. now apply rnd_fmt, fmt_IZR. Qed.

Lemma small_fmax z : (Z.abs z <= 2 ^ 53)%Z -> Rabs (IZR z) < fmax.
Proof.
  intros H. apply Rle_lt_trans with (bpow radix2 53); [apply IZR_bpow; [lia|exact H]|].
  apply bpow_lt. lia.
Qed.

Lemma fadd_Z x y a b : fin x -> fin y -> RR x = IZR a -> RR y = IZR b -> (Z.abs (a + b) <= 2 ^ 53)%Z ->
  fin (fadd x y) /\ RR (fadd x y) = IZR (a + b).
Proof.
  intros Fx Fy Ex Ey H.
  assert (E : rnd (RR x + RR y) = IZR (a + b)) by (rewrite Ex, Ey, <- plus_IZR; now apply rnd_IZR).
  destruct (fadd_ok x y Fx Fy) as [A B]; [rewrite E; now apply small_fmax|].
  split; [assumption|]. now rewrite A.
Qed.

Lemma fsub_Z x y a b : fin x -> fin y -> RR x = IZR a -> RR y = IZR b -> (Z.abs (a - b) <= 2 ^ 53)%Z ->
  fin (fsub x y) /\ RR (fsub x y) = IZR (a - b).
Proof.
  intros Fx Fy Ex Ey H.
  assert (E : rnd (RR x - RR y) = IZR (a - b)) by (rewrite Ex, Ey, <- minus_IZR; now apply rnd_IZR).
  destruct (fsub_ok x y Fx Fy) as [A B]; [rewrite E; now apply small_fmax|].
  split; [assumption|]. now rewrite A.
Qed.

Local Ltac zstep := try assumption; try lia; try reflexivity.

Lemma kahan_ints l : (sumZabs l <= 2 ^ 53)%Z ->
  fin (k_sum (kahan_of (map of_Z l))) /\ RR (k_sum (kahan_of (map of_Z l))) = IZR (sumZs l) /\
  fin (k_c (kahan_of (map of_Z l))) /\ RR (k_c (kahan_of (map of_Z l))) = 0.
Proof.
  induction l as [|x l IH] using rev_ind; intros H; [repeat split; reflexivity|].
  rewrite sumZabs_snoc in H. destruct IH as (Fs & Es & Fc & Ec); [lia|].
  rewrite map_app. cbn [map]. rewrite kahan_of_snoc, sumZs_snoc.
  pose proof (sumZ_le_abs l) as Hl.
  destruct (kahan_of (map of_Z l)) as [s c n]. unfold kahan_step. cbn [k_sum k_c numF n_sub n_add] in *.
  destruct (of_Z_exact x) as [Ex Fx]; [lia|].
  destruct (fsub_Z (of_Z x) c x 0) as [Fy Ey]; zstep. rewrite Z.sub_0_r in Ey.
  destruct (fadd_Z s (fsub (of_Z x) c) (sumZs l) x) as [Ft Et]; zstep.
  destruct (fsub_Z (fadd s (fsub (of_Z x) c)) s (sumZs l + x) (sumZs l)) as [Fd Ed]; zstep.
  destruct (fsub_Z (fsub (fadd s (fsub (of_Z x) c)) s) (fsub (of_Z x) c) (sumZs l + x - sumZs l) x) as [Fe Ee]; zstep.
  repeat split; auto. rewrite Ee. f_equal. lia.
Qed.

Lemma neumaier_ints l : (sumZabs l <= 2 ^ 53)%Z ->
  fin (n_sum (neumaier_of (map of_Z l))) /\ RR (n_sum (neumaier_of (map of_Z l))) = IZR (sumZs l) /\
  fin (n_c (neumaier_of (map of_Z l))) /\ RR (n_c (neumaier_of (map of_Z l))) = 0.
Proof.
  induction l as [|x l IH] using rev_ind; intros H; [repeat split; reflexivity|].
  rewrite sumZabs_snoc in H. destruct IH as (Fs & Es & Fc & Ec); [lia|].
  rewrite map_app. cbn [map]. rewrite neumaier_of_snoc, sumZs_snoc.
  pose proof (sumZ_le_abs l) as Hl.
  destruct (neumaier_of (map of_Z l)) as [s c n]. unfold neumaier_step.
  cbn [n_sum n_c numF n_sub n_add n_le n_abs] in *.
  destruct (of_Z_exact x) as [Ex Fx]; [lia|].
  destruct (fadd_Z s (of_Z x) (sumZs l) x) as [Ft Et]; zstep.
  destruct (fsub_Z s (fadd s (of_Z x)) (sumZs l) (sumZs l + x)) as [Fd Ed]; zstep.
  destruct (fadd_Z (fsub s (fadd s (of_Z x))) (of_Z x) (sumZs l - (sumZs l + x)) x) as [Fe Ee]; zstep.
  destruct (fadd_Z c (fadd (fsub s (fadd s (of_Z x))) (of_Z x)) 0 (sumZs l - (sumZs l + x) + x)) as [Fg Eg]; zstep.
  destruct (fsub_Z (of_Z x) (fadd s (of_Z x)) x (sumZs l + x)) as [Fd' Ed']; zstep.
  destruct (fadd_Z (fsub (of_Z x) (fadd s (of_Z x))) s (x - (sumZs l + x)) (sumZs l)) as [Fe' Ee']; zstep.
  destruct (fadd_Z c (fadd (fsub (of_Z x) (fadd s (of_Z x))) s) 0 (x - (sumZs l + x) + sumZs l)) as [Fg' Eg']; zstep.
  repeat split; auto; destruct (fle _ _); auto.
  - rewrite Eg. f_equal. lia.
  - rewrite Eg'. f_equal. lia.
Qed.

Lemma neumaier_sum_ints l : (sumZabs l <= 2 ^ 53)%Z ->
  fin (NeumaierSum numF (neumaier_of (map of_Z l))) /\
  RR (NeumaierSum numF (neumaier_of (map of_Z l))) = IZR (sumZs l).
Proof.
  intros H. destruct (neumaier_ints l H) as (Fs & Es & Fc & Ec).
  pose proof (sumZ_le_abs l) as Hl. unfold NeumaierSum. cbn [numF n_add].
  destruct (fadd_Z (n_sum (neumaier_of (map of_Z l))) (n_c (neumaier_of (map of_Z l))) (sumZs l) 0)
    as [F E]; zstep. split; [assumption|]. rewrite E. f_equal. lia.
Qed.

(** Dividing an exact integer by an exact count rounds once. *)
Lemma fdiv_Z x n s : fin x -> RR x = IZR s -> (Z.abs s <= 2 ^ 53)%Z -> (1 <= n <= 2 ^ 53)%Z ->
  fin (fdiv x (of_Z n)) /\ RR (fdiv x (of_Z n)) = rnd (IZR s / IZR n).
Proof.
  intros Fx Ex Hs Hn. destruct (of_Z_exact n) as [En Fn]; [lia|].
  assert (H1 : 1 <= IZR n) by (apply IZR_le; lia).
  assert (H2 : Rabs (IZR s / IZR n) <= bpow radix2 53).
  { unfold Rdiv. rewrite Rabs_mult, (Rabs_pos_eq (/ IZR n)) by (left; apply Rinv_0_lt_compat; lra).
    apply Rle_trans with (Rabs (IZR s) * 1).
    - apply Rmult_le_compat_l; [apply Rabs_pos|]. rewrite <- Rinv_1. apply Rinv_le; lra.
    - rewrite Rmult_1_r. apply IZR_bpow; [lia|exact Hs]. }
  destruct (fdiv_ok x (of_Z n)) as [A B]; auto.
  - rewrite En. lra.
  - rewrite Ex, En. apply no_overflow with 53%Z; [lia|exact H2].
  - split; [assumption|]. now rewrite A, Ex, En.
Qed.
