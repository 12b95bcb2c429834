(** Lemmas about finite stochastic matrices near reversible ones, and about counting. *)
From Coq Require Import ZArith Reals List Lia Lra Permutation.
From Flocq Require Import Core.Core.
From Verif Require Import Base S_Accum L_Bravais.
Import ListNotations.
Open Scope R_scope.

Lemma sum_le {A} (f g : A -> R) l : (forall a, In a l -> f a <= g a) -> sumR (map f l) <= sumR (map g l).
Proof.
  induction l as [|a l IH]; intros H; [cbn; lra|]. cbn [map]. unfold sumR in *. cbn [fold_right].
  pose proof (H a (or_introl eq_refl)). assert (forall x, In x l -> f x <= g x) by (intros; apply H; now right). specialize (IH H1). lra.
Qed.
Lemma sum_nonneg {A} (f : A -> R) l : (forall a, In a l -> 0 <= f a) -> 0 <= sumR (map f l).
Proof. intros H. rewrite <- (sumR_zero l). now apply sum_le. Qed.
Lemma sum_abs_le {A} (f : A -> R) l : Rabs (sumR (map f l)) <= sumR (map (fun a => Rabs (f a)) l).
Proof.
  induction l as [|a l IH]; [cbn; rewrite Rabs_R0; lra|]. cbn [map]. unfold sumR in *. cbn [fold_right]. eapply Rle_trans; [apply Rabs_triang|]. lra.
Qed.
Lemma sum_minus {A} (f g : A -> R) l : sumR (map (fun a => f a - g a) l) = sumR (map f l) - sumR (map g l).
Proof.
  rewrite (sumR_ext _ (fun a => f a + -1 * g a)) by (intros; ring). rewrite sumR_plus, sumR_scal. ring.
Qed.
Lemma sum_one {A} (f : A -> R) l a : (forall x, In x l -> 0 <= f x) -> In a l -> f a <= sumR (map f l).
Proof.
  induction l as [|x l IH]; intros P I; [destruct I|]. cbn [map]. unfold sumR in *. cbn [fold_right].
  assert (P' : forall y, In y l -> 0 <= f y) by (intros; apply P; now right). pose proof (sum_nonneg f l P') as S. unfold sumR in S.
  pose proof (P x (or_introl eq_refl)). destruct I as [->|I]; [lra|]. specialize (IH P' I). lra.
Qed.

Section Markov.
Context (sites : list Z) (ND : NoDup sites).
Notation "'SUM' c , f" := (sumR (map (fun c => f) sites)) (at level 60, c name, f at level 60).

Lemma sum_kronecker (f : Z -> R) a : In a sites -> (SUM c, (if Z.eq_dec a c then 1 else 0) * f c) = f a.
Proof.
  induction ND as [|x l Nx Nl IH]; intros I; [destruct I|]. cbn [map]. unfold sumR in *. cbn [fold_right].
  destruct (Z.eq_dec a x) as [<-|E].
  - assert (G : forall l', ~ In a l' -> fold_right Rplus 0 (map (fun c => (if Z.eq_dec a c then 1 else 0) * f c) l') = 0).
    { induction l' as [|y l' IH']; intros Q; [reflexivity|]. cbn [map fold_right]. rewrite IH' by (intros Q'; apply Q; now right).
      destruct (Z.eq_dec a y) as [->|]; [exfalso; apply Q; now left|ring]. }
    rewrite G by exact Nx. ring.
  - destruct I as [->|I]; [now destruct E|]. rewrite (IH Nl I). ring.
Qed.

(** Powers of a matrix. *)
Fixpoint pw (p : Z -> Z -> R) (n : nat) (a b : Z) : R :=
  match n with O => if Z.eq_dec a b then 1 else 0 | S n' => SUM c, p a c * pw p n' c b end.

Definition stochastic (p : Z -> Z -> R) : Prop :=
  forall a, In a sites -> (forall b, In b sites -> 0 <= p a b) /\ (SUM b, p a b) = 1.

Lemma pw_right p n : forall a b, In a sites -> In b sites -> pw p (S n) a b = SUM c, pw p n a c * p c b.
Proof.
  induction n as [|n IH]; intros a b Ia Ib.
  - cbn [pw]. rewrite (sum_kronecker (fun c => p c b)) by exact Ia.
    rewrite (sumR_ext _ (fun c => (if Z.eq_dec b c then 1 else 0) * p a c)); [now rewrite (sum_kronecker (p a))|].
    intros c _. destruct (Z.eq_dec c b), (Z.eq_dec b c); try congruence; ring.
  - change (pw p (S (S n)) a b) with (SUM c, p a c * pw p (S n) c b).
    rewrite (sumR_ext _ (fun c => SUM d, p a c * (pw p n c d * p d b))) by (intros c Ic; rewrite (IH c b Ic Ib), <- sumR_scal; reflexivity).
    rewrite sumR_swap. apply sumR_ext. intros d _. cbn [pw].
    rewrite (sumR_ext _ (fun c => p d b * (p a c * pw p n c d))) by (intros; ring). rewrite sumR_scal. ring.
Qed.

Lemma pw_nonneg p : stochastic p -> forall n a b, In a sites -> In b sites -> 0 <= pw p n a b.
Proof.
  intros H n. induction n as [|n IH]; intros a b Ia Ib; cbn [pw]; [destruct (Z.eq_dec a b); lra|].
  apply sum_nonneg. intros c Ic. apply Rmult_le_pos; [now apply (H a Ia)|now apply IH].
Qed.
Lemma pw_total p : stochastic p -> forall n a, In a sites -> (SUM b, pw p n a b) = 1.
Proof.
  intros H n. induction n as [|n IH]; intros a Ia.
  - cbn [pw]. transitivity (SUM c, (if Z.eq_dec a c then 1 else 0) * (fun _ => 1) c); [apply sumR_ext; intros; ring|now apply (sum_kronecker (fun _ => 1))].
  - cbn [pw]. rewrite sumR_swap. rewrite (sumR_ext _ (p a)); [now apply H|]. intros c Ic. rewrite (sumR_scal (p a c) (fun b => pw p n c b)), (IH c Ic). ring.
Qed.
Lemma pw_le1 p : stochastic p -> forall n a b, In a sites -> In b sites -> pw p n a b <= 1.
Proof.
  intros H n a b Ia Ib. rewrite <- (pw_total p H n a Ia). apply (sum_one (pw p n a)); [|exact Ib]. intros x Ix. now apply pw_nonneg.
Qed.

Context (p q : Z -> Z -> R) (deg : Z -> R) (e : R) (He : 0 <= e).
Hypothesis Hp : stochastic p.
Hypothesis Hq : stochastic q.
Hypothesis Rev : forall a b, In a sites -> In b sites -> deg a * q a b = deg b * q b a.
Hypothesis Row : forall a, In a sites -> (SUM b, Rabs (p a b - q a b)) <= e.
Hypothesis Dpos : forall a, In a sites -> 0 < deg a.
Hypothesis Col : forall b, In b sites -> (SUM a, deg a * Rabs (p a b - q a b)) <= e * deg b.

Lemma pw_near n : forall a b, In a sites -> In b sites -> Rabs (pw p n a b - pw q n a b) <= INR n * e.
Proof.
  induction n as [|n IH]; intros a b Ia Ib; [cbn [pw INR]; rewrite Rminus_diag_eq, Rabs_R0 by reflexivity; lra|].
  replace (pw p (S n) a b - pw q (S n) a b) with ((SUM c, p a c * (pw p n c b - pw q n c b)) + (SUM c, (p a c - q a c) * pw q n c b)).
  2:{ cbn [pw]. rewrite <- sumR_plus, <- sum_minus. apply sumR_ext. intros; ring. }
  eapply Rle_trans; [apply Rabs_triang|]. rewrite S_INR, Rmult_plus_distr_r, Rmult_1_l. apply Rplus_le_compat.
  - eapply Rle_trans; [apply sum_abs_le|]. apply Rle_trans with (SUM c, (INR n * e) * p a c).
    + apply sum_le. intros c Ic. rewrite Rabs_mult. rewrite (Rabs_pos_eq (p a c)) by now apply (Hp a Ia).
      rewrite (Rmult_comm (INR n * e)). apply Rmult_le_compat_l; [now apply (Hp a Ia)|now apply IH].
    + rewrite (sumR_scal (INR n * e) (fun c => p a c)). destruct (Hp a Ia) as [_ ->]. lra.
  - eapply Rle_trans; [apply sum_abs_le|]. eapply Rle_trans; [|now apply (Row a)]. apply sum_le. intros c Ic. rewrite Rabs_mult.
    rewrite (Rabs_pos_eq (pw q n c b)) by now apply pw_nonneg. rewrite <- (Rmult_1_r (Rabs (p a c - q a c))) at 2.
    apply Rmult_le_compat_l; [apply Rabs_pos|now apply pw_le1].
Qed.

Lemma pw_reversible n : forall a b, In a sites -> In b sites -> deg a * pw q n a b = deg b * pw q n b a.
Proof.
  induction n as [|n IH]; intros a b Ia Ib.
  - cbn [pw]. destruct (Z.eq_dec a b), (Z.eq_dec b a); try congruence; try lra.
  - rewrite (pw_right q n b a) by assumption. cbn [pw]. rewrite <- !sumR_scal. apply sumR_ext. intros c Ic.
    rewrite <- !Rmult_assoc. rewrite (Rev a c Ia Ic). rewrite <- (IH c b Ic Ib). ring.
Qed.

Lemma pw_balanced n a b : In a sites -> In b sites -> Rabs (deg a * pw p n a b - deg b * pw p n b a) <= (deg a + deg b) * (INR n * e).
Proof.
  intros Ia Ib. replace (deg a * pw p n a b - deg b * pw p n b a) with (deg a * (pw p n a b - pw q n a b) - deg b * (pw p n b a - pw q n b a)).
  2:{ pose proof (pw_reversible n a b Ia Ib). lra. }
  pose proof (pw_near n a b Ia Ib) as A. pose proof (pw_near n b a Ib Ia) as C. pose proof (Dpos a Ia). pose proof (Dpos b Ib).
  apply Rabs_le. apply Rabs_le_inv in A, C. split; nra.
Qed.

Lemma column_total c : In c sites -> (1 - e) * deg c <= (SUM a, deg a * p a c) <= (1 + e) * deg c.
Proof.
  intros Ic. assert (Q : (SUM a, deg a * q a c) = deg c).
  { rewrite (sumR_ext _ (fun a => deg c * q c a)) by (intros a Ia; now apply Rev). rewrite (sumR_scal (deg c) (fun a => q c a)). destruct (Hq c Ic) as [_ ->]. ring. }
  assert (D : Rabs ((SUM a, deg a * p a c) - deg c) <= e * deg c).
  { rewrite <- Q at 1. rewrite <- sum_minus. eapply Rle_trans; [apply sum_abs_le|]. eapply Rle_trans; [|now apply (Col c)].
    apply sum_le. intros a Ia. replace (deg a * p a c - deg a * q a c) with (deg a * (p a c - q a c)) by ring.
    rewrite Rabs_mult, (Rabs_pos_eq (deg a)) by (pose proof (Dpos a Ia); lra). lra. }
  apply Rabs_le_inv in D. lra.
Qed.

Lemma pw_stationary n : e <= 1 -> forall b, In b sites -> (1 - e) ^ n * deg b <= (SUM a, deg a * pw p n a b) <= (1 + e) ^ n * deg b.
Proof.
  intros E1. induction n as [|n IH]; intros b Ib.
  - cbn [pw pow]. rewrite (sumR_ext _ (fun a => (if Z.eq_dec b a then 1 else 0) * deg a)).
    + rewrite (sum_kronecker deg b Ib). lra.
    + intros a _. destruct (Z.eq_dec a b), (Z.eq_dec b a); try congruence; ring.
  - assert (X : (SUM a, deg a * pw p (S n) a b) = SUM c, (SUM a, deg a * p a c) * pw p n c b).
    { cbn [pw]. rewrite (sumR_ext _ (fun a => SUM c, deg a * (p a c * pw p n c b))) by (intros a _; now rewrite sumR_scal).
      rewrite sumR_swap. apply sumR_ext. intros c _. rewrite (sumR_ext _ (fun a => pw p n c b * (deg a * p a c))) by (intros; ring).
      rewrite sumR_scal. ring. }
    rewrite X. destruct (IH b Ib) as [I1 I2]. cbn [pow].
    assert (Y1 : (1 - e) * (SUM c, deg c * pw p n c b) <= SUM c, (SUM a, deg a * p a c) * pw p n c b).
    { rewrite <- sumR_scal. apply sum_le. intros c Ic. rewrite <- Rmult_assoc. apply Rmult_le_compat_r; [now apply pw_nonneg|]. now apply column_total. }
    assert (Y2 : (SUM c, (SUM a, deg a * p a c) * pw p n c b) <= (1 + e) * (SUM c, deg c * pw p n c b)).
    { rewrite <- sumR_scal. apply sum_le. intros c Ic. rewrite <- Rmult_assoc. apply Rmult_le_compat_r; [now apply pw_nonneg|]. now apply column_total. }
    split; [eapply Rle_trans; [|exact Y1]|eapply Rle_trans; [exact Y2|]]; rewrite Rmult_assoc; apply Rmult_le_compat_l; lra.
Qed.
End Markov.
