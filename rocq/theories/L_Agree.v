(** Lemmas about equal results of different accumulators. *)
From Coq Require Import ZArith Reals List Bool Lia Lra Permutation.
From Verif Require Import Base S_Accum S_Agree L_Sum.
Import ListNotations.
Open Scope R_scope.

Lemma sum_perm l l' : Permutation l l' -> sumR l = sumR l'.
Proof. unfold sumR. induction 1; cbn [fold_right]; lra. Qed.

Lemma sum_repeat f (x : R) k : sumR (map f (repeat x k)) = INR k * f x.
Proof. induction k as [|k IH]; [cbn; unfold sumR; cbn; ring|]. cbn [repeat map]. unfold sumR in *. cbn [fold_right]. rewrite IH, S_INR. ring. Qed.

Lemma sum_cons x l : sumR (x :: l) = x + sumR l. Proof. reflexivity. Qed.
Lemma sum_app l l' : sumR (l ++ l') = sumR l + sumR l'.
Proof. unfold sumR. induction l as [|x l IH]; cbn [app fold_right]; [ring|]. rewrite IH. ring. Qed.

Lemma sum_repeated f l : sumR (map f (repeated l)) = sumR (map (fun p => snd p * f (fst p)) (as_weights l)).
Proof.
  unfold repeated, as_weights. induction l as [|[x k] l IH]; [reflexivity|]. cbn [flat_map map fst snd]. rewrite map_app, sum_app, sum_cons, IH, sum_repeat. reflexivity.
Qed.

Lemma repeated_total l : INR (length (repeated l)) = total_weight (as_weights l).
Proof.
  unfold repeated, as_weights, total_weight. induction l as [|[x k] l IH]; [reflexivity|]. cbn [flat_map map fst snd].
  rewrite app_length, repeat_length, plus_INR, sum_cons, IH. reflexivity.
Qed.

Lemma repeated_mean l : meanR (repeated l) = wmean (as_weights l).
Proof.
  unfold meanR, wmean, wsum. rewrite repeated_total. f_equal. rewrite <- (map_id (repeated l)) at 1. now rewrite (sum_repeated (fun x => x)).
Qed.
Lemma repeated_sum l : sumR (repeated l) = wsum (as_weights l).
Proof. unfold wsum. rewrite <- (map_id (repeated l)) at 1. now rewrite (sum_repeated (fun x => x)). Qed.

Lemma repeated_devs l : sq_devs (repeated l) = wsq_devs (as_weights l).
Proof. unfold sq_devs, wsq_devs. rewrite (sum_repeated (fun x => (x - meanR (repeated l)) ^ 2)), repeated_mean. reflexivity. Qed.

Lemma positive_all l : Forall (fun p => 0 < snd p) l -> positive_weights l = l.
Proof. unfold positive_weights. induction 1 as [|p l Hp F IH]; [reflexivity|]. cbn [filter]. destruct (Rlt_dec 0 (snd p)); [now rewrite IH|contradiction]. Qed.

Lemma as_weights_pos l : Forall (fun p => (0 < snd p)%nat) l -> Forall (fun p => 0 < snd p) (as_weights l).
Proof. unfold as_weights. intros F. apply Forall_map. eapply Forall_impl; [|exact F]. cbn. intros p Hp. now apply lt_0_INR. Qed.

Lemma repeated_longer {A} (l : list (A * nat)) : Forall (fun p => (0 < snd p)%nat) l -> (length l <= length (repeated l))%nat.
Proof. unfold repeated. induction 1 as [|[x k] l Hp F IH]; [reflexivity|]. cbn [flat_map length fst snd] in *. rewrite app_length, repeat_length. lia. Qed.

(** * Permutations *)
Lemma mean_perm l l' : Permutation l l' -> meanR l = meanR l'.
Proof. intros Q. unfold meanR. now rewrite (sum_perm _ _ Q), (Permutation_length Q). Qed.
Lemma devs_perm l l' : Permutation l l' -> sq_devs l = sq_devs l'.
Proof. intros Q. unfold sq_devs. rewrite (mean_perm _ _ Q). apply sum_perm, Permutation_map, Q. Qed.
Lemma positive_perm l l' : Permutation l l' -> Permutation (positive_weights l) (positive_weights l').
Proof.
  unfold positive_weights. induction 1; cbn [filter]; try (destruct (Rlt_dec 0 (snd x))); try (destruct (Rlt_dec 0 (snd y)));
  try constructor; auto. etransitivity; eassumption.
Qed.
Lemma wsums_perm l l' : Permutation l l' ->
  wsum l = wsum l' /\ total_weight l = total_weight l' /\ total_weight2 l = total_weight2 l' /\ wmean l = wmean l' /\ wsq_devs l = wsq_devs l'.
Proof.
  intros Q. assert (A : wsum l = wsum l') by (apply sum_perm, Permutation_map, Q).
  assert (B : total_weight l = total_weight l') by (apply sum_perm, Permutation_map, Q).
  assert (C : total_weight2 l = total_weight2 l') by (apply sum_perm, Permutation_map, Q).
  assert (D : wmean l = wmean l') by (unfold wmean; now rewrite A, B).
  repeat (split; [assumption|]). unfold wsq_devs. rewrite D. apply sum_perm, Permutation_map, Q.
Qed.

(** * Affine data *)
Lemma sum_affine a b l : sumR (affine a b l) = a * INR (length l) + b * sumR l.
Proof. unfold affine. induction l as [|x l IH]; [unfold sumR; cbn; ring|]. cbn [map]. rewrite !sum_cons, IH. cbn [length]. rewrite S_INR. ring. Qed.
Lemma affine_length a b l : length (affine a b l) = length l.
Proof. apply map_length. Qed.
Lemma mean_affine a b l : l <> [] -> meanR (affine a b l) = a + b * meanR l.
Proof.
  intros N. unfold meanR. rewrite sum_affine, affine_length. field. apply not_0_INR. destruct l; [congruence|discriminate].
Qed.
Lemma devs_affine a b l : l <> [] -> sq_devs (affine a b l) = b ^ 2 * sq_devs l.
Proof.
  intros N. unfold sq_devs. rewrite mean_affine by exact N. unfold affine. rewrite map_map. generalize (meanR l). intros m. clear N.
  induction l as [|x l IH]; [unfold sumR; cbn; ring|]. cbn [map]. rewrite !sum_cons, IH. ring.
Qed.

(** * Weights with a common factor *)
Lemma reweighted_sums c l :
  wsum (reweighted c l) = c * wsum l /\ total_weight (reweighted c l) = c * total_weight l /\ total_weight2 (reweighted c l) = c ^ 2 * total_weight2 l.
Proof.
  unfold wsum, total_weight, total_weight2, reweighted. induction l as [|p l (A & B & C)]; [unfold sumR; cbn; lra|].
  cbn [map fst snd]. rewrite !sum_cons, A, B, C. repeat split; ring.
Qed.
Lemma reweighted_mean c l : 0 < c -> 0 < total_weight l -> wmean (reweighted c l) = wmean l.
Proof. intros Hc Hw. unfold wmean. destruct (reweighted_sums c l) as (-> & -> & _). field. lra. Qed.
Lemma reweighted_devs c l : 0 < c -> 0 < total_weight l -> wsq_devs (reweighted c l) = c * wsq_devs l.
Proof.
  intros Hc Hw. unfold wsq_devs. rewrite reweighted_mean by assumption. generalize (wmean l). intros m. clear Hw. unfold reweighted.
  induction l as [|p l IH]; [unfold sumR; cbn; ring|]. cbn [map fst snd]. rewrite !sum_cons, IH. ring.
Qed.
Lemma reweighted_positive c l : 0 < c -> positive_weights (reweighted c l) = reweighted c (positive_weights l).
Proof.
  intros Hc. unfold positive_weights, reweighted. induction l as [|p l IH]; [reflexivity|]. cbn [map filter fst snd].
  destruct (Rlt_dec 0 (c * snd p)) as [Q|Q]; destruct (Rlt_dec 0 (snd p)) as [Q'|Q'].
  - cbn [map]. now rewrite IH.
  - exfalso. apply Q'. apply Rmult_lt_reg_l with c; lra.
  - exfalso. apply Q. now apply Rmult_lt_0_compat.
  - exact IH.
Qed.
