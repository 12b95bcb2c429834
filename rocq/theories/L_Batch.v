(** Sums, means and squared deviations of data in batches. *)
From Coq Require Import ZArith Reals List Bool Lia Lra.
From Flocq Require Import Core.Core IEEE754.BinarySingleNaN.
From Verif Require Import Base F64 Num M_Archive M_Accum S_Accum L_Sum L_Accum L_Agree L_Welford M_Obs S_Obs S_ObsFile.
Import ListNotations.
Open Scope R_scope.

(** The batches as weighted means. *)
Definition weighted (ls : list (list R)) : list (R * R) := map (fun l => (meanR l, INR (length l))) ls.

Lemma INR_pos {A} (l : list A) : l <> [] -> 0 < INR (length l).
Proof. destruct l; [congruence|]. intros _. apply lt_0_INR. cbn. lia. Qed.

Lemma sum_concat {A} (f : A -> R) ls : sumR (map f (concat ls)) = sumR (map (fun l => sumR (map f l)) ls).
Proof. induction ls as [|l ls IH]; [reflexivity|]. cbn [concat map]. rewrite map_app, sum_app, IH. reflexivity. Qed.

Lemma length_concat {A} (ls : list (list A)) : INR (length (concat ls)) = sumR (map (fun l => INR (length l)) ls).
Proof. induction ls as [|l ls IH]; [reflexivity|]. cbn [concat map]. rewrite app_length, plus_INR, IH. reflexivity. Qed.

Lemma concat_longer {A} (ls : list (list A)) : Forall (fun l => l <> []) ls -> (length ls <= length (concat ls))%nat.
Proof. induction 1 as [|l ls N F IH]; [reflexivity|]. cbn [concat length]. rewrite app_length. destruct l; [congruence|]. cbn. lia. Qed.

Lemma concat_part {A} (ls : list (list A)) l : In l ls -> (length l <= length (concat ls))%nat.
Proof.
  induction ls as [|m ls IH]; intros H; [destruct H|]. cbn [concat]. rewrite app_length. destruct H as [->|H]; [lia|]. specialize (IH H). lia.
Qed.

Lemma weighted_total ls : total_weight (weighted ls) = INR (length (concat ls)).
Proof. unfold total_weight, weighted. rewrite map_map, length_concat. reflexivity. Qed.

Lemma weighted_sum ls : Forall (fun l => l <> []) ls -> wsum (weighted ls) = sumR (concat ls).
Proof.
  intros F. rewrite <- (map_id (concat ls)), sum_concat. unfold wsum, weighted. rewrite map_map. cbn [fst snd].
  f_equal. apply map_ext_in. intros l Hl. rewrite Forall_forall in F. rewrite map_id. now apply meanR_sum, F.
Qed.

Lemma weighted_mean ls : Forall (fun l => l <> []) ls -> wmean (weighted ls) = meanR (concat ls).
Proof. intros F. unfold wmean, meanR. now rewrite weighted_sum, weighted_total. Qed.

Lemma devs_about l c : l <> [] -> sumR (map (fun x => (x - c) ^ 2) l) = sq_devs l + INR (length l) * (meanR l - c) ^ 2.
Proof.
  intros N. rewrite sq_devs_gen, (sq_devs_sumsq l N). unfold meanR. pose proof (INR_pos l N). field. lra.
Qed.

(** Squared deviations within the batches and between them. *)
Lemma weighted_devs ls : Forall (fun l => l <> []) ls -> sq_devs (concat ls) = sumR (map sq_devs ls) + wsq_devs (weighted ls).
Proof.
  intros F. unfold sq_devs at 1. rewrite sum_concat. unfold wsq_devs. rewrite (weighted_mean ls F).
  generalize (meanR (concat ls)) as c. intros c. unfold weighted. rewrite map_map. cbn [fst snd].
  induction F as [|l ls N F IH]; [cbn; lra|]. cbn [map]. rewrite !sum_cons, (devs_about l c N). cbn [map] in IH. rewrite IH. lra.
Qed.

Lemma weighted_positive ls : Forall (fun l => l <> []) ls -> positive_weights (weighted ls) = weighted ls.
Proof. intros F. apply positive_all. unfold weighted. apply Forall_map. eapply Forall_impl; [|exact F]. intros l. apply INR_pos. Qed.

(** Batches of the same size. *)
Lemma equal_weighted ls m : Forall (fun l => length l = m) ls ->
  total_weight (weighted ls) = INR m * INR (length ls) /\ wsum (weighted ls) = INR m * sumR (map meanR ls) /\
  forall c, sumR (map (fun p => snd p * (fst p - c) ^ 2) (weighted ls)) = INR m * sumR (map (fun x => (x - c) ^ 2) (map meanR ls)).
Proof.
  unfold total_weight, wsum, weighted. induction 1 as [|l ls E F IH]; [cbn; repeat split; intros; lra|].
  destruct IH as (A & B & C). cbn [map]. rewrite !sum_cons. cbn [fst snd]. rewrite A, B, E. cbn [length]. rewrite S_INR.
  split; [lra|]. split; [lra|]. intros c. rewrite !sum_cons, C. cbn [fst snd]. lra.
Qed.

Lemma equal_mean ls m : Forall (fun l => length l = m) ls -> (0 < m)%nat -> meanR (concat ls) = meanR (map meanR ls).
Proof.
  intros F Hm. assert (N : Forall (fun l : list R => l <> []) ls).
  { eapply Forall_impl; [|exact F]. cbn. intros l E ->. cbn in E. lia. }
  rewrite <- (weighted_mean ls N). destruct (equal_weighted ls m F) as (A & B & _). unfold wmean. rewrite A, B. unfold meanR at 2. rewrite map_length.
  destruct ls as [|l ls]; [cbn; unfold Rdiv; ring|]. pose proof (lt_0_INR m Hm) as P1. assert (P2 : 0 < INR (length (l :: ls))) by (apply lt_0_INR; cbn; lia).
  revert P1 P2. generalize (INR m) (INR (length (l :: ls))) (sumR (map meanR (l :: ls))). intros. field. lra.
Qed.

Lemma equal_devs ls m : Forall (fun l => length l = m) ls -> (0 < m)%nat ->
  sq_devs (concat ls) = sumR (map sq_devs ls) + INR m * sq_devs (map meanR ls).
Proof.
  intros F Hm. assert (N : Forall (fun l : list R => l <> []) ls).
  { eapply Forall_impl; [|exact F]. cbn. intros l E ->. cbn in E. lia. }
  rewrite (weighted_devs ls N). f_equal. unfold wsq_devs. rewrite (weighted_mean ls N), (equal_mean ls m F Hm).
  apply equal_weighted. exact F.
Qed.

Lemma equal_length {A} (ls : list (list A)) m : Forall (fun l => length l = m) ls -> length (concat ls) = (m * length ls)%nat.
Proof. induction 1 as [|l ls E F IH]; [cbn; lia|]. cbn [concat length]. rewrite app_length, IH, E. lia. Qed.

(** Means that are each off by at most e. *)
Lemma near_weighted {A} (d : A -> list R) (m : A -> R) e ls : ls <> [] -> Forall (fun l => d l <> []) ls ->
  Forall (fun l => Rabs (m l - meanR (d l)) <= e) ls ->
  Rabs (wmean (map (fun l => (m l, INR (length (d l)))) ls) - meanR (concat (map d ls))) <= e.
Proof.
  intros N F H. assert (F' : Forall (fun l => l <> []) (map d ls)) by now apply Forall_map.
  rewrite <- (weighted_mean (map d ls) F'). unfold wmean.
  assert (T : total_weight (map (fun l => (m l, INR (length (d l)))) ls) = total_weight (weighted (map d ls))) by (unfold total_weight, weighted; now rewrite !map_map).
  rewrite T. assert (P : 0 < total_weight (weighted (map d ls))).
  { rewrite weighted_total. apply INR_pos. destruct ls as [|l ls]; [congruence|]. inversion F; subst. cbn [map concat]. destruct (d l); [congruence|discriminate]. }
  assert (D : Rabs (wsum (map (fun l => (m l, INR (length (d l)))) ls) - wsum (weighted (map d ls))) <= e * total_weight (weighted (map d ls))).
  { clear N T P F F'. unfold wsum, total_weight, weighted. rewrite !map_map. cbn [fst snd].
    induction H as [|l ls Hl H IH]; [cbn; rewrite Rminus_0_r, Rabs_R0; lra|].
    cbn [map]. rewrite !sum_cons. pose proof (pos_INR (length (d l))) as Q.
    replace (_ - _) with (INR (length (d l)) * (m l - meanR (d l)) + (sumR (map (fun x => INR (length (d x)) * m x) ls) - sumR (map (fun x => INR (length (d x)) * meanR (d x)) ls))) by ring.
    eapply Rle_trans; [apply Rabs_triang|]. rewrite Rabs_mult, (Rabs_pos_eq _ Q).
    pose proof (Rmult_le_compat_l _ _ _ Q Hl). lra. }
  replace (_ / _ - _ / _) with ((wsum (map (fun l => (m l, INR (length (d l)))) ls) - wsum (weighted (map d ls))) / total_weight (weighted (map d ls))) by (field; lra).
  unfold Rdiv. rewrite Rabs_mult, (Rabs_pos_eq (/ _)) by (left; now apply Rinv_0_lt_compat).
  apply (Rmult_le_reg_r (total_weight (weighted (map d ls)))); [exact P|]. rewrite Rmult_assoc, Rinv_l by lra. lra.
Qed.

Lemma mean_bound l B : l <> [] -> Forall (fun x => Rabs x <= B) l -> Rabs (meanR l) <= B.
Proof.
  intros N F. pose proof (INR_pos l N) as P. assert (H : Forall (fun x => - B <= x <= B) l).
  { eapply Forall_impl; [|exact F]. intros x Hx. now apply Rabs_le_inv. }
  pose proof (sumR_bounds l (- B) B H) as [S1 S2]. pose proof (meanR_sum l N) as E. apply Rabs_le. split; nra.
Qed.

(** What was measured is what was measured before each print and after the last one. *)
Lemma measured_segments {K} (same : K -> K -> bool) k (h : list (ogcall (K:=K))) : forall old, exists rest,
  measured same k old ++ measured same k h = concat (map (fun e => measured same k (snd e)) (segments old h)) ++ rest /\
  (forall h' p, h = h' ++ [OPrint p] -> rest = []).
Proof.
  assert (App : forall a b, measured same k (a ++ b) = measured same k a ++ measured same k b).
  { induction a as [|c a IH]; intros b; [reflexivity|]. destruct c; cbn [app measured]; auto. destruct (same k0 k); cbn [app]; now rewrite IH. }
  induction h as [|c h IH]; intros old.
  - exists (measured same k old). split; [cbn; now rewrite app_nil_r|]. intros [|? ?] p E; discriminate E.
  - assert (G : forall old', measured same k old' ++ measured same k h = measured same k old ++ measured same k (c :: h) ->
      segments old' h = segments old (c :: h) -> exists rest,
      measured same k old ++ measured same k (c :: h) = concat (map (fun e => measured same k (snd e)) (segments old (c :: h))) ++ rest /\
      (forall h' p, h <> [] -> c :: h = h' ++ [OPrint p] -> rest = [])).
    { intros old' E1 E2. destruct (IH old') as (rest & E & Z). exists rest. rewrite <- E1, <- E2. split; [exact E|].
      intros h' p N Q. destruct h' as [|d h']; [injection Q as _ ->; congruence|]. injection Q as _ Q. exact (Z h' p Q). }
    destruct c as [k' x| |p|k'].
    + destruct (G (old ++ [OMeasure k' x])) as (rest & E & Z); [rewrite App, <- app_assoc; f_equal; cbn [measured]; destruct (same k' k); reflexivity|reflexivity|].
      exists rest. split; [exact E|]. intros h' p Q. apply (Z h' p); [|exact Q]. intros ->. destruct h' as [|? [|? ?]]; discriminate Q.
    + destruct (G (old ++ [OHeaders])) as (rest & E & Z); [rewrite App, <- app_assoc; reflexivity|reflexivity|].
      exists rest. split; [exact E|]. intros h' p Q. apply (Z h' p); [|exact Q]. intros ->. destruct h' as [|? [|? ?]]; discriminate Q.
    + destruct (IH []) as (rest & E & Z). exists rest. cbn [segments map concat measured snd app] in *. rewrite E, app_assoc. split; [reflexivity|].
      intros h' q Q. destruct h' as [|d h']; [injection Q as _ ->|injection Q as _ Q; exact (Z h' q Q)]. cbn in E. now destruct rest.
    + destruct (G (old ++ [OAdd k'])) as (rest & E & Z); [rewrite App, <- app_assoc; reflexivity|reflexivity|].
      exists rest. split; [exact E|]. intros h' p Q. apply (Z h' p); [|exact Q]. intros ->. destruct h' as [|? [|? ?]]; discriminate Q.
Qed.
