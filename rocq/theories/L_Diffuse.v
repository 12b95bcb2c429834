(** Lemmas about averages over all walks. *)
From Coq Require Import ZArith Reals List Bool Lia Lra Permutation.
From Verif Require Import Base F64 Num S_Math S_Accum M_MathInt L_MathInt M_Grid M_Bravais M_Lattice S_Grid L_Grid S_Bravais S_Lattice S_LatticeN
  L_Bravais L_Lattice L_LatticeN L_Sum L_LatticeK L_Fourier L_Bonds S_Jump L_Jump S_Route L_Route S_Diffuse.
Import ListNotations.
Open Scope Z_scope.

Lemma flat_map_length_const {A B} (f : A -> list B) k l : (forall a, In a l -> length (f a) = k) -> length (flat_map f l) = (length l * k)%nat.
Proof.
  induction l as [|a l IH]; intros F; [reflexivity|]. cbn [flat_map length]. rewrite app_length, IH, F; [reflexivity|now left|intros b Hb; apply F; now right].
Qed.

Lemma sequences_length g n : 0 <= g -> INR (length (sequences g n)) = (IZR g ^ n)%R.
Proof.
  intros Hg. induction n as [|n IH]; [reflexivity|]. cbn [sequences pow]. rewrite flat_map_length_const with (k := length (sequences g n)).
  - rewrite mult_INR, IH, upto_length, INR_IZR_INZ, Z2Nat.id by lia. reflexivity.
  - intros j _. apply map_length.
Qed.

Lemma sequences_spec g n : Forall (fun js => length js = n /\ Forall (fun j => 0 <= j < g) js) (sequences g n).
Proof.
  induction n as [|n IH]; cbn [sequences]; [repeat constructor|]. rewrite Forall_forall in *. intros js Hjs.
  apply in_flat_map in Hjs as (j & Hj & Hjs). apply upto_In in Hj. apply in_map_iff in Hjs as (ks & <- & Hk). destruct (IH ks Hk) as [L1 L2].
  split; [cbn; lia|now constructor].
Qed.

Section Scalars.
Variables (g : Z) (u : Z -> R).
Hypothesis Hg : 0 <= g.
Hypothesis U : sumR (map u (upto g)) = 0%R.
Let tot (js : list Z) : R := sumR (map u js).
Let Q := sumR (map (fun j => u j * u j)%R (upto g)).

Lemma const_sum {A} (c : R) (l : list A) : sumR (map (fun _ => c) l) = (c * INR (length l))%R.
Proof. unfold sumR. induction l as [|a l IH]; [cbn; ring|]. cbn [map fold_right]. rewrite IH. cbn [length]. rewrite S_INR. ring. Qed.

Lemma first_moment n : sumR (map tot (sequences g n)) = 0%R.
Proof.
  induction n as [|n IH]; [cbn; ring|]. cbn [sequences]. rewrite sumR_flat.
  rewrite (sumR_ext _ (fun j => INR (length (sequences g n)) * u j)%R).
  - rewrite sumR_scal, U. ring.
  - intros j _. rewrite map_map. unfold tot at 1. cbn [map]. rewrite (sumR_ext _ (fun js => u j + tot js)%R) by reflexivity.
    rewrite sumR_plus, IH, const_sum. ring.
Qed.

Lemma second_moment n : (IZR g * sumR (map (fun js => tot js * tot js) (sequences g n)) = INR n * IZR g ^ n * Q)%R.
Proof.
  induction n as [|n IH]; [cbn; ring|]. cbn [sequences]. rewrite sumR_flat.
  rewrite (sumR_ext _ (fun j => (INR (length (sequences g n)) * (u j * u j)) + sumR (map (fun js => tot js * tot js) (sequences g n)))%R).
  - rewrite sumR_plus, sumR_scal, const_sum. fold Q. rewrite sequences_length, upto_length, INR_IZR_INZ, Z2Nat.id by lia.
    rewrite S_INR. cbn [pow]. set (S := sumR (map (fun js => tot js * tot js) (sequences g n))%R) in *.
    transitivity (IZR g * (IZR g ^ n * Q) + IZR g * (IZR g * S))%R; [ring|]. rewrite IH. ring.
  - intros j _. rewrite map_map.
    rewrite (sumR_ext _ (fun js => u j * u j + (2 * u j * tot js + tot js * tot js))%R).
    + rewrite sumR_plus, sumR_plus, const_sum, sumR_scal, first_moment. ring.
    + intros js _. unfold tot. cbn [map]. unfold sumR. cbn [fold_right]. ring.
Qed.
End Scalars.

Lemma nth_shifted a : forall b k, length a = length b -> nth k (shifted a b) 0 = nth k a 0 + nth k b 0.
Proof.
  unfold shifted. induction a as [|x a IH]; intros [|y b] k Hl; try discriminate; [now destruct k|]. cbn [zip_with]. destruct k; [reflexivity|]. cbn [nth]. apply IH. now injection Hl.
Qed.

Lemma row_shifted B a b i : length a = length b -> row numR B (shifted a b) i = (row numR B a i + row numR B b i)%R.
Proof.
  intros Hl. rewrite !row_R. unfold sum_upto. rewrite <- sumR_plus. apply sumR_ext. intros j _. rewrite nth_shifted by exact Hl. rewrite plus_IZR. ring.
Qed.

Lemma row_opposite B a i : row numR B (map Z.opp a) i = (- row numR B a i)%R.
Proof.
  rewrite !row_R. unfold sum_upto. replace (- sumR _)%R with (-1 * sumR (map (fun j => IZR (nth (Z.to_nat j) a 0%Z) * entry 0 (b_p B) (b_dim B) i j)%R (upto (b_dim B))))%R by ring.
  rewrite <- sumR_scal. apply sumR_ext. intros j _. change 0 with (- 0) at 1. rewrite map_nth, opp_IZR. ring.
Qed.

Lemma row_zero B n i : row numR B (repeat 0 n) i = 0%R.
Proof.
  rewrite row_R. unfold sum_upto. rewrite (sumR_ext _ (fun _ => 0%R)); [rewrite const_sum; ring|]. intros j _.
  replace (nth (Z.to_nat j) (repeat 0 n) 0) with 0; [ring|]. generalize (Z.to_nat j). intros k. revert k. induction n as [|n IH]; intros [|k]; try reflexivity. apply IH.
Qed.

Section Walks.
Variables (B : bravais R) (size : list Z).
Hypothesis H : lattice_ok B size.
Let g := b_gamma B.
Let u (i j : Z) : R := row numR B (displacement B j) i.

Lemma row_overall i js : Forall (fun j => 0 <= j < g) js -> row numR B (overall B js) i = sumR (map (u i) js).
Proof.
  induction 1 as [|j js Hj F IH]; cbn [overall fold_right map]; [apply row_zero|]. fold (overall B js).
  rewrite row_shifted by (rewrite (disp_length B size H j Hj), (overall_length B size H js F); reflexivity). rewrite IH. unfold sumR. reflexivity.
Qed.

Lemma gamma_nonneg : 0 <= g.
Proof. apply H. Qed.

Lemma drift_zero i : sumR (map (u i) (upto g)) = 0%R.
Proof.
  pose proof H as (_ & _ & _ & _ & He & _).
  assert (Pp : Permutation (map partner (upto g)) (upto g)).
  { apply injective_upto; [intros j Hj; now apply (partner_spec B)|]. intros j l _ _ E. rewrite <- (partner_involutive j), E. apply partner_involutive. }
  assert (E : sumR (map (u i) (upto g)) = (-1 * sumR (map (u i) (upto g)))%R).
  { rewrite <- (sumR_perm _ _ (Permutation_map (u i) Pp)) at 1. rewrite map_map, <- sumR_scal. apply sumR_ext. intros j Hj. apply upto_In in Hj.
    unfold u. destruct (partner_spec B j He Hj) as [_ ->]. rewrite row_opposite. ring. }
  lra.
Qed.
(** Squared lengths. *)
Lemma dot_rows c : dot (pv numR B c) (pv numR B c) = sumR (map (fun i => row numR B c i * row numR B c i)%R (upto (b_dim B))).
Proof.
  unfold dot, pv. f_equal. generalize (upto (b_dim B)). induction l as [|i l IH]; [reflexivity|]. cbn [map zip_with]. now rewrite IH.
Qed.

Lemma mean_vector i n : sumR (map (fun js => row numR B (overall B js) i) (sequences g n)) = 0%R.
Proof.
  rewrite (sumR_ext _ (fun js => sumR (map (u i) js))).
  - apply (first_moment g (u i) (drift_zero i)).
  - intros js Hjs. apply row_overall. pose proof (sequences_spec g n) as F. rewrite Forall_forall in F. now apply F.
Qed.

Lemma mean_square n :
  (IZR g * sumR (map (fun js => dot (pv numR B (overall B js)) (pv numR B (overall B js))) (sequences g n)) =
   INR n * IZR g ^ n * sumR (map (fun j => dot (pv numR B (displacement B j)) (pv numR B (displacement B j))) (upto g)))%R.
Proof.
  rewrite (sumR_ext _ (fun js => sumR (map (fun i => sumR (map (u i) js) * sumR (map (u i) js))%R (upto (b_dim B))))).
  2:{ intros js Hjs. rewrite dot_rows. apply sumR_ext. intros i _. rewrite row_overall; [reflexivity|].
      pose proof (sequences_spec g n) as F. rewrite Forall_forall in F. now apply F. }
  rewrite sumR_swap, <- sumR_scal.
  rewrite (sumR_ext _ (fun i => INR n * IZR g ^ n * sumR (map (fun j => u i j * u i j) (upto g)))%R) by (intros i _; apply (second_moment g (u i) gamma_nonneg (drift_zero i))).
  rewrite sumR_scal. f_equal. rewrite sumR_swap. apply sumR_ext. intros j _. rewrite dot_rows. reflexivity.
Qed.
End Walks.
