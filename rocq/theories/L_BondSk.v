(** Lemmas about correlations along walks and structure factors. *)
From Coq Require Import ZArith Reals List Bool Lia Lra Permutation.
From Verif Require Import Base F64 Num S_Math S_Accum M_MathInt L_MathInt M_Grid M_Bravais M_Lattice S_Grid L_Grid S_Bravais S_Lattice S_LatticeN S_Fourier
  L_Bravais L_Lattice L_LatticeN L_Sum L_LatticeK L_Fourier S_Bonds L_Bonds S_Energy L_Energy S_Route L_Route S_Diffuse L_Diffuse S_Waves L_Waves S_Count L_Count L_Mix.
Import ListNotations.
Open Scope Z_scope.

Section Correlations.
Variables (B : bravais R) (size : list Z).
Hypothesis H : lattice_ok B size.
Hypothesis FB : fourier B size.
Let P := prodZ size.
Let g := b_gamma B.
Let k := kvec B size.
Let xs := map (vec B size) (upto P).
Let ds := map (fun j => pv numR B (displacement B j)) (upto g).
Let s (occ : list R) (a : Z) : R := nth (Z.to_nat a) occ 0%R.

Lemma sum_over_ends occ es : Forall (valid_site size) es -> sumR (map (s occ) es) = sumR (map (fun b => s occ b * INR (reaching es b))%R (upto P)).
Proof.
  intros F. rewrite (sumR_ext (fun b => s occ b * INR (reaching es b))%R (fun b => sumR (map (fun e => (if b =? e then 1 else 0) * s occ b)%R es))).
  - rewrite <- sumR_swap. apply sumR_ext. intros e He. rewrite Forall_forall in F. symmetry. apply (sumR_pick e (s occ)). exact (F e He).
  - intros b _. rewrite reaching_sum, <- sumR_scal. apply sumR_ext. intros e _. rewrite (Z.eqb_sym b). ring.
Qed.

Lemma dests_valid a n : valid_site size a -> Forall (valid_site size) (map (dest B size a) (sequences g n)).
Proof. intros Ha. apply Forall_map. eapply Forall_impl; [|apply sequences_spec]. intros js [_ D]. now apply dest_spec. Qed.

Lemma intensities_and_walks occ n : vsize occ = P ->
  sumR (map (fun i => band ds (k i) ^ n * intensity occ (k i) xs)%R (upto P)) =
  (IZR P * sumR (map (fun a => s occ a * sumR (map (s occ) (map (dest B size a) (sequences g n)))) (upto P)))%R.
Proof.
  intros Ho. set (th := fun i j => (2 * PI * frac size (centred size (coords_of size i)) (coords_of size j))%R).
  rewrite (sumR_ext _ (fun i => sumR (map (fun a => sumR (map (fun b => band ds (k i) ^ n * (s occ a * s occ b * cos (th i a - th i b)))%R (upto P))) (upto P)))).
  2:{ intros i Hi. apply upto_In in Hi.
      assert (M : intensity occ (k i) xs = sumR (map (fun a => sumR (map (fun b => s occ a * s occ b * cos (th i a - th i b))%R (upto P))) (upto P))).
      { unfold k, xs, P. rewrite (site_intensity B size H FB) by assumption. exact (modulus_pairs (s occ) (th i) (upto (prodZ size))). }
      rewrite M, <- sumR_scal. apply sumR_ext. intros a _. now rewrite <- sumR_scal. }
  rewrite sumR_swap, <- sumR_scal. apply sumR_ext. intros a Ha. apply upto_In in Ha.
  rewrite sumR_swap. rewrite (sum_over_ends occ _ (dests_valid a n Ha)).
  rewrite <- !sumR_scal. apply sumR_ext. intros b Hb. apply upto_In in Hb.
  transitivity (s occ a * s occ b * (INR (reaching (map (dest B size a) (sequences g n)) b) * IZR P))%R; [|ring].
  unfold g, P. rewrite (phases_counted B size H a b n Ha Hb), <- sumR_scal. apply sumR_ext. intros i Hi. apply upto_In in Hi.
  unfold ds, g, k. rewrite (band_value B size H FB) by exact Hi. unfold th. ring.
Qed.

Lemma one_hop a : valid_site size a -> map (dest B size a) (sequences g 1) = nbs B size true a.
Proof.
  intros Ha. unfold nbs, nbrs. cbn [sequences]. rewrite map_map. fold g.
  assert (F : forall l, (forall j, In j l -> 0 <= j < g) ->
    map (dest B size a) (flat_map (fun j => [[j]]) l) = map (fun j => row_major size (reduced_mod size (shifted (coords_of size a) (displacement B j)))) l).
  { induction l as [|j l IH]; intros Hl; [reflexivity|]. cbn [flat_map map app]. rewrite IH by (intros i Hi; apply Hl; now right). f_equal.
    unfold dest, overall, hop. cbn [fold_right]. rewrite shifted_zeros; [reflexivity|]. rewrite (dim_length B size H). apply (disp_length B size H). apply Hl. now left. }
  apply F. intros j Hj. now apply upto_In in Hj.
Qed.

Lemma energy_of_products occ :
  (2 * energy Rmult (table B size true) (s occ))%R = sumR (map (fun a => s occ a * sumR (map (s occ) (map (dest B size a) (sequences g 1)))) (upto P))%R.
Proof.
  unfold energy, table. rewrite (bonds_map B size true), sumR_flat. field_simplify. apply sumR_ext. intros a Ha. apply upto_In in Ha.
  rewrite one_hop by exact Ha. rewrite map_map, <- sumR_scal. reflexivity.
Qed.
End Correlations.
