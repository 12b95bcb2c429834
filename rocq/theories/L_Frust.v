(** Lemmas about bounds on energies of bonds. *)
From Coq Require Import ZArith Reals List Bool Lia Lra Permutation.
From Verif Require Import Base F64 Num S_Math S_Accum M_MathInt L_MathInt M_Grid M_Bravais M_Lattice S_Grid L_Grid S_Bravais S_Lattice S_LatticeN
  L_Bravais L_Lattice L_LatticeN L_Sum L_LatticeK L_Fourier S_Bonds L_Bonds S_Energy L_Energy S_Route L_Route S_Diffuse L_Diffuse S_Count L_Count.
Import ListNotations.
Open Scope Z_scope.

Lemma triangle_bound x y z : (Rabs x <= 1)%R -> (Rabs y <= 1)%R -> (Rabs z <= 1)%R -> (-1 <= x * y + y * z + x * z)%R.
Proof.
  intros Hx Hy Hz. assert (B : forall r, (Rabs r <= 1)%R -> (-1 <= r <= 1)%R) by (intros r Hr; unfold Rabs in Hr; destruct (Rcase_abs r); lra).
  apply B in Hx, Hy, Hz.
  assert (Q1 : (0 <= (1 - x) * (1 - y) * (1 - z))%R) by (repeat apply Rmult_le_pos; lra). assert (Q2 : (0 <= (1 + x) * (1 + y) * (1 + z))%R) by (repeat apply Rmult_le_pos; lra). nra.
Qed.

Section Frust.
Context {T : Type} (B : bravais T) (size : list Z).
Hypothesis H : lattice_ok B size.
Let P := prodZ size.
Let g := b_gamma B.
Let at_ (a j : Z) := dest B size a [j].
Variable s : Z -> R.

Lemma singles j : 0 <= j < g -> directions B [j].
Proof. intros Hj. constructor; [exact Hj|constructor]. Qed.

Lemma at_valid a j : valid_site size a -> 0 <= j < g -> valid_site size (at_ a j).
Proof. intros Ha Hj. apply (dest_spec B size H a [j] Ha). now apply singles. Qed.

Lemma at_back a j : valid_site size a -> 0 <= j < g -> at_ (at_ a j) (partner j) = a.
Proof. intros Ha Hj. apply (dest_back B size H a _ [j]); [exact Ha|now apply at_valid|now apply singles|reflexivity]. Qed.

Lemma at_permutes j : 0 <= j < g -> Permutation (map (fun a => at_ a j) (upto P)) (upto P).
Proof.
  intros Hj. apply injective_upto; [intros a Ha; now apply at_valid|]. intros a b Ha Hb E. rewrite <- (at_back a j Ha Hj), E. now apply at_back.
Qed.

Lemma shifted_sum j (f : Z -> R) : 0 <= j < g -> sumR (map (fun a => f (at_ a j)) (upto P)) = sumR (map f (upto P)).
Proof. intros Hj. rewrite <- (sumR_perm _ _ (Permutation_map f (at_permutes j Hj))). now rewrite map_map. Qed.

Let C (j : Z) : R := sumR (map (fun a => s a * s (at_ a j))%R (upto P)).

Lemma partner_correlation j : 0 <= j < g -> C (partner j) = C j.
Proof.
  intros Hj. unfold C. rewrite <- (shifted_sum j (fun a => s a * s (at_ a (partner j)))%R Hj). apply sumR_ext. intros a Ha. apply upto_In in Ha. rewrite at_back by assumption. ring.
Qed.

Lemma hops_of a : valid_site size a -> nbs B size true a = map (at_ a) (upto g).
Proof.
  intros Ha. unfold nbs, nbrs. rewrite map_map. apply map_ext_in. intros j Hj. apply upto_In in Hj. unfold at_, dest, overall, hop. cbn [fold_right].
  rewrite shifted_zeros; [reflexivity|]. rewrite (dim_length B size H). now apply (disp_length B size H).
Qed.

Lemma energy_by_direction : (2 * energy Rmult (table B size true) s)%R = sumR (map C (upto g)).
Proof.
  unfold energy, table. rewrite (bonds_map B size true), sumR_flat. field_simplify. unfold C. rewrite sumR_swap. apply sumR_ext. intros a Ha. apply upto_In in Ha.
  fold (nbs B size true a). rewrite hops_of by exact Ha. rewrite !map_map. reflexivity.
Qed.

Hypothesis U : forall a, (Rabs (s a) <= 1)%R.

Lemma sum_bound {A} (f : A -> R) c l : (forall a, In a l -> c <= f a)%R -> (c * INR (length l) <= sumR (map f l))%R.
Proof.
  unfold sumR. induction l as [|a l IH]; intros F; [cbn; lra|]. cbn [map fold_right length]. rewrite S_INR. pose proof (F a (or_introl eq_refl)).
  assert (c * INR (length l) <= fold_right Rplus 0 (map f l))%R by (apply IH; intros b Hb; apply F; now right). lra.
Qed.

Lemma sites_count : INR (length (upto P)) = IZR P.
Proof. pose proof (proj2 (grid_sites size true (proj1 (proj2 (proj2 (proj2 H)))))) as Pp. rewrite upto_length, INR_IZR_INZ, Z2Nat.id by (unfold P; lia). reflexivity. Qed.

Lemma correlation_bound j : (- IZR P <= C j <= IZR P)%R.
Proof.
  assert (Q : forall a, (-1 <= s a * s (at_ a j) <= 1)%R).
  { intros a. pose proof (U a) as Ha. pose proof (U (at_ a j)) as Hb. pose proof (Rabs_mult (s a) (s (at_ a j))) as M. pose proof (Rabs_pos (s a)). pose proof (Rabs_pos (s (at_ a j))).
    assert (M1 : (Rabs (s a * s (at_ a j)) <= 1)%R) by (rewrite M; nra). unfold Rabs in M1. destruct (Rcase_abs (s a * s (at_ a j))); lra. }
  rewrite <- sites_count. split.
  - replace (- INR (length (upto P)))%R with (-1 * INR (length (upto P)))%R by ring. apply sum_bound. intros a _. apply Q.
  - assert (M : (-1 * INR (length (upto P)) <= sumR (map (fun a => -1 * (s a * s (at_ a j))) (upto P)))%R) by (apply sum_bound; intros a _; pose proof (Q a); lra).
    rewrite sumR_scal in M. fold (C j) in M. lra.
Qed.
End Frust.
