(** Reading pair files back. *)
From Coq Require Import ZArith List Bool Ascii String Lia.
From Flocq Require Import Core.
From Verif Require Import Base F64 M_Text M_Util M_Obs S_Obs S_LatticeF S_Fmt M_Short S_Short S_Pfile L_Short.
Import ListNotations.
Open Scope Z_scope.

Lemma pair_number n a b : 0 <= a < n -> 0 <= b < n -> (a + n * b) mod n = a /\ (a + n * b) / n = b /\ 0 <= a + n * b < n * n.
Proof.
  intros Ha Hb. split; [|split].
  - rewrite Z.mul_comm, Z_mod_plus_full. apply Z.mod_small. lia.
  - rewrite Z.mul_comm, Z_div_plus_full by lia. rewrite Z.div_small by lia. lia.
  - nia.
Qed.

Lemma nth_map_upto {A} (g : Z -> A) dflt m i : 0 <= i < m -> nth (Z.to_nat i) (map g (upto m)) dflt = g i.
Proof.
  intros Hi. rewrite (nth_indep _ dflt (g 0)) by (rewrite map_length, upto_length; lia).
  rewrite map_nth, upto_nth, Z2Nat.id by lia. reflexivity.
Qed.

Lemma pair_row (f : f64 -> list ascii) d n v a b : 0 <= a < n -> 0 <= b < n ->
  nth (Z.to_nat (1 + (a + n * b))) (pair_rows f d n v) [] =
  put_int (a + n * b) :: put_int a :: put_int b :: map f (v 0 a) ++ map f (v 0 b) ++ map f (v a b).
Proof.
  intros Ha Hb. destruct (pair_number n a b Ha Hb) as (E1 & E2 & E3).
  replace (Z.to_nat (1 + (a + n * b))) with (S (Z.to_nat (a + n * b))) by lia. unfold pair_rows. cbn [nth].
  rewrite nth_map_upto by exact E3. cbv zeta. now rewrite E1, E2.
Qed.

Lemma nth_field (f : f64 -> list ascii) p d j l : vsize p = d -> 0 <= j < d ->
  exists x, vget p j = Ok x /\ nth (Z.to_nat j) (map f p ++ l) [] = f x.
Proof.
  intros Hp Hj. unfold vsize in Hp. destruct (nth_error p (Z.to_nat j)) as [x|] eqn:E.
  - exists x. split; [rewrite <- (Z2Nat.id j) by lia; now apply vget_ok|]. rewrite app_nth1 by (rewrite map_length; lia).
    apply map_nth_error with (f := f) in E. now apply nth_error_nth.
  - apply nth_error_None in E. lia.
Qed.

Lemma saved_pairs_hold d fs fname r size dim v : 0 <= dim -> 0 <= size ->
  saved fs fname r (pair_rows (fmt_short d) dim size v) ->
  (forall a b, 0 <= a < size -> 0 <= b < size -> vsize (v a b) = dim) -> pair_file_holds r fname size dim v.
Proof.
  intros Hd Hs (fs' & text & -> & E & _ & _ & T) Hv. exists fs', text. split; [reflexivity|]. split; [exact E|]. rewrite T. split.
  - unfold vsize, pair_rows. cbn [List.length]. rewrite map_length, upto_length. nia.
  - intros a b Ha Hb row. unfold vector_at, cell, row. rewrite (pair_row _ dim size v a b Ha Hb).
    assert (H0 : 0 <= 0 < size) by lia. pose proof (Hv 0 a H0 Ha) as La. pose proof (Hv 0 b H0 Hb) as Lb. pose proof (Hv a b Ha Hb) as Lab.
    assert (RB : forall x, reads_back (fmt_short d x) x).
    { intros x Fx. destruct (fmt_short_spec d x Fx) as (w & W & R & _). now exists w. }
    split; [reflexivity|]. split; [reflexivity|]. split; [reflexivity|]. split; [|split]; intros j Hj.
    + replace (Z.to_nat (3 + j)) with (S (S (S (Z.to_nat j)))) by lia. cbn [nth].
      destruct (nth_field (fmt_short d) (v 0 a) dim j (map (fmt_short d) (v 0 b) ++ map (fmt_short d) (v a b)) La Hj) as (x & Ex & ->). exists x. auto.
    + replace (Z.to_nat (3 + dim + j)) with (S (S (S (Z.to_nat dim + Z.to_nat j)))) by lia. cbn [nth].
      rewrite app_nth2 by (rewrite map_length; unfold vsize in La; lia). rewrite map_length.
      replace (Z.to_nat dim + Z.to_nat j - List.length (v 0%Z a))%nat with (Z.to_nat j) by (unfold vsize in La; lia).
      destruct (nth_field (fmt_short d) (v 0 b) dim j (map (fmt_short d) (v a b)) Lb Hj) as (x & Ex & ->). exists x. auto.
    + replace (Z.to_nat (3 + 2 * dim + j)) with (S (S (S (Z.to_nat dim + (Z.to_nat dim + Z.to_nat j))))) by lia. cbn [nth].
      rewrite app_nth2 by (rewrite map_length; unfold vsize in La; lia). rewrite map_length.
      rewrite app_nth2 by (rewrite map_length; unfold vsize in La, Lb; lia). rewrite map_length.
      replace (Z.to_nat dim + (Z.to_nat dim + Z.to_nat j) - List.length (v 0%Z a) - List.length (v 0%Z b))%nat with (Z.to_nat j) by (unfold vsize in La, Lb; lia).
      destruct (nth_field (fmt_short d) (v a b) dim j [] Lab Hj) as (x & Ex & Ej). rewrite app_nil_r in Ej. rewrite Ej. exists x. auto.
Qed.

Lemma map_inj {A B} (f : A -> B) : (forall x y, f x = f y -> x = y) -> forall l l', map f l = map f l' -> l = l'.
Proof. intros I. induction l as [|x l IH]; intros [|y l'] E; try discriminate E; [reflexivity|]. injection E as Ex El. apply I in Ex. f_equal; auto. Qed.

Lemma app_tail {A} (l l' a a' : list A) : List.length l = List.length l' -> l ++ a = l' ++ a' -> a = a'.
Proof. revert l'. induction l as [|x l IH]; intros [|y l'] L E; try discriminate L; [exact E|]. injection E as _ E. injection L as L. exact (IH _ L E). Qed.

Lemma saved_pairs_same d fs fs' fname s s' r r' dim n v dim' n' v' : 0 <= n -> 0 <= n' -> 0 <= dim -> 0 <= dim' ->
  saved fs fname s (pair_rows (fmt_short d) dim n v) -> saved fs' fname s' (pair_rows (fmt_short d) dim' n' v') ->
  (forall a b, 0 <= a < n -> 0 <= b < n -> vsize (v a b) = dim) -> (forall a b, 0 <= a < n' -> 0 <= b < n' -> vsize (v' a b) = dim') ->
  s = Ok r -> s' = Ok r' -> r fname = r' fname -> n = n' /\ forall a b, 0 <= a < n -> 0 <= b < n -> v a b = v' a b.
Proof.
  intros Hn Hn' Hd Hd' (f1 & t1 & E1 & F1 & _ & _ & T1) (f2 & t2 & E2 & F2 & _ & _ & T2) Hv Hv' -> -> E. injection E1 as <-. injection E2 as <-.
  assert (t1 = t2) as <- by congruence.
  assert (R : pair_rows (fmt_short d) dim n v = pair_rows (fmt_short d) dim' n' v') by congruence.
  assert (N : n = n').
  { apply (f_equal (@List.length _)) in R. unfold pair_rows in R. cbn [List.length] in R. rewrite !map_length, !upto_length in R. nia. }
  subst n'. split; [reflexivity|]. intros a b Ha Hb.
  apply (f_equal (fun l => nth (Z.to_nat (1 + (a + n * b))) l [])) in R. rewrite !pair_row in R by assumption. injection R as R.
  pose proof (Hv a b Ha Hb) as L1. pose proof (Hv' a b Ha Hb) as L2.
  assert (H0 : 0 <= 0 < n) by lia. pose proof (Hv 0 a H0 Ha) as La. pose proof (Hv 0 b H0 Hb) as Lb. pose proof (Hv' 0 a H0 Ha) as La'. pose proof (Hv' 0 b H0 Hb) as Lb'.
  unfold vsize in *. pose proof (f_equal (@List.length _) R) as LR. rewrite !app_length, !map_length in LR.
  assert (Dd : dim = dim') by lia. subst dim'.
  apply app_tail in R; [|rewrite !map_length; lia]. apply app_tail in R; [|rewrite !map_length; lia].
  exact (map_inj _ (fmt_short_inj d) _ _ R).
Qed.
