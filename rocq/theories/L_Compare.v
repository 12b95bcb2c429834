(** Lemmas about comparing saved files. *)
From Coq Require Import ZArith Reals List Bool Ascii String Lia Lra.
From Flocq Require Import Core.
From Verif Require Import Base F64 Num M_Text M_Util M_Obs S_Obs S_LatticeF S_Fmt M_Short S_Short S_Pfile L_Util L_Short L_Pfile.
Import ListNotations.
Open Scope Z_scope.

(** Two tables written to two files. *)
Lemma saved_compared fs fs1 fs2 p q s s' rows rows' : p <> q ->
  saved fs p s rows -> saved fs1 q s' rows' -> s = Ok fs1 -> s' = Ok fs2 ->
  exists b, compare_files fs2 p q = Ok b /\ (b = true <-> rows = rows').
Proof.
  intros N (f1 & t1 & E1 & F1 & _ & X1 & T1) (f2 & t2 & E2 & F2 & O2 & X2 & T2) -> ->. injection E1 as <-. injection E2 as <-.
  destruct (compare_files_spec fs2 p q) as (b & E & B). exists b. split; [exact E|]. rewrite B. rewrite (O2 p N), F1, F2. split.
  - intros (f & [= <-] & [= <-]). congruence.
  - intros R. exists t1. split; [reflexivity|]. f_equal. rewrite X1, X2. now rewrite R.
Qed.

Lemma saved_twice fs fs1 fs2 p s s' rows rows' : saved fs p s rows -> saved fs1 p s' rows' -> s' = Ok fs2 -> compare_files fs2 p p = Ok true.
Proof.
  intros _ (f2 & t2 & E2 & F2 & _) ->. injection E2 as <-. destruct (compare_files_spec fs2 p p) as (b & E & B). rewrite E. f_equal. apply B. eauto.
Qed.

Lemma site_rows_iff d c dim n v dim' n' v' : 0 < n -> 0 < n' ->
  (forall i, 0 <= i < n -> vsize (v i) = dim) -> (forall i, 0 <= i < n' -> vsize (v' i) = dim') ->
  (site_rows (fmt_short d) c dim n v = site_rows (fmt_short d) c dim' n' v' <-> n = n' /\ forall i, 0 <= i < n -> v i = v' i).
Proof.
  intros Hn Hn' Hv Hv'. split.
  - intros E. apply (site_rows_inj (fmt_short d) c dim n v dim' n' v'); [exact (fmt_short_inj d)|lia|lia|exact E].
  - intros [<- E]. assert (dim = dim') as <- by (rewrite <- (Hv 0), <- (Hv' 0), E by lia; reflexivity).
    unfold site_rows. f_equal. apply map_ext_in. intros i Ii. apply upto_In in Ii. now rewrite E.
Qed.

Lemma pair_rows_iff d dim n v dim' n' v' : 0 < n -> 0 < n' ->
  (forall a b, 0 <= a < n -> 0 <= b < n -> vsize (v a b) = dim) -> (forall a b, 0 <= a < n' -> 0 <= b < n' -> vsize (v' a b) = dim') ->
  (pair_rows (fmt_short d) dim n v = pair_rows (fmt_short d) dim' n' v' <-> n = n' /\ forall a b, 0 <= a < n -> 0 <= b < n -> v a b = v' a b).
Proof.
  intros Hn Hn' Hv Hv'. split.
  - intros R. assert (N : n = n').
    { apply (f_equal (@List.length _)) in R. unfold pair_rows in R. cbn [List.length] in R. rewrite !map_length, !upto_length in R. nia. }
    subst n'. split; [reflexivity|]. intros a b Ha Hb.
    apply (f_equal (fun l => nth (Z.to_nat (1 + (a + n * b))) l [])) in R. rewrite !pair_row in R by assumption. injection R as R.
    pose proof (Hv a b Ha Hb) as L1. pose proof (Hv' a b Ha Hb) as L2.
    assert (H0 : 0 <= 0 < n) by lia. pose proof (Hv 0 a H0 Ha) as M1. pose proof (Hv' 0 a H0 Ha) as M2. pose proof (Hv 0 b H0 Hb) as K1. pose proof (Hv' 0 b H0 Hb) as K2.
    apply (f_equal (@List.length _)) in R as Rl. rewrite !app_length, !map_length in Rl. unfold vsize in *.
    rewrite !app_assoc in R. apply app_tail in R; [|rewrite !app_length, !map_length; lia]. apply (map_inj _ (fmt_short_inj d) _ _ R).
  - intros [<- E]. assert (dim = dim') as <- by (rewrite <- (Hv 0 0), <- (Hv' 0 0), E by lia; reflexivity).
    unfold pair_rows. f_equal. apply map_ext_in. intros i Ii. apply upto_In in Ii. cbv zeta.
    assert (0 <= i mod n < n) by (apply Z.mod_pos_bound; lia). assert (0 <= i / n < n) by (split; [apply Z.div_pos; lia|apply Z.div_lt_upper_bound; lia]).
    rewrite !E by lia. reflexivity.
Qed.
