(** Lemmas about energies of bonds. *)
From Coq Require Import ZArith Reals List Bool Lia Lra Permutation.
From Verif Require Import Base F64 Num S_Math S_Accum M_MathInt M_Grid M_Bravais M_Lattice S_Grid S_Bravais S_Lattice S_Bonds S_Energy
  L_MathInt L_Grid L_Bravais L_Lattice L_Sum L_LatticeK L_Fourier L_Bonds.
Import ListNotations.
Open Scope Z_scope.

Section Sums.
Context {A : Type} (V : A -> A -> R).
Hypothesis S : symmetric V.

Lemma independent_sum (l : list (Z * Z)) (W : Z -> bool) (s s' : Z -> A) :
  (forall p, In p l -> W (fst p) = true -> W (snd p) = false) ->
  (forall p, In p l -> W (fst p) = false -> s' (fst p) = s (fst p)) -> (forall p, In p l -> W (snd p) = false -> s' (snd p) = s (snd p)) ->
  Permutation l (reversed l) ->
  (sumR (map (fun p => V (s' (fst p)) (s' (snd p))) l) / 2 - sumR (map (fun p => V (s (fst p)) (s (snd p))) l) / 2 =
   sumR (map (fun p => if W (fst p) then V (s' (fst p)) (s (snd p)) - V (s (fst p)) (s (snd p)) else 0) l))%R.
Proof.
  intros I F1 F2 Pm. set (g := fun p : Z * Z => (if W (fst p) then V (s' (fst p)) (s (snd p)) - V (s (fst p)) (s (snd p)) else 0)%R).
  assert (E : sumR (map (fun p => V (s' (fst p)) (s' (snd p))) l) = sumR (map (fun p => V (s (fst p)) (s (snd p)) + (g p + g (snd p, fst p))) l)%R).
  { apply sumR_ext. intros p Hp. unfold g. cbn [fst snd]. pose proof (I p Hp) as Ip. pose proof (F1 p Hp) as A1. pose proof (F2 p Hp) as A2.
    destruct (W (fst p)) eqn:W1.
    - specialize (Ip eq_refl). rewrite Ip. rewrite A2 by exact Ip. ring.
    - destruct (W (snd p)) eqn:W2.
      + rewrite A1 by reflexivity. rewrite (S (s (fst p)) (s' (snd p))), (S (s (fst p)) (s (snd p))). ring.
      + rewrite A1, A2 by reflexivity. ring. }
  rewrite E, sumR_plus, sumR_plus.
  assert (R : sumR (map (fun p => g (snd p, fst p)) l) = sumR (map g l)).
  { rewrite (sumR_perm _ _ (Permutation_map g Pm)). unfold reversed. now rewrite map_map. }
  rewrite R. field.
Qed.

Lemma sum_filter (W : Z -> bool) (g : Z -> R) l : sumR (map (fun a => if W a then g a else 0%R) l) = sumR (map g (filter W l)).
Proof. unfold sumR. induction l as [|a l IH]; [reflexivity|]. cbn [map filter fold_right]. rewrite IH. destruct (W a); cbn [map fold_right]; ring. Qed.

Lemma local_changed n s a x y : (local_energy V n (changed s a y) x = local_energy V n s x + INR (occurrences a n) * (V x y - V x (s a)))%R.
Proof.
  unfold local_energy, occurrences, sumR. induction n as [|b n IH]; [cbn; ring|]. cbn [map fold_right count_occ]. rewrite IH. unfold changed at 1.
  destruct (Z.eq_dec b a) as [->|E].
  - rewrite Z.eqb_refl, S_INR. ring.
  - apply Z.eqb_neq in E. rewrite E. ring.
Qed.
End Sums.

Section Lattices.
Context {T : Type} (N : num T) (pi : T) (B : bravais T) (size : list Z) (cl : bool).
Hypothesis H : lattice_ok B size.
Let P := prodZ size.
Let L := built N pi B size cl.
Definition nbs (a : Z) : list Z := nbrs B size cl (coords_of size a) (upto (b_gamma B)).
Definition table : list (list Z) := map nbs (upto P).

Lemma table_nth a : valid_site size a -> nth (Z.to_nat a) table [] = nbs a.
Proof. intros Ha. unfold table. now apply nth_map_upto. Qed.

Lemma are_in a b : valid_site size a -> AreNeighbors L a b = Ok (existsb (Z.eqb b) (nbs a)).
Proof. intros Ha. unfold AreNeighbors. pose proof (nn_built N pi B size cl a Ha) as E. unfold GetNeighbors in E. fold L in E. rewrite E. reflexivity. Qed.

Context {A : Type} (V : A -> A -> R).
Hypothesis S : symmetric V.

Lemma independent_energy (W : Z -> bool) (s s' : Z -> A) : independent L size W -> (forall a, valid_site size a -> W a = false -> s' a = s a) ->
  (energy V table s' - energy V table s =
   sumR (map (fun a => local_energy V (nth (Z.to_nat a) table []) s (s' a) - local_energy V (nth (Z.to_nat a) table []) s (s a)) (filter W (upto P))))%R.
Proof.
  intros I F. unfold energy.
  assert (In1 : forall p, In p (bonds table) -> valid_site size (fst p) /\ valid_site size (snd p) /\ In (snd p) (nbs (fst p))).
  { intros p Hp. unfold table, nbs in Hp. rewrite (bonds_map B size cl) in Hp. apply in_flat_map in Hp as (i & Hi & Hp). apply in_map_iff in Hp as (b & <- & Hb).
    apply upto_In in Hi. cbn [fst snd]. split; [exact Hi|]. split; [|exact Hb]. now apply (nn_valid N pi B size cl H i). }
  rewrite (independent_sum V S (bonds table) W s s').
  - unfold table, nbs. rewrite (bonds_map B size cl), sumR_flat. rewrite <- (sum_filter W). apply sumR_ext. intros a Ha. apply upto_In in Ha.
    rewrite map_map. cbn [fst snd]. fold (nbs a). fold table. rewrite table_nth by exact Ha. unfold local_energy. destruct (W a).
    + generalize (nbs a). intros l. unfold sumR. induction l as [|b l IH]; [cbn; ring|]. cbn [map fold_right]. rewrite IH. ring.
    + generalize (nbs a). intros l. unfold sumR. induction l as [|b l IH]; [reflexivity|]. cbn [map fold_right]. rewrite IH. ring.
  - intros p Hp W1. destruct (In1 p Hp) as (V1 & V2 & Q). destruct (W (snd p)) eqn:W2; [|reflexivity].
    pose proof (I _ _ V1 V2 W1 W2) as E. rewrite are_in in E by exact V1. injection E as E.
    rewrite (proj2 (existsb_exists (Z.eqb (snd p)) (nbs (fst p)))) in E; [discriminate|]. exists (snd p). split; [exact Q|apply Z.eqb_refl].
  - intros p Hp. apply F. apply (In1 p Hp).
  - intros p Hp. apply F. apply (In1 p Hp).
  - apply (bonds_reversed N pi B size cl H).
Qed.

Lemma single_filter a : forall l, NoDup l -> In a l -> filter (Z.eqb a) l = [a].
Proof.
  induction l as [|b l IH]; intros ND I; [contradiction|]. inversion ND as [|? ? Nb Nl]; subst. cbn [filter]. destruct (Z.eqb_spec a b) as [->|E].
  - f_equal. clear -Nb. induction l as [|c l IH]; [reflexivity|]. cbn [filter]. destruct (Z.eqb_spec b c) as [->|E]; [exfalso; apply Nb; now left|].
    apply IH. intros I. apply Nb. now right.
  - apply IH; [exact Nl|]. destruct I as [->|I]; [contradiction|exact I].
Qed.

Lemma one_site_energy s a x : valid_site size a -> ~ In a (nbs a) ->
  (energy V table (changed s a x) - energy V table s = local_energy V (nbs a) s x - local_energy V (nbs a) s (s a))%R.
Proof.
  intros Ha Na. rewrite (independent_energy (Z.eqb a)).
  - rewrite single_filter; [|apply upto_NoDup|now apply upto_In]. cbn [map]. unfold sumR. cbn [fold_right]. rewrite table_nth by exact Ha.
    unfold changed. rewrite Z.eqb_refl. ring.
  - intros b c Hb Hc E1 E2. apply Z.eqb_eq in E1, E2. subst b c. rewrite are_in by exact Ha. f_equal.
    destruct (existsb (Z.eqb a) (nbs a)) eqn:E; [|reflexivity]. apply existsb_exists in E as (y & Iy & Ey). apply Z.eqb_eq in Ey. subst y. contradiction.
  - intros b Hb E. unfold changed. rewrite Z.eqb_sym, E. reflexivity.
Qed.

Lemma energy_ext s s' : (forall a, valid_site size a -> s a = s' a) -> energy V table s = energy V table s'.
Proof.
  intros E. unfold energy. f_equal. apply sumR_ext. intros p Hp. unfold table, nbs in Hp. rewrite (bonds_map B size cl) in Hp.
  apply in_flat_map in Hp as (i & Hi & Hp). apply in_map_iff in Hp as (b & <- & Hb). apply upto_In in Hi. cbn [fst snd].
  rewrite (E i Hi), (E b); [reflexivity|]. now apply (nn_valid N pi B size cl H i).
Qed.

Lemma exchange_energy s a b : valid_site size a -> valid_site size b -> a <> b -> ~ In a (nbs a) -> ~ In b (nbs b) ->
  (energy V table (exchanged s a b) - energy V table s =
   (local_energy V (nbs a) s (s b) - local_energy V (nbs a) s (s a)) + (local_energy V (nbs b) s (s a) - local_energy V (nbs b) s (s b))
   - INR (occurrences b (nbs a)) * (V (s a) (s a) + V (s b) (s b) - 2 * V (s a) (s b)))%R.
Proof.
  intros Ha Hb Nab Na Nb. assert (Nba : (b =? a) = false) by (apply Z.eqb_neq; congruence).
  rewrite (energy_ext (exchanged s a b) (changed (changed s a (s b)) b (s a))).
  2:{ intros i _. unfold exchanged, changed. destruct (Z.eqb_spec i a) as [->|E]; [|reflexivity]. apply Z.eqb_neq in Nab. now rewrite Nab. }
  pose proof (one_site_energy s a (s b) Ha Na) as E1. pose proof (one_site_energy (changed s a (s b)) b (s a) Hb Nb) as E2.
  rewrite !local_changed in E2. assert (Cb : changed s a (s b) b = s b) by (unfold changed; now rewrite Nba). rewrite !Cb in E2. unfold occurrences in *.
  pose proof (multiplicity N pi B size cl H a b Ha Hb) as M. change (count_occ Z.eq_dec (nbs a) b = count_occ Z.eq_dec (nbs b) a) in M. rewrite M.
  pose proof (S (s b) (s a)) as E3. rewrite E3 in E2.
  set (m := INR (count_occ Z.eq_dec (nbs b) a)) in *.
  replace (energy V table (changed (changed s a (s b)) b (s a)) - energy V table s)%R with
    ((energy V table (changed (changed s a (s b)) b (s a)) - energy V table (changed s a (s b))) + (energy V table (changed s a (s b)) - energy V table s))%R by ring.
  rewrite E1, E2. ring.
Qed.
End Lattices.
