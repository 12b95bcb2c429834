(** Lemmas about correlation histograms. *)
From Coq Require Import ZArith Reals List Bool Permutation Lia Lra Psatz.
From Flocq Require Import Core.Core IEEE754.BinarySingleNaN.
From Verif Require Import Base F64 Num S_Accum S_Math S_Grid S_Hist S_CorrHist M_MathInt M_Grid M_Accum M_Hist M_CorrHist
  L_MathInt L_Grid L_Sum L_Hist L_LatticeK L_Lattice L_Bonds L_LatticeN.
Import ListNotations.
Open Scope Z_scope.
Open Scope out_scope.

(** ** Histograms that are only added to *)

Lemma nth_put b : forall i j v, (i < length b)%nat ->
  nth j (put b i v) [] = if (j =? i)%nat then nth i b [] ++ [v] else nth j b [].
Proof.
  induction b as [|x b IH]; intros i j v Hi; cbn [length] in Hi; [lia|].
  destruct i as [|i].
  - unfold put. cbn [firstn nth skipn app]. destruct j; reflexivity.
  - change (put (x :: b) (S i) v) with (x :: put b i v). destruct j as [|j]; [reflexivity|]. cbn [nth Nat.eqb]. apply IH. lia.
Qed.

Definition add_call (p : Z * f64) : hcall := HCAdd (fst p) (snd p).

Lemma bins_adds l : forall b t, Forall (fun p => 0 <= fst p < Z.of_nat (length b)) l ->
  exists b', bins_calls (map add_call l) (mkBins b t) = Some (mkBins b' (t + Z.of_nat (length l))) /\ length b' = length b /\
  forall j, nth j b' [] = nth j b [] ++ map snd (filter (fun p => Z.to_nat (fst p) =? j)%nat l).
Proof.
  induction l as [|[i v] l IH]; intros b t H.
  - exists b. cbn [map bins_calls length filter]. rewrite Z.add_0_r. split; [reflexivity|]. split; [reflexivity|]. intros j. now rewrite app_nil_r.
  - apply Forall_cons_iff in H as [Hi H]. cbn [fst] in Hi. cbn [map bins_calls length]. unfold add_call at 1. cbn [fst snd bins_call b_bins b_total].
    replace ((0 <=? i) && (i <? Z.of_nat (length b)))%bool with true
      by (symmetry; apply andb_true_iff; split; [apply Z.leb_le|apply Z.ltb_lt]; lia).
    assert (Lp : length (put b (Z.to_nat i) v) = length b) by (apply put_length; lia).
    destruct (IH (put b (Z.to_nat i) v) (t + 1)) as (b' & E & L & N); [now rewrite Lp|].
    exists b'. rewrite E. split; [do 2 f_equal; lia|]. split; [congruence|]. intros j. rewrite N, nth_put by lia.
    cbn [filter fst]. rewrite (Nat.eqb_sym j). destruct (Nat.eqb_spec (Z.to_nat i) j) as [->|]; [|reflexivity].
    cbn [map snd]. now rewrite <- app_assoc.
Qed.

Definition run_adds (chk : bool) (l : list (Z * f64)) (h : hist) : out hist :=
  ofold (fun h p => record_value chk h (fst p) (snd p)) l h.

Lemma run_adds_calls chk l : forall h h', hist_calls chk (map add_call l) h = (h', Ok tt) -> run_adds chk l h = Ok h'.
Proof.
  induction l as [|[i v] l IH]; intros h h' E; cbn [map hist_calls] in E.
  - injection E as <-. reflexivity.
  - unfold add_call at 1 in E. cbn [fst snd hist_call] in E. unfold run_adds. cbn [ofold fst snd]. unfold record_value at 1.
    destruct (HistAdd chk h i v) as [h1 [[]| | |]]; try discriminate. cbn [bind]. now apply IH.
Qed.

Lemma ofold_flat_map {A B S} (f : S -> B -> out S) (F : A -> list B) l : forall s,
  ofold f (flat_map F l) s = ofold (fun s a => ofold f (F a) s) l s.
Proof.
  induction l as [|a l IH]; intros s; [reflexivity|]. cbn [flat_map ofold]. rewrite Base.ofold_app.
  destruct (ofold f (F a) s); cbn [bind]; auto.
Qed.

Lemma ofold_map {A B S} (f : S -> B -> out S) (F : A -> B) l : forall s,
  ofold f (map F l) s = ofold (fun s a => f s (F a)) l s.
Proof. induction l as [|a l IH]; intros s; [reflexivity|]. cbn [map ofold]. destruct (f s (F a)); cbn [bind]; auto. Qed.

Lemma filter_flat_map {A B} (p : B -> bool) (F : A -> list B) l : filter p (flat_map F l) = flat_map (fun a => filter p (F a)) l.
Proof. induction l as [|a l IH]; [reflexivity|]. cbn [flat_map]. rewrite filter_app. now rewrite IH. Qed.

Lemma map_flat_map {A B C} (p : B -> C) (F : A -> list B) l : map p (flat_map F l) = flat_map (fun a => map p (F a)) l.
Proof. induction l as [|a l IH]; [reflexivity|]. cbn [flat_map]. rewrite map_app. now rewrite IH. Qed.

Lemma filter_map_swap {A B} (p : B -> bool) (F : A -> B) l : filter p (map F l) = map F (filter (fun a => p (F a)) l).
Proof. induction l as [|a l IH]; [reflexivity|]. cbn [map filter]. destruct (p (F a)); cbn [map]; now rewrite IH. Qed.

Lemma filter_unique {A} (p : A -> bool) x l : NoDup l -> In x l -> (forall y, In y l -> (p y = true <-> y = x)) -> filter p l = [x].
Proof.
  induction l as [|a l IH]; intros N I E; [contradiction|]. inversion N as [|? ? Na Nl]; subst. cbn [filter].
  destruct (p a) eqn:Pa.
  - apply (proj1 (E a (or_introl eq_refl))) in Pa. subst a. f_equal.
    assert (G : forall l', (forall y, In y l' -> y <> x) -> (forall y, In y l' -> p y = true -> y = x) -> filter p l' = []).
    { clear. induction l' as [|y l' IH]; intros H1 H2; [reflexivity|]. cbn [filter]. destruct (p y) eqn:Q.
      - exfalso. apply (H1 y (or_introl eq_refl)). apply H2; [now left|exact Q].
      - apply IH; intros; [apply H1|apply H2]; auto; now right. }
    apply G.
    + intros y Iy ->. contradiction.
    + intros y Iy Py. now apply (proj1 (E y (or_intror Iy))).
  - destruct I as [->|I].
    + exfalso. rewrite (proj2 (E x (or_introl eq_refl)) eq_refl) in Pa. discriminate.
    + apply IH; auto. intros y Iy. apply E. now right.
Qed.

Lemma flat_map_single {A B} (F : A -> B) l : flat_map (fun a => [F a]) l = map F l.
Proof. induction l as [|a l IH]; [reflexivity|]. cbn [flat_map map app]. now rewrite IH. Qed.

Lemma flat_map_ext_in {A B} (F G : A -> list B) l : (forall a, In a l -> F a = G a) -> flat_map F l = flat_map G l.
Proof.
  induction l as [|a l IH]; intros H; [reflexivity|]. cbn [flat_map]. rewrite H by now left. f_equal. apply IH. intros. apply H. now right.
Qed.

(** ** Displacements *)

Section Grid.
Variable size : list Z.
Hypothesis Hs : sizes_ok size.
Notation g := (HyperCubicGrid size true).
Notation P := (prodZ size).

Definition mp (a b : Z) : Z := match GetMappedSite g a b with Ok s => s | _ => 0 end.
Definition um (s a : Z) : Z := match GetUnMappedSite g s a with Ok b => b | _ => 0 end.

Lemma mp_ok a b : valid_site size a -> valid_site size b -> GetMappedSite g a b = Ok (mp a b) /\ valid_site size (mp a b) /\ um (mp a b) a = b.
Proof.
  intros Ha Hb. destruct (mapped_valid g a b eq_refl Hs Ha Hb) as (i & E & V & U). unfold mp. rewrite E. split; [reflexivity|].
  split; [exact V|]. unfold um. now rewrite U.
Qed.

Lemma um_ok s a : valid_site size s -> valid_site size a -> GetUnMappedSite g s a = Ok (um s a) /\ valid_site size (um s a) /\ mp a (um s a) = s.
Proof.
  intros Ha Hb. destruct (unmapped_valid g s a eq_refl Hs Ha Hb) as (i & E & V & U). unfold um. rewrite E. split; [reflexivity|].
  split; [exact V|]. unfold mp. now rewrite U.
Qed.

Lemma sites_pos : 0 < P < two64.
Proof. split; [apply (grid_sites size true Hs)|exact (proj2 Hs)]. Qed.

Definition at_f (n : list f64) (a : Z) : f64 := nth (Z.to_nat a) n f0.

Definition pair_values (n : list f64) : list (Z * f64) :=
  flat_map (fun a => map (fun b => (mp a b, fmul (at_f n a) (at_f n b))) (upto P)) (upto P).

Lemma vget_at n a : vsize n = P -> valid_site size a -> vget n a = Ok (at_f n a).
Proof.
  intros L V. unfold valid_site in V. unfold vget. rewrite L. replace ((0 <=? a) && (a <? P))%bool with true
      by (symmetry; apply andb_true_iff; split; [apply Z.leb_le|apply Z.ltb_lt]; lia).
  rewrite (nth_error_nth' n f0); [reflexivity|]. unfold vsize in L. lia.
Qed.

Lemma correlate_run chk n h : vsize n = P -> correlate chk g h n = run_adds chk (pair_values n) h.
Proof.
  intros L. unfold correlate, run_adds, pair_values. rewrite (proj1 (grid_sites size true Hs)), ofold_flat_map.
  apply ofold_ext. intros h1 a Ia. apply upto_In in Ia. rewrite ofold_map. apply ofold_ext. intros h2 b Ib. apply upto_In in Ib.
  cbn [fst snd]. rewrite (proj1 (mp_ok a b Ia Ib)). cbn [bind]. rewrite !vget_at by assumption. reflexivity.
Qed.

Lemma correlate_all_run chk ns : Forall (fun n => vsize n = P) ns ->
  correlate_all chk g ns = run_adds chk (flat_map pair_values ns) (HistAccumulator P).
Proof.
  intros H. unfold correlate_all. rewrite (proj1 (grid_sites size true Hs)). unfold run_adds. rewrite ofold_flat_map.
  apply ofold_ext. intros h n In. rewrite Forall_forall in H. apply correlate_run. now apply H.
Qed.

Lemma pair_values_length n : Z.of_nat (length (pair_values n)) = P * P.
Proof.
  unfold pair_values. pose proof sites_pos.
  assert (G : forall l, Z.of_nat (length (flat_map (fun a => map (fun b => (mp a b, fmul (at_f n a) (at_f n b))) (upto P)) l)) = Z.of_nat (length l) * P).
  { induction l as [|a l IH]; [reflexivity|]. cbn [flat_map length]. rewrite app_length, map_length, upto_length, Nat2Z.inj_add, IH, Z2Nat.id by lia. lia. }
  rewrite G, upto_length, Z2Nat.id by lia. reflexivity.
Qed.

Lemma pair_values_valid n : Forall (fun p => 0 <= fst p < P) (pair_values n).
Proof.
  apply Forall_forall. intros p Ip. unfold pair_values in Ip. apply in_flat_map in Ip as (a & Ia & Ip). apply in_map_iff in Ip as (b & <- & Ib).
  apply upto_In in Ia, Ib. cbn [fst]. exact (proj1 (proj2 (mp_ok a b Ia Ib))).
Qed.

Lemma pair_values_bin n s : valid_site size s ->
  map snd (filter (fun p => Z.to_nat (fst p) =? Z.to_nat s)%nat (pair_values n)) =
  map (fun a => fmul (at_f n a) (at_f n (um s a))) (upto P).
Proof.
  intros V. unfold pair_values. rewrite filter_flat_map, map_flat_map, <- flat_map_single. apply flat_map_ext_in. intros a Ia. apply upto_In in Ia.
  rewrite filter_map_swap, map_map. cbn [fst snd].
  rewrite (filter_unique _ (um s a)); [reflexivity|apply upto_NoDup|apply upto_In; exact (proj1 (proj2 (um_ok s a V Ia)))|].
  intros b Ib. apply upto_In in Ib. destruct (mp_ok a b Ia Ib) as (_ & Vm & Um). rewrite Nat.eqb_eq. unfold valid_site in *. split.
  - intros E. apply Z2Nat.inj in E; [|lia|lia]. now rewrite <- E.
  - intros ->. now rewrite (proj2 (proj2 (um_ok s a V Ia))).
Qed.

(** The histogram after all configurations. *)
Definition bin_values (ns : list (list f64)) (s : Z) : list f64 :=
  flat_map (fun n => map (fun a => fmul (at_f n a) (at_f n (um s a))) (upto P)) ns.

Lemma flat_pairs_length ns : Z.of_nat (length (flat_map pair_values ns)) = vsize ns * (P * P).
Proof.
  unfold vsize. induction ns as [|n ns IH]; [reflexivity|]. cbn [flat_map length]. rewrite app_length, Nat2Z.inj_add, IH, pair_values_length. lia.
Qed.

Lemma bin_values_length ns s : Z.of_nat (length (bin_values ns s)) = vsize ns * P.
Proof.
  unfold bin_values, vsize. pose proof sites_pos. induction ns as [|n ns IH]; [reflexivity|]. cbn [flat_map length].
  rewrite app_length, map_length, upto_length, Nat2Z.inj_add, IH, Z2Nat.id by lia. lia.
Qed.

Lemma correlated chk ns : Forall (fun n => vsize n = P) ns -> vsize ns * (P * P) < two64 ->
  exists h, correlate_all chk g ns = Ok h /\ HistGetNbins h = P /\ HistGetCount h = vsize ns * (P * P) /\
  forall s, valid_site size s -> vget (h_acc h) s = Ok (neumaier_of (bin_values ns s)).
Proof.
  intros H Hn. pose proof sites_pos as Pp. destruct (empty_rep P) as [Er Sz]; [lia|].
  destruct (bins_adds (flat_map pair_values ns) (repeat [] (Z.to_nat P)) 0) as (b' & E & L & N).
  { rewrite repeat_length, Z2Nat.id by lia. apply Forall_forall. intros p Ip. apply in_flat_map in Ip as (n & _ & Ip).
    pose proof (pair_values_valid n) as V. rewrite Forall_forall in V. now apply V. }
  rewrite Z.add_0_l, flat_pairs_length in E. rewrite repeat_length in L.
  destruct (hist_calls_rep chk (map add_call (flat_map pair_values ns)) 0 (empty_bins (Z.to_nat P)) _
              ltac:(rewrite map_length, flat_pairs_length; lia) Sz E) as [C _].
  rewrite <- Er in C. eexists. split; [rewrite correlate_all_run by assumption; apply run_adds_calls; exact C|].
  unfold HistGetNbins, HistGetCount, rep. cbn [h_nbins h_count h_acc b_bins b_total]. rewrite L, Z2Nat.id by lia.
  assert (0 <= vsize ns) by (unfold vsize; lia).
  split; [reflexivity|]. split; [apply u64_small; nia|]. intros s V. unfold valid_site in V.
  rewrite (vget_map _ _ _ []) by lia. do 2 f_equal. rewrite N. rewrite nth_repeat. cbn [app]. unfold bin_values.
  rewrite filter_flat_map, map_flat_map. apply flat_map_ext_in. intros n _. now apply pair_values_bin.
Qed.

(** ** Whole numbers *)

Lemma numberZ_abs n a : Z.abs (numberZ n a) <= sumZ (map Z.abs n).
Proof.
  unfold numberZ, sumZ. generalize (Z.to_nat a). induction n as [|x n IH]; intros [|k]; cbn [nth map fold_right]; try lia.
  - assert (0 <= fold_right Z.add 0 (map Z.abs n)) by (clear; induction n; cbn [map fold_right]; lia). lia.
  - specialize (IH k). lia.
Qed.

Lemma at_f_Z n a : at_f (map of_Z n) a = of_Z (numberZ n a).
Proof. unfold at_f, numberZ. rewrite <- (map_nth of_Z). reflexivity. Qed.

Lemma fmul_Z x y : Z.abs x <= 2 ^ 53 -> Z.abs y <= 2 ^ 53 -> Z.abs (x * y) <= 2 ^ 53 ->
  fin (fmul (of_Z x) (of_Z y)) /\ RR (fmul (of_Z x) (of_Z y)) = IZR (x * y).
Proof.
  intros Hx Hy Hz. destruct (of_Z_exact x Hx) as [Ex Fx], (of_Z_exact y Hy) as [Ey Fy].
  assert (K : rnd (RR (of_Z x) * RR (of_Z y)) = IZR (x * y)) by (rewrite Ex, Ey, <- mult_IZR; apply rnd_fmt, fmt_IZR; exact Hz).
  destruct (fmul_ok (of_Z x) (of_Z y) Fx Fy) as [R1 F1].
  - rewrite K. apply Rle_lt_trans with (bpow radix2 53).
    + apply IZR_bpow; lia.
    + rewrite fmax_bpow. apply bpow_lt. lia.
  - split; [exact F1|]. now rewrite R1, K.
Qed.

Lemma sumZ_app a b : sumZ (a ++ b) = sumZ a + sumZ b.
Proof. unfold sumZ. induction a as [|x a IH]; cbn [app fold_right]; lia. Qed.

Lemma sumZ_cons x l : sumZ (x :: l) = x + sumZ l. Proof. reflexivity. Qed.

Lemma sumZ_plus {A} (f h : A -> Z) l : sumZ (map (fun a => f a + h a) l) = sumZ (map f l) + sumZ (map h l).
Proof. induction l as [|a l IH]; [reflexivity|]. cbn [map]. rewrite !sumZ_cons, IH. lia. Qed.

Lemma sumZ_mul {A} k (f : A -> Z) l : sumZ (map (fun a => k * f a) l) = k * sumZ (map f l).
Proof. induction l as [|a l IH]; [unfold sumZ; cbn; lia|]. cbn [map]. rewrite !sumZ_cons, IH. lia. Qed.

Lemma sumZ_swap {A B} (f : A -> B -> Z) la lb :
  sumZ (map (fun a => sumZ (map (f a) lb)) la) = sumZ (map (fun b => sumZ (map (fun a => f a b) la)) lb).
Proof.
  induction la as [|a la IH].
  - cbn [map]. unfold sumZ at 1. cbn [fold_right]. induction lb as [|b lb IH]; [reflexivity|]. cbn [map]. rewrite sumZ_cons, <- IH. reflexivity.
  - cbn [map]. rewrite sumZ_cons, IH. rewrite <- sumZ_plus. reflexivity.
Qed.

Lemma sumZ_perm a b : Permutation a b -> sumZ a = sumZ b.
Proof. induction 1; rewrite ?sumZ_cons in *; lia. Qed.

Lemma sumZ_ext {A} (f h : A -> Z) l : (forall a, In a l -> f a = h a) -> sumZ (map f l) = sumZ (map h l).
Proof. intros E. f_equal. now apply map_ext_in. Qed.

Lemma sumZ_le {A} (f h : A -> Z) l : (forall a, In a l -> f a <= h a) -> sumZ (map f l) <= sumZ (map h l).
Proof.
  induction l as [|a l IH]; intros E; [reflexivity|]. cbn [map]. rewrite !sumZ_cons. specialize (IH ltac:(intros; apply E; now right)).
  specialize (E a (or_introl eq_refl)). lia.
Qed.

Lemma sumZ_nonneg (F : Z -> Z) l : (forall t, 0 <= F t) -> 0 <= sumZ (map F l).
Proof. intros NN. induction l as [|t l IH]; [reflexivity|]. cbn [map]. rewrite sumZ_cons. specialize (NN t). lia. Qed.

Lemma sumZ_one (F : Z -> Z) l s : (forall t, 0 <= F t) -> In s l -> F s <= sumZ (map F l).
Proof.
  intros NN. induction l as [|t l IH]; intros I; [contradiction|]. cbn [map]. rewrite sumZ_cons. destruct I as [->|I].
  - pose proof (sumZ_nonneg F l NN). lia.
  - specialize (IH I). specialize (NN t). lia.
Qed.

Lemma sites_seen a : valid_site size a -> Permutation (map (mp a) (upto P)) (upto P).
Proof.
  intros Ha. apply NoDup_Permutation.
  - apply NoDup_map_on; [apply upto_NoDup|]. intros b b' Ib Ib' E. apply upto_In in Ib, Ib'.
    destruct (mp_ok a b Ha Ib) as (_ & _ & U1), (mp_ok a b' Ha Ib') as (_ & _ & U2). now rewrite <- U1, E.
  - apply upto_NoDup.
  - intros s. rewrite in_map_iff, upto_In. split.
    + intros (b & <- & Ib). apply upto_In in Ib. exact (proj1 (proj2 (mp_ok a b Ha Ib))).
    + intros V. destruct (um_ok s a V Ha) as (_ & Vu & Mu). exists (um s a). split; [exact Mu|now apply upto_In].
Qed.

(** Summing over pairs is summing over displacements. *)
Lemma displacements (F : Z -> Z -> Z -> Z) :
  sumZ (map (fun a => sumZ (map (fun b => F a b (mp a b)) (upto P))) (upto P)) =
  sumZ (map (fun s => sumZ (map (fun a => F a (um s a) s) (upto P))) (upto P)).
Proof.
  rewrite <- (sumZ_swap (fun a s => F a (um s a) s)). apply sumZ_ext. intros a Ia. apply upto_In in Ia.
  rewrite <- (sumZ_perm _ _ (Permutation_map (fun s => F a (um s a) s) (sites_seen a Ia))), map_map.
  apply sumZ_ext. intros b Ib. apply upto_In in Ib. now rewrite (proj2 (proj2 (mp_ok a b Ia Ib))).
Qed.

Lemma sites_sum n : vsize n = P -> map (numberZ n) (upto P) = n.
Proof.
  intros L. pose proof sites_pos. apply (nth_ext _ _ 0 0).
  - rewrite map_length, upto_length. unfold vsize in L. lia.
  - intros k Hk. rewrite map_length, upto_length in Hk.
    rewrite (nth_indep _ 0 (numberZ n 0)) by (rewrite map_length, upto_length; exact Hk). rewrite map_nth. unfold upto.
    rewrite (nth_indep _ 0 (Z.of_nat 0)) by (rewrite map_length, seq_length; exact Hk). rewrite map_nth, seq_nth by exact Hk.
    unfold numberZ. f_equal. lia.
Qed.

Lemma square_sum n : vsize n = P ->
  sumZ (map (fun s => sumZ (map (fun a => numberZ n a * numberZ n (um s a)) (upto P))) (upto P)) = sumZ n * sumZ n.
Proof.
  intros L. rewrite <- (displacements (fun a b _ => numberZ n a * numberZ n b)).
  rewrite (sumZ_ext _ (fun a => sumZ n * numberZ n a)).
  - rewrite sumZ_mul. now rewrite sites_sum.
  - intros a _. rewrite sumZ_mul, sites_sum by exact L. lia.
Qed.

Lemma correlation_total ns : Forall (fun n => vsize n = P) ns ->
  sumZ (map (fun s => correlationZ ns (upto P) (um s)) (upto P)) = squared_numbers ns.
Proof.
  intros H. unfold correlationZ, squared_numbers. rewrite <- (sumZ_swap (fun n s => sumZ (map (fun a => numberZ n a * numberZ n (um s a)) (upto P)))).
  apply sumZ_ext. intros n In. rewrite Forall_forall in H. apply square_sum. now apply H.
Qed.

Lemma abs_total ns : Forall (fun n => vsize n = P) ns ->
  sumZ (map (fun s => correlationZ (map (map Z.abs) ns) (upto P) (um s)) (upto P)) = squared_magnitudes ns.
Proof.
  intros H. rewrite correlation_total.
  - unfold squared_numbers, squared_magnitudes. rewrite map_map. reflexivity.
  - apply Forall_map. revert H. apply Forall_impl. intros n L. unfold vsize in *. now rewrite map_length.
Qed.

Lemma numberZ_absmap n a : numberZ (map Z.abs n) a = Z.abs (numberZ n a).
Proof. unfold numberZ. now rewrite <- (map_nth Z.abs). Qed.

(** The values in a bin are the products of the numbers. *)
Definition bin_numbers (ns : list (list Z)) (s : Z) : list Z :=
  flat_map (fun n => map (fun a => numberZ n a * numberZ n (um s a)) (upto P)) ns.

Lemma bin_numbers_sum ns s : sumZ (bin_numbers ns s) = correlationZ ns (upto P) (um s).
Proof.
  unfold bin_numbers, correlationZ. induction ns as [|n ns IH]; [reflexivity|]. cbn [flat_map map]. now rewrite sumZ_app, sumZ_cons, IH.
Qed.

Lemma bin_numbers_abs ns s : sumZ (map Z.abs (bin_numbers ns s)) = correlationZ (map (map Z.abs) ns) (upto P) (um s).
Proof.
  rewrite <- bin_numbers_sum. f_equal. unfold bin_numbers. induction ns as [|n ns IH]; [reflexivity|]. cbn [flat_map map].
  rewrite map_app, IH. f_equal. rewrite map_map. apply map_ext. intros a. now rewrite Z.abs_mul, !numberZ_absmap.
Qed.

Lemma bin_abs_bound ns s : Forall (fun n => vsize n = P) ns -> valid_site size s ->
  0 <= sumZ (map Z.abs (bin_numbers ns s)) <= squared_magnitudes ns.
Proof.
  intros H V. assert (NN : forall s, 0 <= correlationZ (map (map Z.abs) ns) (upto P) (um s)).
  { intros t. rewrite <- bin_numbers_abs. clear. induction (bin_numbers ns t); cbn [map]; rewrite ?sumZ_cons; [reflexivity|lia]. }
  rewrite bin_numbers_abs. split; [apply NN|]. rewrite <- (abs_total ns H).
  apply (sumZ_one (fun t => correlationZ (map (map Z.abs) ns) (upto P) (um t))); [exact NN|now apply upto_In].
Qed.
End Grid.
