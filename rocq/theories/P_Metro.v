(** C109: Metropolis walkers.  [weight] gives every site a weight; a move uses two
    words of a 64-bit engine, [all_words (2 * n)] is the number of lists of 2n words. *)
From Coq Require Import ZArith Reals List Bool Lia Lra.
From Flocq Require Import Core.Core IEEE754.BinarySingleNaN.
From Verif Require Import Base F64 Num S_Math S_Accum M_Accum M_Grid M_Bravais M_Lattice M_MathF M_Random M_Move M_Hop M_Metro S_Random S_Grid S_Bravais S_Lattice S_Bonds S_Hop
  S_Move S_Metro L_MathF L_Grid L_Bravais L_Lattice L_Bonds L_Share L_Markov L_Hop L_Move L_Metro P_Lattice P_Hop.
Import ListNotations.
Open Scope out_scope.
Open Scope R_scope.

(** Every run ends on a site, with every move counted once as accepted or rejected;
    the site changed at most as often as moves were accepted. *)
Theorem C109_defined : forall (T : Type) (N : num T) (pi : T) (B : bravais T) size cl weight, lattice_ok B size -> (b_gamma B <= 2 ^ 46)%Z ->
  vsize weight = prodZ size -> weights_ok weight ->
  exists L, Lattice N pi B size cl = Ok L /\ ((forall a, valid_site size a -> GetNeighbors L a <> Ok []) ->
  forall chk name n ws a, words (2 * n) ws -> valid_site size a -> (Z.of_nat n < 2 ^ 64)%Z ->
  exists b s, metropolis_run chk L weight (a, MoveStats name) ws = Ok (b, s) /\ valid_site size b /\
  m_proposed s = Z.of_nat n /\ (m_accepted s + m_rejected s = Z.of_nat n)%Z /\ m_impossible s = 0%Z /\ KahanCount (m_prob s) = Z.of_nat n /\
  (m_accepted s = 0%Z -> b = a)).
Proof.
  intros T N pi B size cl weight H Hg Vw Ow. exists (built N pi B size cl). split; [now apply lattice_built|]. intros Hne.
  some_neighbors N pi B size cl H Hne. intros chk name n ws a Hws Ha Hn.
  destruct (metropolis_runs N pi B size cl H Hg Hne' weight Vw chk name n ws [] a Hws Ha) as (E & V & Lm); [intros _; exact Hn|].
  eexists _, _. split; [exact E|]. split; [exact V|].
  cbn [app ms_rep m_proposed m_accepted m_rejected m_impossible m_prob j_outcomes j_pending Z.b2z].
  set (l := moves N pi B size cl weight a ws) in *.
  assert (Imp : count_if is_imp l = 0%Z).
  { subst l. clear. assert (G : forall k ws a, (length ws <= k)%nat -> count_if is_imp (moves N pi B size cl weight a ws) = 0%Z); [|now apply (G (length ws))].
    unfold count_if. induction k as [|k IH]; intros [|w1 [|w2 vs]] c Hk; try reflexivity; [cbn in Hk; lia|].
    cbn [moves filter]. unfold moved at 1. destruct (choose_with_probability_rng _ _); cbn [is_imp]; apply IH; cbn [length] in Hk; lia. }
  pose proof (count_all l) as C. rewrite Imp in C.
  assert (A0 : (0 <= count_if is_acc l)%Z) by (unfold count_if; lia). assert (R0 : (0 <= count_if is_rej l)%Z) by (unfold count_if; lia).
  rewrite Lm in C. unfold u64. rewrite Imp. change two64 with (2 ^ 64)%Z in *.
  rewrite (Z.mod_small (count_if is_acc l)), (Z.mod_small (count_if is_rej l)), Lm, Z.add_0_r, Z.mod_small, Z.mod_small by lia.
  split; [reflexivity|]. split; [lia|]. split; [reflexivity|]. split.
  - unfold KahanCount. rewrite kahan_count_of, map_length, Lm. unfold u64. rewrite Z.mod_small; [reflexivity|change two64 with (2 ^ 64)%Z; lia].
  - subst l. clear. assert (G : forall k ws a, (length ws <= k)%nat -> count_if is_acc (moves N pi B size cl weight a ws) = 0%Z -> walk N pi B size cl weight a ws = a); [|now apply (G (length ws))].
    unfold count_if. induction k as [|k IH]; intros [|w1 [|w2 vs]] c Hk Q; try reflexivity; [cbn in Hk; lia|].
    cbn [moves filter] in Q. cbn [walk]. unfold moved at 1 in Q. unfold tgt in *.
    destruct (choose_with_probability_rng (ratio weight c (target N pi B size cl c w1)) w2) eqn:Ec; cbn [is_acc length] in Q; [lia|].
    apply IH; [cbn [length] in Hk; lia|exact Q].
Qed.
Print Assumptions C109_defined.

Definition shown (r : out (Z * mstats)) : out (Z * (Z * Z * Z)) := st <- r ;; Ok (fst st, (m_proposed (snd st), m_accepted (snd st), m_rejected (snd st))).
Definition four_weights : list f64 := [of_Z 1; of_Z 2; of_Z 3; of_Z 4].
Lemma four_weights_ok : vsize four_weights = prodZ [4%Z] /\ weights_ok four_weights.
Proof.
  split; [reflexivity|]. assert (G : forall z, (1 <= z <= 4)%Z -> fin (of_Z z) /\ bpow radix2 (-500) <= RR (of_Z z) <= bpow radix2 500).
  { intros z Hz. destruct (of_Z_exact z) as [E F]; [lia|]. split; [exact F|]. rewrite E. split.
    - apply Rle_trans with 1; [change 1 with (bpow radix2 0); apply bpow_le; lia|apply IZR_le; lia].
    - apply Rle_trans with (bpow radix2 2); [change (bpow radix2 2) with 4; apply IZR_le; lia|apply bpow_le; lia]. }
  unfold weights_ok, four_weights. do 4 (constructor; [apply G; lia|]). constructor.
Qed.
(** Weights 1, 2, 3, 4 on a ring: from site 3 to 0 and 2 with ratios 1/4 and 3/4. *)
Example C109_defined_ex :
  (L <- Lattice numF pi_d (ChainLattice numF) [4]%Z true ;; omapl (GetNeighbors L) (upto 4)) = Ok [[1; 3]; [2; 0]; [3; 1]; [0; 2]]%Z /\
  shown (L <- Lattice numF pi_d (ChainLattice numF) [4]%Z true ;; metropolis_run true L four_weights (3, MS_default) [0; 2 ^ 62 - 1024; 2 ^ 63; 0])%Z = Ok (3, (2, 2, 0))%Z /\
  shown (L <- Lattice numF pi_d (ChainLattice numF) [4]%Z true ;; metropolis_run true L four_weights (3, MS_default) [0; 2 ^ 62; 2 ^ 63; 2 ^ 63])%Z = Ok (2, (2, 1, 1))%Z.
Proof. split; [|split]; vm_compute; reflexivity. Qed.

(** One move to another site: nearly the textbook probability. *)
Theorem C109_one : forall (T : Type) (N : num T) (pi : T) (B : bravais T) size cl weight, lattice_ok B size -> (b_gamma B <= 2 ^ 46)%Z ->
  vsize weight = prodZ size -> weights_ok weight ->
  exists L, Lattice N pi B size cl = Ok L /\ ((forall a, valid_site size a -> GetNeighbors L a <> Ok []) ->
  forall chk name a b, valid_site size a -> valid_site size b -> a <> b -> exists nn x, GetNeighbors L a = Ok nn /\
  counted (fun ws => words 2 ws /\ exists s, metropolis_run chk L weight (a, MoveStats name) ws = Ok (b, s)) x /\
  Rabs (x / all_words 2 - INR (occurrences b nn) / INR (length nn) * acceptance (RR (nth (Z.to_nat a) weight f0)) (RR (nth (Z.to_nat b) weight f0))) <= move_error (b_gamma B)).
Proof.
  intros T N pi B size cl weight H Hg Vw Ow. exists (built N pi B size cl). split; [now apply lattice_built|]. intros Hne.
  some_neighbors N pi B size cl H Hne. intros chk name a b Ha Hb Hab. eexists _, _. split; [now apply nn_built|].
  split; [apply (countm_counted N pi B size cl H Hg Hne' weight Vw chk name 1 a b Ha); intros _; reflexivity|].
  rewrite (countm_pw N pi B size cl H Hg Hne' weight 1 a b Ha). pose proof (all_pos 2) as A. change (2 * 1)%nat with 2%nat.
  replace (all_words 2 * _ / all_words 2) with (pw (upto (prodZ size)) (mp N pi B size cl weight) 1 a b) by (field; lra).
  pose proof Ha as Ia. apply upto_In in Ia. pose proof Hb as Ib. apply upto_In in Ib.
  rewrite (pw_right (upto (prodZ size)) (upto_NoDup _) (mp N pi B size cl weight) 0 a b Ia Ib). cbn [pw].
  rewrite (sum_kronecker (upto (prodZ size)) (upto_NoDup _) (fun c => mp N pi B size cl weight c b) a Ia).
  pose proof (mrow N pi B size cl H Hg Hne' weight Vw Ow a Ia) as R.
  pose proof (sum_one (fun b => Rabs (mp N pi B size cl weight a b - mq B size cl weight a b)) (upto (prodZ size)) b (fun x _ => Rabs_pos _) Ib) as O. cbn beta in O.
  eapply Rle_trans; [|exact (Rle_trans _ _ _ O R)]. apply Req_le. f_equal. f_equal. unfold mq, mat. destruct (Z.eq_dec a b); [contradiction|]. unfold qr, occ, dg, mi. ring.
Qed.
Print Assumptions C109_one.

(** n moves: as many words lead from a to b as back, in the inverse ratio of the
    weights times the numbers of neighbours. *)
Theorem C109_balance : forall (T : Type) (N : num T) (pi : T) (B : bravais T) size cl weight, lattice_ok B size -> (b_gamma B <= 2 ^ 46)%Z ->
  vsize weight = prodZ size -> weights_ok weight ->
  exists L, Lattice N pi B size cl = Ok L /\ ((forall a, valid_site size a -> GetNeighbors L a <> Ok []) ->
  forall chk name n a b, valid_site size a -> valid_site size b -> (Z.of_nat n < 2 ^ 64)%Z -> exists na nb x y, GetNeighbors L a = Ok na /\ GetNeighbors L b = Ok nb /\
  counted (fun ws => words (2 * n) ws /\ exists s, metropolis_run chk L weight (a, MoveStats name) ws = Ok (b, s)) x /\
  counted (fun ws => words (2 * n) ws /\ exists s, metropolis_run chk L weight (b, MoveStats name) ws = Ok (a, s)) y /\
  let u := INR (length na) * RR (nth (Z.to_nat a) weight f0) in let v := INR (length nb) * RR (nth (Z.to_nat b) weight f0) in
  Rabs (u * x - v * y) <= (u + v) * (INR n * move_error (b_gamma B)) * all_words (2 * n)).
Proof.
  intros T N pi B size cl weight H Hg Vw Ow. exists (built N pi B size cl). split; [now apply lattice_built|]. intros Hne.
  some_neighbors N pi B size cl H Hne. intros chk name n a b Ha Hb Hn. eexists _, _, _, _. split; [now apply nn_built|]. split; [now apply nn_built|].
  split; [apply (countm_counted N pi B size cl H Hg Hne' weight Vw chk name n a b Ha); intros _; exact Hn|].
  split; [apply (countm_counted N pi B size cl H Hg Hne' weight Vw chk name n b a Hb); intros _; exact Hn|].
  exact (moves_balanced N pi B size cl H Hg Hne' weight Vw Ow n a b Ha Hb).
Qed.
Print Assumptions C109_balance.

(** On a closed lattice in the inverse ratio of the weights: detailed balance. *)
Theorem C109_closed : forall (T : Type) (N : num T) (pi : T) (B : bravais T) size weight, lattice_ok B size -> (0 < b_gamma B <= 2 ^ 46)%Z ->
  vsize weight = prodZ size -> weights_ok weight ->
  exists L, Lattice N pi B size true = Ok L /\
  forall chk name n a b, valid_site size a -> valid_site size b -> (Z.of_nat n < 2 ^ 64)%Z -> exists x y,
  counted (fun ws => words (2 * n) ws /\ exists s, metropolis_run chk L weight (a, MoveStats name) ws = Ok (b, s)) x /\
  counted (fun ws => words (2 * n) ws /\ exists s, metropolis_run chk L weight (b, MoveStats name) ws = Ok (a, s)) y /\
  let u := RR (nth (Z.to_nat a) weight f0) in let v := RR (nth (Z.to_nat b) weight f0) in
  Rabs (u * x - v * y) <= (u + v) * (INR n * move_error (b_gamma B)) * all_words (2 * n).
Proof.
  intros T N pi B size weight H [Hg0 Hg] Vw Ow. exists (built N pi B size true). split; [now apply lattice_built|].
  assert (D : forall a, length (nbrs B size true (coords_of size a) (upto (b_gamma B))) = Z.to_nat (b_gamma B)).
  { intros a. unfold nbrs. rewrite !map_length. apply upto_length. }
  assert (Hne : forall a, valid_site size a -> nbrs B size true (coords_of size a) (upto (b_gamma B)) <> []).
  { intros a _ E. pose proof (D a) as Q. rewrite E in Q. cbn in Q. lia. }
  intros chk name n a b Ha Hb Hn. eexists _, _.
  split; [apply (countm_counted N pi B size true H Hg Hne weight Vw chk name n a b Ha); intros _; exact Hn|].
  split; [apply (countm_counted N pi B size true H Hg Hne weight Vw chk name n b a Hb); intros _; exact Hn|].
  pose proof (moves_balanced N pi B size true H Hg Hne weight Vw Ow n a b Ha Hb) as Q. unfold pi_of, dg in Q. rewrite !D in Q. cbv zeta.
  set (g := INR (Z.to_nat (b_gamma B))) in *. assert (G : 0 < g) by (apply lt_0_INR; lia).
  set (x := countm N pi B size true weight n a b) in *. set (y := countm N pi B size true weight n b a) in *.
  set (u := RR (nth (Z.to_nat a) weight f0)) in *. set (v := RR (nth (Z.to_nat b) weight f0)) in *.
  replace (g * u * x - g * v * y) with (g * (u * x - v * y)) in Q by ring. rewrite Rabs_mult, (Rabs_pos_eq g) in Q by lra.
  apply Rmult_le_reg_l with g; [exact G|]. eapply Rle_trans; [exact Q|]. apply Req_le. ring.
Qed.
Print Assumptions C109_closed.
Example C109_closed_ex : lattice_ok (ChainLattice numF) [4]%Z /\ (0 < b_gamma (ChainLattice numF) <= 2 ^ 46)%Z /\
  vsize four_weights = prodZ [4%Z] /\ weights_ok four_weights /\ move_error (b_gamma (ChainLattice numF)) = 84 * bpow radix2 (-53).
Proof.
  split; [standard_lattice|]. split; [cbn; lia|]. split; [apply four_weights_ok|]. split; [apply four_weights_ok|].
  unfold move_error, hop_error. cbn [b_gamma ChainLattice]. lra.
Qed.

(** On an open lattice the weights alone are not balanced: with equal weights on an
    open chain every pair of words leads from the end to its neighbour, but only
    about half of them back. *)
Theorem C109_open_refuted :
  let weight := [f1; f1; f1] in
  exists L x y, Lattice numF pi_d (ChainLattice numF) [3]%Z false = Ok L /\
  counted (fun ws => words 2 ws /\ exists s, metropolis_run true L weight (0%Z, MS_default) ws = Ok (1%Z, s)) x /\
  counted (fun ws => words 2 ws /\ exists s, metropolis_run true L weight (1%Z, MS_default) ws = Ok (0%Z, s)) y /\
  3 / 2 * y <= x.
Proof.
  intros weight. assert (H : lattice_ok (ChainLattice numF) [3]%Z) by standard_lattice.
  assert (Ow : weights_ok weight).
  { assert (G : fin f1 /\ bpow radix2 (-500) <= RR f1 <= bpow radix2 500).
    { split; [reflexivity|]. rewrite RR_f1. change 1 with (bpow radix2 0). split; apply bpow_le; lia. }
    unfold weights_ok, weight. do 3 (constructor; [exact G|]). constructor. }
  destruct (C109_one f64 numF pi_d (ChainLattice numF) [3]%Z false weight H ltac:(cbn; lia) eq_refl Ow) as (L & EL & P).
  assert (Tab : (L <- Lattice numF pi_d (ChainLattice numF) [3]%Z false ;; omapl (GetNeighbors L) (upto 3)) = Ok [[1]; [2; 0]; [1]]%Z) by (vm_compute; reflexivity).
  rewrite EL in Tab. cbn [bind] in Tab. change (upto 3) with [0; 1; 2]%Z in Tab. cbn [omapl] in Tab.
  destruct (GetNeighbors L 0) as [n0| | |] eqn:E0; try discriminate Tab. destruct (GetNeighbors L 1) as [n1| | |] eqn:E1; try discriminate Tab.
  destruct (GetNeighbors L 2) as [n2| | |] eqn:E2; try discriminate Tab. cbn [bind] in Tab. injection Tab as -> -> ->.
  assert (Hne : forall a, valid_site [3]%Z a -> GetNeighbors L a <> Ok []).
  { intros a Ha. unfold valid_site in Ha. cbn in Ha. assert (Q : (a = 0 \/ a = 1 \/ a = 2)%Z) by lia. destruct Q as [->|[->| ->]]; [rewrite E0|rewrite E1|rewrite E2]; discriminate. }
  specialize (P Hne true unknown_name). change (MoveStats unknown_name) with MS_default in P.
  destruct (P 0%Z 1%Z) as (na & x & Ea & Cx & Bx); [unfold valid_site; cbn; lia..|lia|].
  destruct (P 1%Z 0%Z) as (nb & y & Eb & Cy & By); [unfold valid_site; cbn; lia..|lia|].
  exists L, x, y. split; [exact EL|]. split; [exact Cx|]. split; [exact Cy|].
  rewrite E0 in Ea. injection Ea as <-. rewrite E1 in Eb. injection Eb as <-.
  change (occurrences 1 [1]%Z) with 1%nat in Bx. change (occurrences 0 [2; 0]%Z) with 1%nat in By. cbn [length INR] in Bx, By.
  change (nth (Z.to_nat 0) weight f0) with f1 in *. change (nth (Z.to_nat 1) weight f0) with f1 in *. rewrite RR_f1 in Bx, By.
  assert (A1 : acceptance 1 1 = 1) by (unfold acceptance; rewrite Rmin_left; lra). rewrite A1 in Bx, By.
  assert (M : move_error (b_gamma (ChainLattice numF)) <= / 16).
  { unfold move_error, hop_error. cbn [b_gamma ChainLattice]. assert (bpow radix2 (-53) <= bpow radix2 (-12)) by (apply bpow_le; lia). change (bpow radix2 (-12)) with (/ 4096) in H0. lra. }
  pose proof (all_pos 2) as W2. apply Rabs_le_inv in Bx, By.
  assert (X : x = x / all_words 2 * all_words 2) by (field; lra). assert (Y : y = y / all_words 2 * all_words 2) by (field; lra).
  rewrite X, Y. rewrite <- Rmult_assoc. apply Rmult_le_compat_r; lra.
Qed.
Print Assumptions C109_open_refuted.

(** The distribution given by the weights (times the numbers of neighbours) is kept. *)
Theorem C109_stationary : forall (T : Type) (N : num T) (pi : T) (B : bravais T) size cl weight, lattice_ok B size -> (b_gamma B <= 2 ^ 46)%Z ->
  vsize weight = prodZ size -> weights_ok weight ->
  exists L nn, Lattice N pi B size cl = Ok L /\ omapl (GetNeighbors L) (upto (prodZ size)) = Ok nn /\ (Forall (fun l => l <> []) nn ->
  forall chk name n b, valid_site size b -> (Z.of_nat n < 2 ^ 64)%Z -> exists xs,
  Forall2 (fun a x => counted (fun ws => words (2 * n) ws /\ exists s, metropolis_run chk L weight (a, MoveStats name) ws = Ok (b, s)) x) (upto (prodZ size)) xs /\
  let mass := map (fun p => INR (length (fst p)) * RR (snd p)) (combine nn weight) in
  Rabs (sumR (map (fun p => fst p * snd p) (combine mass xs)) - nth (Z.to_nat b) mass 0 * all_words (2 * n)) <= sumR mass * (INR n * move_error (b_gamma B)) * all_words (2 * n)).
Proof.
  intros T N pi B size cl weight H Hg Vw Ow. eexists (built N pi B size cl), _. split; [now apply lattice_built|].
  split; [now apply nn_table|]. intros Hne.
  assert (Hne' : forall a, valid_site size a -> nbrs B size cl (coords_of size a) (upto (b_gamma B)) <> []).
  { intros a Ha. rewrite Forall_map, Forall_forall in Hne. apply Hne. now apply upto_In. }
  intros chk name n b Hb Hn. exists (map (fun a => countm N pi B size cl weight n a b) (upto (prodZ size))). split.
  { assert (G : forall l, (forall a, In a l -> valid_site size a) -> Forall2 (fun a x => counted (fun ws => words (2 * n) ws /\ exists s, metropolis_run chk (built N pi B size cl) weight (a, MoveStats name) ws = Ok (b, s)) x) l
      (map (fun a => countm N pi B size cl weight n a b) l)).
    { induction l as [|a l IH]; intros V; [constructor|]. cbn [map]. constructor; [|apply IH; intros; apply V; now right].
      apply (countm_counted N pi B size cl H Hg Hne' weight Vw chk name n a b); [apply V; now left|intros _; exact Hn]. }
    apply G. intros a Ia. now apply upto_In. }
  pose proof (moves_stationary N pi B size cl H Hg Hne' weight Vw Ow n b Hb) as Q. cbv zeta.
  assert (M : map (fun p => INR (length (fst p)) * RR (snd p)) (combine (map (fun a => nbrs B size cl (coords_of size a) (upto (b_gamma B))) (upto (prodZ size))) weight) =
    map (pi_of B size cl weight) (upto (prodZ size))).
  { assert (Ew : weight = map (fun a => nth (Z.to_nat a) weight f0) (upto (prodZ size))).
    { apply nth_ext with (d := f0) (d' := f0); [rewrite map_length, upto_length, <- Vw; unfold vsize; lia|]. intros k Hk.
      rewrite <- (Nat2Z.id k) at 2. rewrite nth_map_upto by (unfold vsize in Vw; lia). now rewrite Nat2Z.id. }
    rewrite Ew at 1. unfold pi_of, dg. generalize (upto (prodZ size)). intros l. induction l as [|a l IH]; [reflexivity|]. cbn [map combine fst snd]. now rewrite IH. }
  rewrite M, nth_map_upto by exact Hb.
  replace (map (fun p => fst p * snd p) _) with (map (fun a => pi_of B size cl weight a * countm N pi B size cl weight n a b) (upto (prodZ size))); [exact Q|].
  generalize (upto (prodZ size)). intros l. induction l as [|a l IH]; [reflexivity|]. cbn [map combine fst snd]. now rewrite IH.
Qed.
Print Assumptions C109_stationary.
(** Masses 2, 4, 6, 8 on the ring of four. *)
Example C109_stationary_ex :
  (L <- Lattice numF pi_d (ChainLattice numF) [4]%Z true ;; nn <- omapl (GetNeighbors L) (upto 4) ;; Ok (map (@length Z) nn)) = Ok [2; 2; 2; 2]%nat /\
  map (fun x => Btrunc x) four_weights = [1; 2; 3; 4]%Z.
Proof. split; vm_compute; reflexivity. Qed.
