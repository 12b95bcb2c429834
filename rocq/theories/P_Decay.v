(** Property theorems C128 (correlations of the Ising model on open chains). *)
From Coq Require Import ZArith Reals List Bool Lia Lra.
From Verif Require Import Base F64 Num S_Math S_Accum M_MathInt L_MathInt M_Grid M_Bravais M_Lattice S_Grid L_Grid S_Bravais S_Lattice S_LatticeN
  L_Bravais L_Lattice L_LatticeN L_Sum L_LatticeK S_Bonds L_Bonds S_Energy L_Energy S_Gauge L_Ising.
Import ListNotations.
Open Scope Z_scope.

Ltac standard_lattice :=
  split; [lazymatch goal with
    | |- well_formed (ChainLattice ?N) => exact (chain_wf N) | |- well_formed (SquareLattice ?N) => exact (square_wf N)
    | |- well_formed (CubicLattice ?N) => exact (cubic_wf N) | |- well_formed (TriangularLattice ?N) => exact (triangular_wf N) end|
  split; [reflexivity|split; [cbn; lia|split; [split; [repeat constructor; lia|vm_compute; reflexivity]|
  split; [reflexivity|repeat constructor; lia]]]]].

(** The first value split off a sum over configurations. *)
Lemma first_value K n c (F : list R -> R) :
  sumR (map (fun l => F l * exp (K * around 0 c l))%R (configurations (S n))) =
  (exp (K * c) * sumR (map (fun l => F (1%R :: l) * exp (K * around 0 1 l)) (configurations n)) +
   exp (- (K * c)) * sumR (map (fun l => F ((-1)%R :: l) * exp (K * around 0 (-1) l)) (configurations n)))%R.
Proof.
  cbn [configurations]. rewrite map_app, sumR_app, !map_map. cbn [around]. f_equal; rewrite <- sumR_scal; apply sumR_ext; intros l _.
  - replace (K * (c * 1 + around 0 1 l))%R with (K * c + K * around 0 1 l)%R by ring. rewrite exp_plus. ring.
  - replace (K * (c * -1 + around 0 (-1) l))%R with (- (K * c) + K * around 0 (-1) l)%R by ring. rewrite exp_plus. ring.
Qed.

Lemma signs_cosh K c : (c = 1 \/ c = -1)%R -> (exp (K * c) + exp (- (K * c)) = 2 * cosh K /\ exp (K * c) - exp (- (K * c)) = c * (2 * sinh K))%R.
Proof.
  unfold cosh, sinh. intros [-> | ->].
  - replace (K * 1)%R with K by ring. lra.
  - replace (K * -1)%R with (- K)%R by ring. rewrite Ropp_involutive. lra.
Qed.

Lemma one_point K k : forall n c, (c = 1 \/ c = -1)%R -> (k <= n)%nat ->
  sumR (map (fun l => nth k (c :: l) 0 * exp (K * around 0 c l))%R (configurations n)) = (c * (2 * sinh K) ^ k * (2 * cosh K) ^ (n - k))%R.
Proof.
  induction k as [|k IH]; intros n c Hc Hk.
  - cbn [nth]. rewrite sumR_scal, transfer_open by exact Hc. rewrite Nat.sub_0_r. cbn [pow]. ring.
  - destruct n as [|n]; [lia|]. cbn [nth]. rewrite (first_value K n c (fun l => nth k l 0%R)).
    rewrite (IH n 1%R), (IH n (-1)%R) by first [left; reflexivity | right; reflexivity | lia].
    destruct (signs_cosh K c Hc) as [_ Es]. cbn [Nat.sub pow].
    transitivity ((exp (K * c) - exp (- (K * c))) * ((2 * sinh K) ^ k * (2 * cosh K) ^ (n - k)))%R; [ring|]. rewrite Es. ring.
Qed.

Lemma two_points K i : forall n j c, (c = 1 \/ c = -1)%R -> (i <= j <= n)%nat ->
  sumR (map (fun l => nth i (c :: l) 0 * nth j (c :: l) 0 * exp (K * around 0 c l))%R (configurations n)) = ((2 * sinh K) ^ (j - i) * (2 * cosh K) ^ (n - (j - i)))%R.
Proof.
  induction i as [|i IH]; intros n j c Hc Hk.
  - rewrite (sumR_ext _ (fun l => c * (nth j (c :: l) 0 * exp (K * around 0 c l)))%R) by (intros; cbn [nth]; ring).
    rewrite sumR_scal, one_point by (exact Hc || lia). rewrite Nat.sub_0_r. destruct Hc as [-> | ->]; ring.
  - destruct n as [|n]; [lia|]. destruct j as [|j]; [lia|]. cbn [nth]. rewrite (first_value K n c (fun l => nth i l 0 * nth j l 0)%R).
    rewrite (IH n j 1%R), (IH n j (-1)%R) by first [left; reflexivity | right; reflexivity | lia].
    destruct (signs_cosh K c Hc) as [Ec _]. replace (S j - S i)%nat with (j - i)%nat by lia. replace (S n - (j - i))%nat with (S (n - (j - i))) by lia.
    rewrite <- tech_pow_Rmult. rewrite <- Rmult_plus_distr_r, Ec. ring.
Qed.

Lemma cosh_pos K : (0 < cosh K)%R.
Proof. unfold cosh. pose proof (exp_pos K). pose proof (exp_pos (- K)). lra. Qed.

(** * C128 *)
Theorem C128_decay : forall (T : Type) (N : num T) (pi : T) n, lattice_ok (ChainLattice N) [n] ->
  exists L nn, Lattice N pi (ChainLattice N) [n] false = Ok L /\ omapl (GetNeighbors L) (upto n) = Ok nn /\
  forall (K : R) a b, 0 <= a <= b -> b < n ->
  sumR (map (fun s => value s a * value s b * exp (K * energy Rmult nn (value s)))%R (configurations (Z.to_nat n))) =
  (tanh K ^ Z.to_nat (b - a) * sumR (map (fun s => exp (K * energy Rmult nn (value s))) (configurations (Z.to_nat n))))%R.
Proof.
  intros T N pi n H. exists (built N pi (ChainLattice N) [n] false), (table (ChainLattice N) [n] false). split; [now apply lattice_built|].
  assert (EP : prodZ [n] = n) by (cbn; lia). split.
  { rewrite <- EP at 2. now apply nn_table. }
  intros K a b Hab Hb. destruct (Z.to_nat n) as [|m] eqn:Em; [lia|].
  assert (E : forall x l, length l = m -> energy Rmult (table (ChainLattice N) [n] false) (value (x :: l)) = around 0 x l).
  { intros x l Ll. apply (open_energy N n H). rewrite Ll. lia. }
  cbn [configurations]. rewrite !map_app, !sumR_app, !map_map.
  set (e := fun s => energy Rmult (table (ChainLattice N) [n] false) (value s)) in *.
  assert (Z1 : forall x : R, (x = 1 \/ x = -1)%R -> sumR (map (fun l => exp (K * e (x :: l))) (configurations m)) = ((2 * cosh K) ^ m)%R).
  { intros x Hx. rewrite <- (transfer_open K m x Hx). apply sumR_ext. intros l Hl. apply configurations_length in Hl. unfold e. now rewrite E. }
  assert (Z2 : forall x : R, (x = 1 \/ x = -1)%R -> sumR (map (fun l => value (x :: l) a * value (x :: l) b * exp (K * e (x :: l)))%R (configurations m)) =
    ((2 * sinh K) ^ Z.to_nat (b - a) * (2 * cosh K) ^ (m - Z.to_nat (b - a)))%R).
  { intros x Hx. replace (Z.to_nat (b - a)) with (Z.to_nat b - Z.to_nat a)%nat by lia. rewrite <- (two_points K (Z.to_nat a) m (Z.to_nat b) x Hx) by lia.
    apply sumR_ext. intros l Hl. apply configurations_length in Hl. unfold e. now rewrite E. }
  pose proof (Z1 1%R (or_introl eq_refl)) as A1. pose proof (Z1 (-1)%R (or_intror eq_refl)) as A2.
  pose proof (Z2 1%R (or_introl eq_refl)) as B1. pose proof (Z2 (-1)%R (or_intror eq_refl)) as B2. unfold e in A1, A2, B1, B2. rewrite A1, A2, B1, B2.
  set (k := Z.to_nat (b - a)). assert (Hk : (k <= m)%nat) by (unfold k; lia).
  replace ((2 * cosh K) ^ m)%R with ((2 * cosh K) ^ k * (2 * cosh K) ^ (m - k))%R by (rewrite <- pow_add; f_equal; lia).
  assert (P : ((2 * sinh K) ^ k = tanh K ^ k * (2 * cosh K) ^ k)%R).
  { rewrite <- Rpow_mult_distr. f_equal. unfold tanh. pose proof (cosh_pos K). field. lra. }
  rewrite P. ring.
Qed.
Print Assumptions C128_decay.
Example C128_decay_ex : lattice_ok (ChainLattice numF) [9] /\ 0 <= 2 <= 7 /\ 7 < 9.
Proof. split; [standard_lattice|lia]. Qed.
