(** Lemmas about distances between points of the built-in Bravais lattices. *)
From Coq Require Import ZArith Reals List Bool Lia Lra.
From Flocq Require Import Core.
From Flocq Require Import IEEE754.BinarySingleNaN.
From Verif Require Import Base F64 Num S_Math S_Accum M_MathF M_Bravais S_Grid S_Bravais S_Lattice S_LatticeN S_Geom
  L_Grid L_MathF L_Approx L_Space L_Sum L_Bravais L_Lattice L_LatticeD L_LatticeN L_LatticeV.
Import ListNotations.
Open Scope Z_scope.

Lemma norm_R l : norm numR (map IZR l) = sqrt (IZR (sum_squares l)).
Proof.
  unfold norm. cbn [numR n_add n_mul n_ofZ n_sqrt]. f_equal.
  assert (G : forall l s, fold_left (fun d x => (d + x * x)%R) (map IZR l) (IZR s) = IZR (s + sum_squares l)).
  { induction l0 as [|z l0 IH]; intros s; [cbn; now rewrite Z.add_0_r|]. cbn [map fold_left]. rewrite <- mult_IZR, <- plus_IZR, IH, sum_squares_cons.
    f_equal. lia. }
  rewrite G. f_equal.
Qed.

Lemma unit_exact B a b : unit_lattice 0%R 1%R B -> vsize a = b_dim B -> vsize b = b_dim B -> Forall in_long (zip_with Z.sub b a) ->
  BGetDistance numR B a b = Ok (sqrt (IZR (sum_squares (zip_with Z.sub b a)))).
Proof.
  intros U Ha Hb D. destruct (distance_pure numR B a b (proj1 U) Ha Hb D) as (_ & L & _). rewrite L. f_equal. rewrite <- norm_R. f_equal.
  rewrite <- (diff_zip (b_dim B)) by assumption.
  assert (Hd : vsize (diff (b_dim B) a b) = b_dim B) by (apply vsize_map_upto; destruct U as [W _]; destruct W; lia).
  pose proof (unit_R_real B (diff (b_dim B) a b) U Hd) as R. rewrite real_space_pure in R by (auto; apply U). now injection R.
Qed.

Lemma two_list (a : list Z) : vsize a = 2 -> exists x y, a = [x; y].
Proof. unfold vsize. destruct a as [|x [|y [|z a]]]; cbn [length]; intros H; try lia. now exists x, y. Qed.

Lemma tri_exact a b : vsize a = 2 -> vsize b = 2 -> Forall in_long (zip_with Z.sub b a) ->
  BGetDistance numR (TriangularLattice numR) a b = Ok (sqrt (IZR (hex_square (zip_with Z.sub b a)))).
Proof.
  intros Ha Hb D. destruct (distance_pure numR (TriangularLattice numR) a b (triangular_wf numR) Ha Hb D) as (_ & L & _). rewrite L. f_equal.
  change (b_dim (TriangularLattice numR)) with 2. rewrite diff_zip by assumption.
  destruct (two_list a Ha) as (x & x' & ->). destruct (two_list b Hb) as (y & y' & ->).
  cbn [zip_with]. set (i := y - x). set (j := y' - x'). clearbody i j. unfold hex_square.
  unfold norm, row. change (b_dim (TriangularLattice numR)) with 2. change (upto 2) with [0; 1]. cbn [map fold_left]. unfold entry, TriangularLattice. cbn [numR n_add n_mul n_ofZ n_sqrt n_div b_p b_dim].
  change (Z.to_nat (0 + 0 * 2)) with 0%nat. change (Z.to_nat (1 + 0 * 2)) with 1%nat. change (Z.to_nat (0 + 1 * 2)) with 2%nat. change (Z.to_nat (1 + 1 * 2)) with 3%nat.
  change (Z.to_nat 0) with 0%nat. change (Z.to_nat 1) with 1%nat. cbn [nth]. f_equal. rewrite !plus_IZR, !mult_IZR.
  assert (S : (sqrt 3 * sqrt 3 = 3)%R) by (apply sqrt_sqrt; lra). set (q := sqrt 3) in *. clearbody q.
  transitivity (IZR i * IZR i + IZR i * IZR j + IZR j * IZR j * (1 + q * q) / 4)%R; [field|]. rewrite S. field.
Qed.

Lemma around_steps {T} (B : bravais T) a : around B a = map (shifted a) (steps B).
Proof. unfold around, steps. now rewrite map_map. Qed.

Lemma shifted_sub : forall a b, length a = length b -> shifted a (zip_with Z.sub b a) = b.
Proof. induction a as [|x a IH]; intros [|y b] L; try discriminate L; [reflexivity|]. unfold shifted in *. cbn [zip_with]. rewrite IH by now injection L. f_equal. lia. Qed.
Lemma sub_shifted : forall a d, length a = length d -> zip_with Z.sub (shifted a d) a = d.
Proof. induction a as [|x a IH]; intros [|y b] L; try discriminate L; [reflexivity|]. unfold shifted in *. cbn [zip_with]. rewrite IH by now injection L. f_equal. lia. Qed.

Lemma in_around {T} (B : bravais T) a b : (forall d, In d (steps B) -> length d = length a) -> length a = length b ->
  (In b (around B a) <-> In (zip_with Z.sub b a) (steps B)).
Proof.
  intros S L. rewrite around_steps, in_map_iff. split.
  - intros (d & <- & Hd). rewrite sub_shifted; [exact Hd|]. symmetry. now apply S.
  - intros H. exists (zip_with Z.sub b a). split; [now apply shifted_sub|exact H].
Qed.

Lemma sub_zero : forall a b, length a = length b -> Forall (eq 0) (zip_with Z.sub b a) -> a = b.
Proof. induction a as [|x a IH]; intros [|y b] L F; try discriminate L; [reflexivity|]. cbn [zip_with] in F. inversion F; subst. f_equal; [lia|]. apply IH; [now injection L|assumption]. Qed.

Lemma squares_l1 d : (sum_squares d = 0 <-> l1 d = 0) /\ (sum_squares d = 1 <-> l1 d = 1).
Proof.
  induction d as [|x d [I0 I1]]; [cbn; lia|]. rewrite sum_squares_cons, l1_cons. pose proof (sum_squares_nonneg d). pose proof (l1_nonneg d).
  assert (x = 0 \/ x = 1 \/ x = -1 \/ 2 <= Z.abs x) as [->|[->|[->|A]]] by lia; [lia|lia|lia|]. assert (4 <= x * x) by nia. lia.
Qed.

(** The sixteenfold pattern: squared length one or less. *)
Lemma hex_square_pos i j : 0 <= hex_square [i; j]. Proof. unfold hex_square. nia. Qed.
Lemma hex_square_zero i j : hex_square [i; j] = 0 -> i = 0 /\ j = 0. Proof. unfold hex_square. nia. Qed.
Lemma hex_square_one {T} (N : num T) i j : hex_square [i; j] = 1 <-> In [i; j] (steps (TriangularLattice N)).
Proof.
  rewrite triangular_steps. unfold hex_square. split.
  - intros E. assert (-1 <= i <= 1) by nia. assert (-1 <= j <= 1) by nia.
    assert (i = -1 \/ i = 0 \/ i = 1) as [->|[->| ->]] by lia; assert (j = -1 \/ j = 0 \/ j = 1) as [->|[->| ->]] by lia; try discriminate E; cbn; tauto.
  - intros I. repeat (destruct I as [I|I]; [injection I as <- <-; reflexivity|]). destruct I.
Qed.

Lemma sqrt_one_iff n : 0 <= n -> (sqrt (IZR n) = 1%R <-> n = 1) /\ (1 <= n -> (1 <= sqrt (IZR n))%R).
Proof.
  intros Hn. split.
  - split; [|intros ->; apply sqrt_1]. intros E. apply eq_IZR. rewrite <- (sqrt_sqrt (IZR n)) by now apply (IZR_le 0). rewrite E. lra.
  - intros H. rewrite <- sqrt_1. now apply (sqrt_IZR_le 1).
Qed.

Definition spacing (B : bravais R) : Prop := forall a b, vsize a = b_dim B -> vsize b = b_dim B -> Forall in_long (zip_with Z.sub b a) ->
  exists d, BGetDistance numR B a b = Ok d /\ (a = b /\ d = 0%R \/ a <> b /\ (1 <= d)%R) /\ (d = 1%R <-> In b (around B a)) /\
  NoDup (around B a) /\ vsize (around B a) = b_gamma B.

Lemma around_nodup {T} (B : bravais T) a : small_steps B -> (forall d, In d (steps B) -> length d = length a) -> 0 <= b_gamma B ->
  NoDup (around B a) /\ vsize (around B a) = b_gamma B.
Proof.
  intros (ND & _) L G. split.
  - rewrite around_steps. apply NoDup_map_on; [exact ND|]. intros d e Hd He E. apply shifted_inj in E; [exact E|now apply L|now apply L].
  - unfold around. apply vsize_map_upto. exact G.
Qed.

Lemma unit_spacing B : unit_lattice 0%R 1%R B -> axis_lattice B -> small_steps B -> spacing B.
Proof.
  intros U A S a b Ha Hb D. eexists. split; [now apply unit_exact|].
  pose proof (sum_squares_nonneg (zip_with Z.sub b a)) as P. destruct (sqrt_one_iff _ P) as [O G].
  assert (La : length a = Z.to_nat (b_dim B)) by (unfold vsize in Ha; lia). assert (Lb : length b = Z.to_nat (b_dim B)) by (unfold vsize in Hb; lia).
  assert (SL : forall d, In d (steps B) -> length d = length a) by (intros d Hd; apply A in Hd as [-> _]; congruence).
  split; [|split; [|apply around_nodup; [exact S|exact SL|apply U]]].
  - destruct (Z.eq_dec (sum_squares (zip_with Z.sub b a)) 0) as [Z0|Nz].
    + left. rewrite Z0, sqrt_0. split; [|reflexivity]. apply sub_zero; [congruence|]. apply l1_zero. now apply squares_l1.
    + right. split; [|apply G; lia]. intros ->. apply Nz. clear. induction b as [|x b IH]; [reflexivity|]. cbn [zip_with]. rewrite sum_squares_cons. lia.
  - rewrite O. rewrite in_around by congruence || exact SL. rewrite (A (zip_with Z.sub b a)). rewrite (proj2 (squares_l1 _)).
    rewrite zip_length. split; [intros E; split; [lia|exact E]|tauto].
Qed.

Lemma tri_spacing : spacing (TriangularLattice numR).
Proof.
  intros a b Ha Hb D. change (b_dim (TriangularLattice numR)) with 2 in Ha, Hb. eexists. split; [now apply tri_exact|].
  destruct (two_list a Ha) as (x & x' & ->). destruct (two_list b Hb) as (y & y' & ->).
  cbn [zip_with]. pose proof (hex_square_pos (y - x) (y' - x')) as P. destruct (sqrt_one_iff _ P) as [O G].
  assert (SL : forall d, In d (steps (TriangularLattice numR)) -> length d = length [x; x']).
  { intros d Hd. rewrite triangular_steps in Hd. repeat (destruct Hd as [<-|Hd]; [reflexivity|]). destruct Hd. }
  split; [|split; [|apply around_nodup; [apply triangular_small|exact SL|cbn; lia]]].
  - destruct (Z.eq_dec (hex_square [y - x; y' - x']) 0) as [Z0|Nz].
    + left. rewrite Z0, sqrt_0. split; [|reflexivity]. apply hex_square_zero in Z0 as [Z1 Z2]. assert (x = y) by lia. assert (x' = y') by lia. congruence.
    + right. split; [|apply G; lia]. intros E. injection E as -> ->. apply Nz. unfold hex_square. lia.
  - rewrite O. rewrite in_around by (exact SL || reflexivity). cbn [zip_with]. apply hex_square_one.
Qed.

(** ** Triangular distances in doubles *)
Definition grow (k : nat) (x y : R) : Prop := ((1 - uro) ^ k * y <= x <= (1 + uro) ^ k * y)%R.

Lemma grow_rnd k x y : (0 <= y)%R -> grow k x y -> (bpow radix2 (-1022) <= x \/ x = 0)%R -> grow (S k) (rnd x) y.
Proof.
  intros Hy [A B] [Hx|Hx].
  - pose proof (bpow_gt_0 radix2 (-1022)). pose proof (rnd_rel x) as R. rewrite (Rabs_pos_eq x) in R by lra. specialize (R Hx). apply Rabs_le_inv in R.
    pose proof uro_pos. pose proof uro_small. unfold grow. cbn [pow]. split.
    + apply Rle_trans with ((1 - uro) * x)%R; [|lra]. rewrite Rmult_assoc. apply Rmult_le_compat_l; lra.
    + apply Rle_trans with ((1 + uro) * x)%R; [lra|]. rewrite Rmult_assoc. apply Rmult_le_compat_l; lra.
  - subst x. rewrite rnd_0. pose proof uro_pos. pose proof uro_small. unfold grow. cbn [pow].
    pose proof (pow_lt (1 - uro) k ltac:(lra)). pose proof (pow_lt (1 + uro) k ltac:(lra)). split; nra.
Qed.
Lemma pw k : (0 < (1 - uro) ^ k <= 1)%R /\ (1 <= (1 + uro) ^ k)%R.
Proof.
  pose proof uro_pos. pose proof uro_small. induction k as [|k [I1 I2]]; cbn [pow]; [lra|].
  split; [split; [apply Rmult_lt_0_compat; lra|nra]|nra].
Qed.
Lemma grow_weak k m x y : (k <= m)%nat -> (0 <= y)%R -> grow k x y -> grow m x y.
Proof.
  intros H Hy [A B]. replace m with (k + (m - k))%nat by lia. unfold grow. rewrite !pow_add.
  destruct (pw (m - k)) as [P1 P2]. destruct (pw k) as [Q1 Q2].
  set (a := ((1 - uro) ^ k)%R) in *. set (a' := ((1 - uro) ^ (m - k))%R) in *. set (b := ((1 + uro) ^ k)%R) in *. set (b' := ((1 + uro) ^ (m - k))%R) in *.
  clearbody a a' b b'. split.
  - apply Rle_trans with (a * y)%R; [|exact A]. apply Rmult_le_compat_r; [exact Hy|]. nra.
  - apply Rle_trans with (b * y)%R; [exact B|]. apply Rmult_le_compat_r; [exact Hy|]. nra.
Qed.
Lemma grow_mul k m x y x' y' : (0 <= y)%R -> (0 <= y')%R -> grow k x y -> grow m x' y' -> grow (k + m) (x * x') (y * y').
Proof.
  intros Hy Hy' [A B] [A' B']. unfold grow. rewrite !pow_add. destruct (pw k) as [Q1 Q2]. destruct (pw m) as [P1 P2].
  set (a := ((1 - uro) ^ k)%R) in *. set (a' := ((1 - uro) ^ m)%R) in *. set (b := ((1 + uro) ^ k)%R) in *. set (b' := ((1 + uro) ^ m)%R) in *.
  clearbody a a' b b'. assert (0 <= a * y)%R by (apply Rmult_le_pos; lra). assert (0 <= a' * y')%R by (apply Rmult_le_pos; lra). split.
  - replace (a * a' * (y * y'))%R with ((a * y) * (a' * y'))%R by ring. apply Rmult_le_compat; lra.
  - replace (b * b' * (y * y'))%R with ((b * y) * (b' * y'))%R by ring. apply Rmult_le_compat; lra.
Qed.
Lemma grow_add k x y x' y' : grow k x y -> grow k x' y' -> grow k (x + x') (y + y').
Proof. intros [A B] [A' B']. unfold grow. lra. Qed.
Lemma grow_sqrt k x y : (0 <= y)%R -> grow (k + k) x y -> grow k (sqrt x) (sqrt y).
Proof.
  intros Hy [A B]. destruct (pw k) as [Q1 Q2]. rewrite pow_add in A, B. unfold grow.
  set (a := ((1 - uro) ^ k)%R) in *. set (b := ((1 + uro) ^ k)%R) in *. clearbody a b. split.
  - rewrite <- (sqrt_square a) by lra. rewrite <- sqrt_mult by (nra || lra). now apply sqrt_le_1_alt.
  - rewrite <- (sqrt_square b) by lra. rewrite <- sqrt_mult by (nra || lra). now apply sqrt_le_1_alt.
Qed.
Lemma grow_refl x : grow 0 x x. Proof. unfold grow. cbn [pow]. lra. Qed.

Lemma small_le e : (e <= -2)%Z -> (bpow radix2 e <= / 4)%R.
Proof. intros H. replace (/ 4)%R with (bpow radix2 (-2)) by (cbn; lra). now apply bpow_le. Qed.
Lemma no_over x : (Rabs x <= 2 ^ 150)%R -> (Rabs (rnd x) < fmax)%R.
Proof. intros H. apply (no_overflow x 150); [lia|]. replace (bpow radix2 150) with (2 ^ 150)%R; [exact H|]. rewrite <- (IZR_Zpower radix2 150) by lia. rewrite pow_IZR. reflexivity. Qed.

Lemma half_sqrt3 : let s := fdiv (fsqrt (of_Z 3)) (of_Z 2) in fin s /\ grow 2 (RR s) (sqrt 3 / 2) /\ (/ 2 <= RR s <= 1)%R.
Proof.
  intros s. destruct (of_Z_exact 3) as [E3 F3]; [cbn; lia|]. destruct (of_Z_exact 2) as [E2 F2]; [cbn; lia|].
  destruct (fsqrt_ok (of_Z 3) F3) as [ER EF]; [rewrite E3; lra|]. rewrite E3 in ER.
  assert (S1 : (1.7 <= sqrt 3 <= 1.75)%R).
  { split; [rewrite <- (sqrt_square 1.7) by lra|rewrite <- (sqrt_square 1.75) by lra]; apply sqrt_le_1_alt; lra. }
  pose proof (small_le (-1022) ltac:(lia)) as B. pose proof uro_pos. pose proof uro_small.
  assert (G1 : grow 1 (RR (fsqrt (of_Z 3))) (sqrt 3)) by (rewrite ER; apply grow_rnd; [lra|apply grow_refl|left; lra]).
  assert (G2 : grow 1 (RR (fsqrt (of_Z 3)) / 2) (sqrt 3 / 2)) by (destruct G1 as [A1 A2]; unfold grow; lra).
  assert (R1 : (0.8 <= RR (fsqrt (of_Z 3)) / 2 <= 0.9)%R) by (destruct G2 as [A1 A2]; cbn [pow] in A1, A2; split; nra).
  destruct (fdiv_ok (fsqrt (of_Z 3)) (of_Z 2) EF) as [EDv EDf]; [rewrite E2; lra| |].
  { rewrite E2. apply no_over. rewrite Rabs_pos_eq by lra. apply Rle_trans with 1%R; [lra|]. apply pow_R1_Rle. lra. }
  fold s in EDv, EDf. rewrite E2 in EDv.
  assert (G3 : grow 2 (RR s) (sqrt 3 / 2)) by (rewrite EDv; apply grow_rnd; [lra|exact G2|left; lra]).
  split; [exact EDf|]. split; [exact G3|]. destruct G3 as [A1 A2]. cbn [pow] in A1, A2. split; nra.
Qed.

Lemma IZR_half_zero z : (IZR z / 2 = 0 \/ / 2 <= Rabs (IZR z / 2))%R.
Proof.
  destruct (Z.eq_dec z 0) as [->|Nz]; [left; lra|right]. unfold Rdiv. rewrite Rabs_mult, (Rabs_pos_eq (/ 2)) by lra. rewrite <- abs_IZR.
  assert (1 <= IZR (Z.abs z))%R by (apply IZR_le; lia). lra.
Qed.

Lemma tri_double i j : Z.abs i <= 2 ^ 51 -> Z.abs j <= 2 ^ 51 ->
  let d := norm numF (map (row numF (TriangularLattice numF) [i; j]) (upto 2)) in fin d /\ grow 5 (RR d) (sqrt (IZR (hex_square [i; j]))).
Proof.
  intros Hi Hj. unfold norm, row. change (b_dim (TriangularLattice numF)) with 2. change (upto 2) with [0; 1]. cbn [map fold_left].
  unfold entry, TriangularLattice. cbn [numF n_add n_mul n_ofZ n_sqrt n_div b_p b_dim].
  change (Z.to_nat (0 + 0 * 2)) with 0%nat. change (Z.to_nat (1 + 0 * 2)) with 1%nat. change (Z.to_nat (0 + 1 * 2)) with 2%nat. change (Z.to_nat (1 + 1 * 2)) with 3%nat.
  change (Z.to_nat 0) with 0%nat. change (Z.to_nat 1) with 1%nat. cbn [nth].
  destruct half_sqrt3 as (Fs & Gs & Bs). set (s := fdiv (fsqrt (of_Z 3)) (of_Z 2)) in *. clearbody s.
  assert (Eh : fdiv (of_Z 1) (of_Z 2) = fhalf) by (apply B2SF_inj; vm_compute; reflexivity). rewrite Eh. destruct RR_half as [Rh Fh].
  destruct (of_Z_exact i) as [Ei Fi]; [lia|]. destruct (of_Z_exact j) as [Ej Fj]; [lia|].
  destruct (of_Z_exact 0) as [E0 F0]; [cbn; lia|]. destruct (of_Z_exact 1) as [E1 F1]; [cbn; lia|].
  assert (Ri : (Rabs (IZR i) <= 2251799813685248)%R) by (rewrite <- abs_IZR; apply IZR_le; lia).
  assert (Rj : (Rabs (IZR j) <= 2251799813685248)%R) by (rewrite <- abs_IZR; apply IZR_le; lia).
  assert (Big : (10000000000000000000000000000000000000000 <= 2 ^ 150)%R) by (rewrite pow_IZR; apply IZR_le; apply Z.leb_le; vm_compute; reflexivity).
  (* first component *)
  destruct (fmul_Z (of_Z i) (of_Z 1) i 1 Fi F1 Ei E1) as [Fa Ea]; [lia|].
  destruct (fadd_Z (of_Z 0) (fmul (of_Z i) (of_Z 1)) 0 (i * 1) F0 Fa E0 Ea) as [Fb Eb]; [lia|].
  replace (0 + i * 1) with i in Eb by lia. set (A := fadd (of_Z 0) (fmul (of_Z i) (of_Z 1))) in *. clearbody A.
  assert (Hf : forall z, Z.abs z <= 2 ^ 53 -> rnd (IZR z / 2) = (IZR z / 2)%R).
  { intros z Hz. apply rnd_fmt. replace (IZR z / 2)%R with (F2R (Float radix2 z (-1))) by (unfold F2R; cbn; lra). apply fmt_F2R; [exact Hz|lia]. }
  destruct (fmul_ok (of_Z j) fhalf Fj Fh) as [Ec Fc].
  { rewrite Ej, Rh. apply no_over. rewrite Rabs_mult, (Rabs_pos_eq (/ 2)) by lra. lra. }
  rewrite Ej, Rh in Ec. change (IZR j * / 2)%R with (IZR j / 2)%R in Ec. rewrite Hf in Ec by lia.
  set (C := fmul (of_Z j) fhalf) in *. clearbody C.
  assert (Sx : (IZR i + IZR j / 2 = IZR (2 * i + j) / 2)%R) by (rewrite plus_IZR, mult_IZR; field).
  assert (Rx : (Rabs (IZR (2 * i + j) / 2) <= 100000000000000000)%R).
  { rewrite <- Sx. eapply Rle_trans; [apply Rabs_triang|]. unfold Rdiv. rewrite (Rabs_mult (IZR j)), (Rabs_pos_eq (/ 2)) by lra. lra. }
  destruct (fadd_ok A C Fb Fc) as [Ex Fx]; [rewrite Eb, Ec, Sx; apply no_over; lra|].
  rewrite Eb, Ec, Sx, Hf in Ex by lia. set (X := fadd A C) in *. clearbody X. clear A C Eb Ec Fb Fc.
  (* second component *)
  destruct (fmul_Z (of_Z i) (of_Z 0) i 0 Fi F0 Ei E0) as [Fa' Ea']; [lia|].
  destruct (fadd_Z (of_Z 0) (fmul (of_Z i) (of_Z 0)) 0 (i * 0) F0 Fa' E0 Ea') as [Fb Eb]; [lia|].
  replace (0 + i * 0) with 0 in Eb by lia. set (A := fadd (of_Z 0) (fmul (of_Z i) (of_Z 0))) in *. clearbody A.
  assert (Rjs : (Rabs (IZR j * RR s) <= 2251799813685248)%R).
  { rewrite Rabs_mult, (Rabs_pos_eq (RR s)) by lra. pose proof (Rabs_pos (IZR j)). nra. }
  destruct (fmul_ok (of_Z j) s Fj Fs) as [Ec Fc]; [rewrite Ej; apply no_over; lra|]. rewrite Ej in Ec.
  destruct (fadd_ok A (fmul (of_Z j) s) Fb Fc) as [Ey Fy]; [rewrite Eb, Ec, Rplus_0_l, (rnd_fmt (rnd _) (fmt_rnd _)); apply no_over; lra|].
  rewrite Eb, Ec, Rplus_0_l, (rnd_fmt (rnd _) (fmt_rnd _)) in Ey. set (Y := fadd A (fmul (of_Z j) s)) in *. clearbody Y. clear A Eb Ec Fb Fc.
  pose proof (small_le (-1022) ltac:(lia)) as B1022. pose proof uro_pos. pose proof uro_small.
  assert (GY : grow 3 (Rabs (RR Y)) (Rabs (IZR j) * (sqrt 3 / 2))).
  { rewrite Ey, <- rnd_abs. apply grow_rnd.
    - apply Rmult_le_pos; [apply Rabs_pos|]. pose proof (sqrt_pos 3). lra.
    - rewrite Rabs_mult, (Rabs_pos_eq (RR s)) by lra. apply (grow_mul 0 2); [apply Rabs_pos|pose proof (sqrt_pos 3); lra|apply grow_refl|exact Gs].
    - destruct (Z.eq_dec j 0) as [->|Nz]; [right; rewrite Rmult_0_l; apply Rabs_R0|left].
      rewrite Rabs_mult, (Rabs_pos_eq (RR s)), <- abs_IZR by lra. assert (1 <= IZR (Z.abs j))%R by (apply IZR_le; lia). nra. }
  assert (RY : (Rabs (RR Y) <= 100000000000000000)%R).
  { destruct GY as [_ GY]. eapply Rle_trans; [exact GY|]. cbn [pow].
    assert (sqrt 3 <= 2)%R by (rewrite <- (sqrt_square 2) by lra; apply sqrt_le_1_alt; lra). pose proof (sqrt_pos 3). pose proof (Rabs_pos (IZR j)).
    assert (Rabs (IZR j) * (sqrt 3 / 2) <= 2251799813685248)%R by nra. assert (0 <= Rabs (IZR j) * (sqrt 3 / 2))%R by nra.
    assert ((1 + uro) * ((1 + uro) * ((1 + uro) * 1)) <= 2)%R by nra. nra. }
  assert (YZ : RR Y = 0%R \/ (/ 4 <= Rabs (RR Y))%R).
  { destruct (Z.eq_dec j 0) as [->|Nz].
    - left. rewrite Ey, Rmult_0_l. apply rnd_0.
    - right. destruct GY as [GY _]. eapply Rle_trans; [|exact GY]. cbn [pow].
      assert (1 <= sqrt 3)%R by (rewrite <- sqrt_1 at 1; apply sqrt_le_1_alt; lra).
      assert (1 <= Rabs (IZR j))%R by (rewrite <- abs_IZR; apply IZR_le; lia). assert (/ 2 <= Rabs (IZR j) * (sqrt 3 / 2))%R by nra.
      assert (/ 2 <= (1 - uro) * ((1 - uro) * ((1 - uro) * 1)))%R by nra. nra. }
  (* squares *)
  assert (Sq : forall t, Rabs (t * t) = (Rabs t * Rabs t)%R) by (intros; apply Rabs_mult).
  assert (SqP : forall t, (0 <= t * t)%R) by (intros; apply Rle_0_sqr).
  destruct (fmul_ok X X Fx Fx) as [Exx Fxx]; [apply no_over; rewrite Sq, Ex; pose proof (Rabs_pos (IZR (2 * i + j) / 2)); nra|].
  destruct (fmul_ok Y Y Fy Fy) as [Eyy Fyy]; [apply no_over; rewrite Sq; pose proof (Rabs_pos (RR Y)); nra|].
  set (XX := fmul X X) in *. set (YY := fmul Y Y) in *. clearbody XX YY.
  assert (GX : grow 1 (RR XX) (IZR (2 * i + j) / 2 * (IZR (2 * i + j) / 2))).
  { rewrite Exx, Ex. apply grow_rnd; [apply SqP|apply grow_refl|]. destruct (IZR_half_zero (2 * i + j)) as [->|Hh]; [right; lra|left].
    rewrite <- (Rabs_pos_eq (_ * _)) by apply SqP. rewrite Sq. nra. }
  assert (GYY : grow 7 (RR YY) (Rabs (IZR j) * (sqrt 3 / 2) * (Rabs (IZR j) * (sqrt 3 / 2)))).
  { rewrite Eyy. apply grow_rnd.
    - apply SqP.
    - replace (RR Y * RR Y)%R with (Rabs (RR Y) * Rabs (RR Y))%R by (rewrite <- Sq; apply Rabs_pos_eq, SqP).
      apply (grow_mul 3 3); try assumption; (apply Rmult_le_pos; [apply Rabs_pos|pose proof (sqrt_pos 3); lra]).
    - destruct YZ as [->|Hh]; [right; lra|left].
      apply Rle_trans with (bpow radix2 (-4)); [apply bpow_le; lia|]. replace (bpow radix2 (-4)) with (/ 16)%R by (cbn; lra).
      replace (RR Y * RR Y)%R with (Rabs (RR Y) * Rabs (RR Y))%R by (rewrite <- Sq; apply Rabs_pos_eq, SqP). nra. }
  assert (Q : (IZR (2 * i + j) / 2 * (IZR (2 * i + j) / 2) + Rabs (IZR j) * (sqrt 3 / 2) * (Rabs (IZR j) * (sqrt 3 / 2)) = IZR (hex_square [i; j]))%R).
  { unfold hex_square. assert (S3 : (sqrt 3 * sqrt 3 = 3)%R) by (apply sqrt_sqrt; lra).
    replace (Rabs (IZR j) * (sqrt 3 / 2) * (Rabs (IZR j) * (sqrt 3 / 2)))%R with (Rabs (IZR j) * Rabs (IZR j) * (sqrt 3 * sqrt 3) / 4)%R by field.
    rewrite S3, <- Sq, Rabs_pos_eq by apply SqP. rewrite !plus_IZR, !mult_IZR. field. }
  assert (PX : (0 <= RR XX)%R) by (destruct GX as [GX _]; eapply Rle_trans; [|exact GX]; apply Rmult_le_pos; [destruct (pw 1); lra|apply SqP]).
  assert (PY : (0 <= RR YY)%R) by (destruct GYY as [GYY' _]; eapply Rle_trans; [|exact GYY']; apply Rmult_le_pos; [destruct (pw 7); lra|apply SqP]).
  assert (UX : (RR XX <= 100000000000000000000000000000000000)%R).
  { destruct GX as [_ GX']. eapply Rle_trans; [exact GX'|]. cbn [pow]. rewrite <- (Rabs_pos_eq (_ / 2 * _)) by apply SqP. rewrite Sq.
    pose proof (Rabs_pos (IZR (2 * i + j) / 2)). nra. }
  assert (UY : (RR YY <= 100000000000000000000000000000000000)%R).
  { rewrite Eyy. apply Rle_trans with (rnd 10000000000000000000000000000000000); [apply rnd_le; rewrite <- (Rabs_pos_eq (_ * _)) by apply SqP; rewrite Sq; pose proof (Rabs_pos (RR Y)); nra|].
    pose proof (rnd_rel 10000000000000000000000000000000000) as Rr. rewrite Rabs_pos_eq in Rr by lra. specialize (Rr ltac:(lra)). apply Rabs_le_inv in Rr. lra. }
  (* 0 + x^2 *)
  destruct (fadd_ok (of_Z 0) XX F0 Fxx) as [Ed Fd]; [rewrite E0, Rplus_0_l; apply no_over; rewrite Rabs_pos_eq; lra|].
  rewrite E0, Rplus_0_l, (rnd_fmt (RR XX)) in Ed by apply fmt_RR. set (D0 := fadd (of_Z 0) XX) in *. clearbody D0.
  destruct (fadd_ok D0 YY Fd Fyy) as [Ee Fe]; [rewrite Ed; apply no_over; rewrite Rabs_pos_eq; lra|]. rewrite Ed in Ee.
  set (D1 := fadd D0 YY) in *. clearbody D1.
  assert (GD : grow 8 (RR D1) (IZR (hex_square [i; j]))).
  { rewrite Ee. apply grow_rnd; [rewrite <- Q; pose proof (SqP (IZR (2 * i + j) / 2)%R); pose proof (SqP (Rabs (IZR j) * (sqrt 3 / 2))%R); lra| |].
    - rewrite <- Q. apply grow_add; [|exact GYY]. apply (grow_weak 1); [lia|apply SqP|exact GX].
    - assert (K : forall a b n m z w, (0 <= a)%R -> (0 <= b)%R -> grow n a z -> grow m b w -> (z = 0 \/ / 16 <= z)%R -> (w = 0 \/ / 16 <= w)%R -> (n <= 7)%nat -> (m <= 7)%nat ->
        (bpow radix2 (-1022) <= a + b \/ a + b = 0)%R).
      { clear - B1022. pose proof uro_pos. pose proof uro_small.
        assert (Sm : (bpow radix2 (-1022) <= / 64)%R).
        { apply Rle_trans with (bpow radix2 (-6)); [apply bpow_le; lia|]. cbn. lra. }
        assert (Pn : forall n, (n <= 7)%nat -> (/ 2 <= (1 - uro) ^ n)%R).
        { intros n Hn. do 8 (destruct n as [|n]; [cbn [pow]; nra|]). lia. }
        intros a b n m z w Ha Hb [A1 A2] [B1 B2] Hz Hw Hn Hm. pose proof (Pn n Hn) as P1. pose proof (Pn m Hm) as P2.
        destruct Hz as [->|Hz]; [|left; nra]. destruct Hw as [->|Hw]; [|left; nra]. right. lra. }
      apply (K (RR XX) (RR YY) 1%nat 7%nat _ _ PX PY GX GYY); [| |lia|lia].
      + destruct (IZR_half_zero (2 * i + j)) as [->|Hh]; [left; lra|right]. rewrite <- (Rabs_pos_eq (_ * _)) by apply SqP. rewrite Sq. nra.
      + destruct (Z.eq_dec j 0) as [->|Nz]; [left; rewrite Rabs_R0; lra|right].
        assert (1 <= sqrt 3)%R by (rewrite <- sqrt_1 at 1; apply sqrt_le_1_alt; lra).
        assert (1 <= Rabs (IZR j))%R by (rewrite <- abs_IZR; apply IZR_le; lia). assert (/ 2 <= Rabs (IZR j) * (sqrt 3 / 2))%R by nra. nra. }
  assert (Hq0 : (0 <= IZR (hex_square [i; j]))%R) by (apply IZR_le, hex_square_pos).
  assert (PD : (0 <= RR D1)%R) by (destruct GD as [GD' _]; eapply Rle_trans; [|exact GD']; apply Rmult_le_pos; [destruct (pw 8); lra|exact Hq0]).
  destruct (fsqrt_ok D1 Fe PD) as [Er Fr]. split; [exact Fr|]. rewrite Er. apply grow_rnd; [apply sqrt_pos|now apply grow_sqrt|].
  destruct (Z.eq_dec (hex_square [i; j]) 0) as [Z0|Nz].
  - right. rewrite Z0 in GD. destruct GD as [G1 G2]. replace (RR D1) with 0%R by lra. apply sqrt_0.
  - left. apply Rle_trans with (/ 2)%R; [lra|]. rewrite <- (sqrt_square (/ 2)) by lra. apply sqrt_le_1_alt.
    destruct GD as [G1 _]. eapply Rle_trans; [|exact G1]. assert (1 <= IZR (hex_square [i; j]))%R by (apply IZR_le; pose proof (hex_square_pos i j); lia).
    assert (P8 : (/ 4 <= (1 - uro) ^ 8)%R) by (cbn [pow]; assert (/ 2 <= (1 - uro) * ((1 - uro) * ((1 - uro) * (1 - uro))))%R by nra; nra). nra.
Qed.

Lemma hex_square_two i j : hex_square [i; j] <> 2.
Proof.
  unfold hex_square. intros E. assert (-1 <= j <= 1) by nia. assert (-1 <= i <= 1) by nia.
  assert (i = -1 \/ i = 0 \/ i = 1) as [->|[->| ->]] by lia; assert (j = -1 \/ j = 0 \/ j = 1) as [->|[->| ->]] by lia; discriminate E.
Qed.

Lemma tri_distance_double a b : vsize a = 2 -> vsize b = 2 -> Forall (fun z => Z.abs z <= 2 ^ 51) (zip_with Z.sub b a) ->
  exists x, BGetDistance numF (TriangularLattice numF) a b = Ok x /\ fin x /\
  ((1 - uro) ^ 5 * sqrt (IZR (hex_square (zip_with Z.sub b a))) <= RR x <= (1 + uro) ^ 5 * sqrt (IZR (hex_square (zip_with Z.sub b a))))%R /\
  ((/ 2 < RR x < 3 / 2)%R <-> In b (around (TriangularLattice numF) a)).
Proof.
  intros Ha Hb F. assert (D : diff_ok a b) by (unfold diff_ok; eapply Forall_impl; [|exact F]; intros z Hz; unfold in_long; cbn in Hz |- *; lia).
  destruct (distance_pure numF (TriangularLattice numF) a b (triangular_wf numF) Ha Hb D) as (_ & L & _).
  change (b_dim (TriangularLattice numF)) with 2 in L. rewrite diff_zip in L by assumption.
  destruct (two_list a Ha) as (x & x' & ->). destruct (two_list b Hb) as (y & y' & ->).
  cbn [zip_with] in *. inversion F as [|? ? F1 F']; subst. inversion F' as [|? ? F2 _]; subst.
  destruct (tri_double (y - x) (y' - x') F1 F2) as [Fd Gd]. eexists. split; [exact L|]. split; [exact Fd|]. split; [exact Gd|].
  rewrite in_around.
  - cbn [zip_with]. rewrite <- hex_square_one. set (q := hex_square [y - x; y' - x']) in *. pose proof (hex_square_pos (y - x) (y' - x')) as P. pose proof (hex_square_two (y - x) (y' - x')) as N2. fold q in P, N2. clearbody q.
    destruct Gd as [G1 G2]. set (d := RR _) in *. clearbody d. pose proof uro_pos as U0. pose proof uro_small as U1.
    assert (A : (0.9 <= (1 - uro) ^ 5)%R) by (cbn [pow]; nra). assert (B : ((1 + uro) ^ 5 <= 1.1)%R) by (cbn [pow]; nra).
    set (l := ((1 - uro) ^ 5)%R) in *. set (h := ((1 + uro) ^ 5)%R) in *. clearbody l h. split.
    + intros [H1 H2]. assert (q = 0 \/ q = 1 \/ q = 2 \/ 3 <= q) as [->|[->|[->|Q]]] by lia; [rewrite sqrt_0 in *; lra|reflexivity| |].
      * now elim N2.
      * exfalso. assert (1.7 <= sqrt (IZR q))%R.
        { apply Rle_trans with (sqrt (IZR 3)); [|now apply sqrt_IZR_le]. rewrite <- (sqrt_square 1.7) by lra. apply sqrt_le_1_alt. lra. }
        nra.
    + intros ->. rewrite sqrt_1 in *. lra.
  - intros d Hd. rewrite triangular_steps in Hd. repeat (destruct Hd as [<-|Hd]; [reflexivity|]). destruct Hd.
  - reflexivity.
Qed.
