(** Lemmas about the accuracy of positions and distances. *)
From Coq Require Import ZArith Reals List Bool Lia Lra Psatz.
From Flocq Require Import Core.Core IEEE754.BinarySingleNaN.
From Verif Require Import Base F64 Num S_Math S_Accum S_Grid S_Bravais S_Lattice S_Norm M_Pairs M_Grid M_Bravais M_Lattice
  L_Grid L_MathF L_Bravais L_Lattice L_LatticeK L_Norm L_Space L_Sk L_Pi L_Mom S_BravaisAcc.
Import ListNotations.
Open Scope R_scope.

Lemma fold_add_map {A} (f : A -> f64) l : forall s, fold_left (fun p a => fadd p (f a)) l s = fold_left fadd (map f l) s.
Proof. induction l as [|a l IH]; intros s; [reflexivity|]. cbn [map fold_left]. apply IH. Qed.

Lemma sumR_le {A} (f g : A -> R) l : (forall a, In a l -> f a <= g a) -> sumR (map f l) <= sumR (map g l).
Proof.
  induction l as [|a l IH]; intros H; cbn [map]; [lra|]. rewrite !sumR_cons.
  pose proof (H a (or_introl eq_refl)). pose proof (IH (fun a Ha => H a (or_intror Ha))). lra.
Qed.

Lemma sumR_const {A} (k : R) (l : list A) : sumR (map (fun _ => k) l) = INR (length l) * k.
Proof. induction l as [|a l IH]; cbn [map length]; [unfold sumR; cbn; ring|]. rewrite sumR_cons, IH, S_INR. ring. Qed.

Lemma sumR_scale {A} (k : R) (f : A -> R) l : sumR (map (fun a => k * f a) l) = k * sumR (map f l).
Proof. induction l as [|a l IH]; cbn [map]; [unfold sumR; cbn; ring|]. rewrite !sumR_cons, IH. ring. Qed.

Lemma sumR_plus {A} (f g : A -> R) l : sumR (map (fun a => f a + g a) l) = sumR (map f l) + sumR (map g l).
Proof. induction l as [|a l IH]; cbn [map]; [unfold sumR; cbn; ring|]. rewrite !sumR_cons, IH. ring. Qed.

Lemma sumR_pos {A} (f : A -> R) l : (forall a, In a l -> 0 <= f a) -> 0 <= sumR (map f l).
Proof. intros H. apply Rle_trans with (sumR (map (fun _ => 0) l)); [rewrite sumR_const; lra|]. apply sumR_le. exact H. Qed.

(** A product of a number known to k roundings with a moderate entry. *)
Lemma entry_term (x v : f64) (y k : R) : fin x -> fin v -> moderate (RR v) ->
  0 <= k <= 10 -> Rabs (RR x - y) <= k * uro * Rabs y -> (y = 0 \/ 1 <= Rabs y <= bpow radix2 60) ->
  fin (fmul x v) /\ Rabs (RR (fmul x v) - y * RR v) <= ((k + 1) + 11 * uro) * uro * (Rabs y * Rabs (RR v)).
Proof.
  intros Fx Fv Mv Hk Hx Hy. pose proof uro_pos as U0. pose proof uro_small as U1.
  pose proof (Rabs_pos y) as Y0. pose proof (Rabs_pos (RR v)) as V0.
  assert (Xb : Rabs (RR x) <= (1 + k * uro) * Rabs y).
  { pose proof (Rabs_triang_inv (RR x) y). lra. }
  assert (Xl : (1 - k * uro) * Rabs y <= Rabs (RR x)).
  { pose proof (Rabs_triang_inv y (RR x)) as T. rewrite Rabs_minus_sym in T. lra. }
  assert (Ku : 0 <= k * uro <= / 1000) by nra.
  assert (Vb : Rabs (RR v) <= bpow radix2 300).
  { destruct Mv as [->|[_ M]]; [rewrite Rabs_R0; apply bpow_ge_0|exact M]. }
  assert (Yb : Rabs y <= bpow radix2 60) by (destruct Hy as [->|[_ M]]; [rewrite Rabs_R0; apply bpow_ge_0|exact M]).
  destruct (fmul_ok x v Fx Fv) as [E F].
  { apply (no_overflow _ 500); [lia|]. rewrite Rabs_mult. change 500%Z with (1 + 60 + 300 + 139)%Z. rewrite !bpow_plus. change (bpow radix2 1) with 2.
    assert (A1 : 1 <= bpow radix2 139) by (change 1 with (bpow radix2 0); apply bpow_le; lia).
    pose proof (bpow_gt_0 radix2 60). pose proof (bpow_gt_0 radix2 300).
    apply Rle_trans with (2 * bpow radix2 60 * bpow radix2 300);
      [|rewrite <- (Rmult_1_r (2 * bpow radix2 60 * bpow radix2 300)) at 1; apply Rmult_le_compat_l; [apply Rmult_le_pos; lra|exact A1]].
    apply Rmult_le_compat; try apply Rabs_pos; [|exact Vb]. apply Rle_trans with (1 := Xb). apply Rmult_le_compat; lra. }
  split; [exact F|]. rewrite E. set (p := RR x * RR v) in *.
  assert (Pe : Rabs (p - y * RR v) <= k * uro * (Rabs y * Rabs (RR v))).
  { unfold p. rewrite <- Rmult_minus_distr_r, Rabs_mult. rewrite <- Rmult_assoc. apply Rmult_le_compat_r; assumption. }
  assert (Pa : Rabs p = Rabs (RR x) * Rabs (RR v)) by apply Rabs_mult.
  assert (Pr : Rabs (rnd p - p) <= uro * Rabs p).
  { destruct Hy as [Z|[Y1 _]].
    - assert (X0 : Rabs (RR x) <= 0) by (rewrite Z, Rabs_R0 in Xb; lra). assert (P0 : p = 0).
      { unfold p. replace (RR x) with 0; [ring|]. symmetry. pose proof (Rabs_pos (RR x)). destruct (Req_dec (RR x) 0) as [Q|Q]; [exact Q|]. apply Rabs_pos_lt in Q. lra. }
      rewrite P0, rnd_0, Rminus_0_r, Rabs_R0. lra.
    - destruct Mv as [Z|[V1 _]].
      + assert (P0 : p = 0) by (unfold p; rewrite Z; ring). rewrite P0, rnd_0, Rminus_0_r, Rabs_R0. lra.
      + apply rnd_rel. rewrite Pa. apply Rle_trans with (bpow radix2 (-1) * bpow radix2 (-300)).
        * rewrite <- bpow_plus. apply bpow_le. lia.
        * apply Rmult_le_compat; try apply bpow_ge_0; [|exact V1]. change (bpow radix2 (-1)) with (/ 2). nra. }
  replace (rnd p - y * RR v) with ((rnd p - p) + (p - y * RR v)) by ring. eapply Rle_trans; [apply Rabs_triang|].
  set (w := Rabs y * Rabs (RR v)) in *. assert (W0 : 0 <= w) by (unfold w; now apply Rmult_le_pos).
  assert (Pw : Rabs p <= (1 + k * uro) * w) by (rewrite Pa; unfold w; rewrite <- Rmult_assoc; now apply Rmult_le_compat_r).
  apply Rle_trans with (uro * ((1 + k * uro) * w) + k * uro * w); [apply Rplus_le_compat; [apply Rle_trans with (1 := Pr); apply Rmult_le_compat_l; [lra|exact Pw]|exact Pe]|].
  assert (0 <= uro * uro * w) by (apply Rmult_le_pos; [apply Rmult_le_pos|]; lra). nra.
Qed.

Lemma moderate_entry m d i j : moderate_matrix m -> fin (entry f0 m d i j) /\ moderate (RR (entry f0 m d i j)).
Proof.
  intros M. unfold entry. destruct (Nat.lt_ge_cases (Z.to_nat (i + j * d)) (length m)) as [L|L].
  - unfold moderate_matrix in M. rewrite Forall_forall in M. apply M, nth_In, L.
  - rewrite nth_overflow by exact L. split; [apply fin_f0|left; apply RR_f0].
Qed.

(** One component: coefficients known to k roundings. *)
Lemma component_err (m : list f64) (d i : Z) (x : Z -> f64) (c : list R) (k : R) : (0 <= d <= 2 ^ 20)%Z -> moderate_matrix m ->
  0 <= k <= 10 -> (forall j, (0 <= j < d)%Z -> fin (x j) /\ Rabs (RR (x j) - nth (Z.to_nat j) c 0) <= k * uro * Rabs (nth (Z.to_nat j) c 0) /\
    (nth (Z.to_nat j) c 0 = 0 \/ 1 <= Rabs (nth (Z.to_nat j) c 0) <= bpow radix2 60)) ->
  let r := fold_left (fun p j => fadd p (fmul (x j) (entry f0 m d i j))) (upto d) f0 in
  fin r /\ Rabs (RR r - exact_component m d c i) <= (k + 2 + IZR d) * uro * unsigned_component m d c i.
Proof.
  intros Hd M Hk Hx r. pose proof uro_pos as U0. pose proof uro_small as U1. pose proof uro_val as Uv.
  set (e := (k + 1 + 11 * uro) * uro).
  assert (E0 : 0 <= e <= / 1000) by (unfold e; nra).
  destruct (dsum_err (upto d) (fun j => fmul (x j) (entry f0 m d i j)) (fun j => nth (Z.to_nat j) c 0 * RR (entry f0 m d i j))
    (fun j => Rabs (nth (Z.to_nat j) c 0) * Rabs (RR (entry f0 m d i j))) e) as [F E].
  - rewrite upto_length. lia.
  - lra.
  - intros j Hj. apply upto_In in Hj. destruct (Hx j Hj) as (F & X & Y). destruct (moderate_entry m d i j M) as [Fv Mv].
    destruct (entry_term _ _ _ k F Fv Mv Hk X Y) as [Fm Em]. split; [exact Fm|]. split; [exact Em|]. rewrite Rabs_mult. lra.
  - apply Rle_trans with (INR (length (upto d)) * (bpow radix2 60 * bpow radix2 300)).
    + rewrite <- (sumR_const (bpow radix2 60 * bpow radix2 300) (upto d)). apply sumR_le. intros j Hj. apply upto_In in Hj.
      destruct (Hx j Hj) as (_ & _ & Y). destruct (moderate_entry m d i j M) as [_ Mv].
      apply Rmult_le_compat; try apply Rabs_pos.
      * destruct Y as [->|[_ Y2]]; [rewrite Rabs_R0; apply bpow_ge_0|exact Y2].
      * destruct Mv as [->|[_ Y2]]; [rewrite Rabs_R0; apply bpow_ge_0|exact Y2].
    + rewrite upto_length, INR_IZR_INZ, Z2Nat.id by lia. rewrite <- bpow_plus.
      apply Rle_trans with (bpow radix2 20 * bpow radix2 (60 + 300)).
      * apply Rmult_le_compat_r; [apply bpow_ge_0|]. change (bpow radix2 20) with (IZR (2 ^ 20)). apply IZR_le. lia.
      * rewrite <- bpow_plus. apply bpow_le. lia.
  - rewrite <- fold_add_map in F, E. fold r in F, E. split; [exact F|].
    unfold exact_component, unsigned_component, sum_upto. apply Rle_trans with (1 := E).
    set (w := sumR (map (fun j => Rabs (nth (Z.to_nat j) c 0) * Rabs (RR (entry f0 m d i j))) (upto d))).
    assert (W0 : 0 <= w) by (apply sumR_pos; intros; apply Rmult_le_pos; apply Rabs_pos).
    apply Rmult_le_compat_r; [exact W0|]. rewrite upto_length, INR_IZR_INZ, Z2Nat.id by lia.
    assert (D0 : 0 <= IZR d <= 1048576) by (split; [apply (IZR_le 0)|apply (IZR_le d 1048576)]; lia).
    assert (Eu : e <= 12 * uro) by (unfold e; nra). assert (uro * 9007199254740992 = 1) by (rewrite Uv; change (IZR (2 ^ 53)) with 9007199254740992; lra).
    unfold e in *. assert ((IZR d + / 2) * ((k + 1 + 11 * uro) * uro) <= / 10000) by nra.
    assert (11 * uro <= / 10000) by lra. nra.
Qed.

(** * Lengths *)
Lemma sumsq_sum v : sumsq v = sumR (map (fun x => x * x) v).
Proof. induction v as [|x v IH]; cbn [map]; [reflexivity|]. rewrite sumR_cons, <- IH. reflexivity. Qed.

Lemma sqrt_close a b t e : 0 <= a -> 0 <= b -> 0 <= t -> 0 <= e <= 1 -> Rabs (a - b) <= e * (b + t) ->
  Rabs (sqrt a - sqrt b) <= e * sqrt b + 2 * sqrt t.
Proof.
  intros Ha Hb Ht He H. apply Rabs_le_inv in H.
  assert (T : forall u v, 0 <= u -> 0 <= v -> sqrt (u + v) <= sqrt u + sqrt v).
  { intros u v Hu Hv. apply Rsqr_incr_0_var; [|pose proof (sqrt_pos u); pose proof (sqrt_pos v); lra].
    unfold Rsqr. rewrite sqrt_sqrt by lra. pose proof (sqrt_sqrt u Hu). pose proof (sqrt_sqrt v Hv).
    pose proof (Rmult_le_pos _ _ (sqrt_pos u) (sqrt_pos v)). nra. }
  pose proof (sqrt_pos a). pose proof (sqrt_pos b). pose proof (sqrt_pos t).
  assert (M : forall k u, 0 <= k -> 0 <= u -> k * k * u <= a + t -> k * sqrt u <= sqrt a + sqrt t).
  { intros k u Hk Hu Q. apply Rle_trans with (sqrt (a + t)); [|now apply T].
    replace (k * sqrt u) with (sqrt (k * k * u)); [now apply sqrt_le_1_alt|].
    rewrite sqrt_mult_alt by nra. rewrite sqrt_square by exact Hk. reflexivity. }
  apply Rabs_le. split.
  - pose proof (M (1 - e) b ltac:(lra) Hb ltac:(nra)). lra.
  - assert (U : sqrt a <= (1 + e / 2) * sqrt (b + t)).
    { replace ((1 + e / 2) * sqrt (b + t)) with (sqrt ((1 + e / 2) * (1 + e / 2) * (b + t))).
      - apply sqrt_le_1_alt. nra.
      - rewrite sqrt_mult_alt by nra. rewrite sqrt_square by lra. reflexivity. }
    pose proof (T b t Hb Ht). nra.
Qed.

Lemma norm_err (x : list f64) : (Z.of_nat (length x) <= 2 ^ 20)%Z -> Forall (fun a => fin a /\ Rabs (RR a) <= bpow radix2 430) x ->
  let D := norm numF x in let E := euclid (map RR x) in
  fin D /\ Rabs (RR D - E) <= (INR (length x) + 3) * uro * E + bpow radix2 (-499).
Proof.
  intros Hn Fx D E. pose proof uro_pos as U0. pose proof uro_small as U1. pose proof uro_val as Uv.
  set (n := INR (length x)). set (t0 := bpow radix2 (-1022)).
  assert (N0 : 0 <= n <= 1048576) by (split; [apply pos_INR|unfold n; rewrite INR_IZR_INZ; apply (IZR_le _ (2 ^ 20)); exact Hn]).
  assert (Uz : uro * 9007199254740992 = 1) by (rewrite Uv; change (IZR (2 ^ 53)) with 9007199254740992; lra).
  assert (T0 : 0 < t0) by apply bpow_gt_0.
  assert (T1 : t0 <= 1) by (change 1 with (bpow radix2 0); apply bpow_le; lia).
  destruct (dsum_err x (fun a => fmul a a) (fun a => RR a * RR a) (fun a => RR a * RR a + t0) uro) as [F Er].
  - lia.
  - lra.
  - intros a Ha. rewrite Forall_forall in Fx. destruct (Fx a Ha) as [Fa Ba].
    assert (Sq : 0 <= RR a * RR a) by nra.
    destruct (fmul_ok a a Fa Fa) as [Em Fm].
    + apply (no_overflow _ 860); [lia|]. change 860%Z with (430 + 430)%Z. rewrite Rabs_mult, bpow_plus.
      apply Rmult_le_compat; try apply Rabs_pos; assumption.
    + split; [exact Fm|]. rewrite Em. split; [|rewrite Rabs_pos_eq by exact Sq; lra].
      apply Rle_trans with (1 := rnd_err _). rewrite Rabs_pos_eq by exact Sq. rewrite Rmult_plus_distr_l. apply Rplus_le_compat_l.
      unfold eta, uro, t0. rewrite <- bpow_plus. apply bpow_le. lia.
  - rewrite sumR_plus, sumR_const. fold n.
    assert (Sb : sumR (map (fun a => RR a * RR a) x) <= n * bpow radix2 860).
    { unfold n. rewrite <- sumR_const. apply sumR_le. intros a Ha. rewrite Forall_forall in Fx. destruct (Fx a Ha) as [_ Ba].
      change 860%Z with (430 + 430)%Z. rewrite bpow_plus. rewrite <- (Rabs_pos_eq (RR a * RR a)) by nra. rewrite Rabs_mult.
      apply Rmult_le_compat; try apply Rabs_pos; assumption. }
    assert (1 <= bpow radix2 860) by (change 1 with (bpow radix2 0); apply bpow_le; lia).
    change 900%Z with (40 + 860)%Z. rewrite bpow_plus. change (bpow radix2 40) with (IZR (2 ^ 40)). change (IZR (2 ^ 40)) with 1099511627776. nra.
  - rewrite sumR_plus, sumR_const in Er. fold n in Er. rewrite <- fold_add_map in F, Er.
    set (s := fold_left (fun p a => fadd p (fmul a a)) x f0) in *.
    assert (Es : sumR (map (fun a => RR a * RR a) x) = sumsq (map RR x)) by (rewrite sumsq_sum, map_map; reflexivity).
    rewrite Es in Er. set (X := sumsq (map RR x)) in *. assert (X0 : 0 <= X) by apply sumsq_pos.
    assert (S0 : 0 <= RR s).
    { clear -F. unfold s in *. clear s. assert (G : forall l s, 0 <= RR s -> fin (fold_left (fun p a => fadd p (fmul a a)) l s) ->
        0 <= RR (fold_left (fun p a => fadd p (fmul a a)) l s)).
      { induction l as [|a l IH]; intros s Ps Ff; cbn [fold_left] in *; [exact Ps|]. apply IH; [|exact Ff].
        destruct (fold_squares_fin l _ Ff) as [Fa _]. destruct (fadd_inv _ _ Fa) as (_ & Fm & Ra). destruct (fmul_inv _ _ Fm) as (_ & _ & Rm).
        rewrite Ra. apply rnd_pos. rewrite Rm. pose proof (rnd_pos (RR a * RR a) ltac:(nra)). lra. }
      apply G; [rewrite RR_f0; lra|exact F]. }
    destruct (fsqrt_ok s F S0) as [Ed Fd]. change D with (fsqrt s). split; [exact Fd|]. rewrite Ed.
    set (e := (n + 7 / 4) * uro).
    assert (Ee : uro + (n + / 2) * (1 + uro) * uro <= e).
    { unfold e. assert ((n + / 2) * uro <= / 10000) by nra. nra. }
    assert (E0 : 0 <= e <= / 10000) by (unfold e; nra).
    assert (C : Rabs (RR s - X) <= e * (X + n * t0)).
    { apply Rle_trans with (1 := Er). apply Rmult_le_compat_r; [|exact Ee]. pose proof (Rmult_le_pos n t0 ltac:(lra) ltac:(lra)). lra. }
    pose proof (sqrt_close _ _ (n * t0) e S0 X0 ltac:(apply Rmult_le_pos; lra) ltac:(lra) C) as Q. change (sqrt X) with E in Q.
    assert (Nt : sqrt (n * t0) <= bpow radix2 (-501)).
    { replace (bpow radix2 (-501)) with (sqrt (bpow radix2 (-501) * bpow radix2 (-501))) by (apply sqrt_square, bpow_ge_0).
      apply sqrt_le_1_alt. rewrite <- bpow_plus. change (-501 + -501)%Z with (20 + -1022)%Z. rewrite bpow_plus. fold t0.
      apply Rmult_le_compat_r; [lra|]. change (bpow radix2 20) with 1048576. lra. }
    assert (P0 : 0 <= E) by apply sqrt_pos. pose proof (sqrt_pos (RR s)) as Q0.
    pose proof (rnd_err (sqrt (RR s))) as R. rewrite (Rabs_pos_eq (sqrt (RR s))) in R by exact Q0.
    assert (Et : eta <= bpow radix2 (-501)) by (apply bpow_le; lia).
    set (z := bpow radix2 (-501)) in *. assert (Z0 : 0 < z) by apply bpow_gt_0.
    replace (bpow radix2 (-499)) with (4 * z) by (unfold z; change 4 with (bpow radix2 2); rewrite <- bpow_plus; reflexivity).
    set (q := sqrt (RR s)) in *. apply Rabs_le_inv in Q.
    replace (rnd q - E) with ((rnd q - q) + (q - E)) by ring. eapply Rle_trans; [apply Rabs_triang|].
    assert (Qa : Rabs (q - E) <= e * E + 2 * z) by (apply Rabs_le; lra).
    assert (Qb : uro * q <= uro * ((1 + e) * E + 2 * z)) by (apply Rmult_le_compat_l; lra).
    assert (Ue : uro * e <= / 8 * uro) by nra.
    assert (UE : 0 <= uro * E) by (apply Rmult_le_pos; lra).
    assert (Eq : e * E = n * (uro * E) + 7 / 4 * (uro * E)) by (unfold e; ring).
    assert (Ux : uro * e * E <= / 8 * (uro * E)) by (rewrite <- Rmult_assoc; apply Rmult_le_compat_r; lra).
    assert (Uz2 : uro * (2 * z) <= z) by nra.
    replace ((n + 3) * uro * E) with (n * (uro * E) + 3 * (uro * E)) by ring.
    replace (uro * ((1 + e) * E + 2 * z)) with (uro * E + uro * e * E + uro * (2 * z)) in Qb by ring. lra.
Qed.

Lemma euclid_mono k : 0 <= k -> forall a b, length a = length b -> (forall i, (i < length a)%nat -> Rabs (nth i a 0) <= k * nth i b 0) ->
  euclid a <= k * euclid b.
Proof.
  intros Hk a b L H. unfold euclid. replace (k * sqrt (sumsq b)) with (sqrt (k * k * sumsq b)).
  - apply sqrt_le_1_alt. revert b L H. induction a as [|x a IH]; intros [|y b] L H; try discriminate; [rewrite sumsq_nil; lra|].
    rewrite !sumsq_cons. pose proof (H 0%nat ltac:(cbn; lia)) as H0. cbn [nth] in H0.
    assert (I : sumsq a <= k * k * sumsq b).
    { apply IH; [now injection L|]. intros i Hi. apply (H (S i)). cbn [length]. lia. }
    assert (x * x = Rabs x * Rabs x) by (rewrite <- Rabs_mult; symmetry; apply Rabs_pos_eq; nra). pose proof (Rabs_pos x). nra.
  - rewrite sqrt_mult_alt by nra. now rewrite sqrt_square.
Qed.

Lemma vadd_diff a : forall b, length a = length b -> vadd a (map (fun i => nth i b 0 - nth i a 0) (seq 0 (length a))) = b.
Proof.
  induction a as [|x a IH]; intros [|y b] L; try discriminate; [reflexivity|]. cbn [length seq map vadd nth]. f_equal; [ring|].
  rewrite <- seq_shift, map_map. apply IH. now injection L.
Qed.

Lemma euclid_near k a b w : 0 <= k -> length a = length b -> length w = length b ->
  (forall i, (i < length b)%nat -> Rabs (nth i a 0 - nth i b 0) <= k * nth i w 0) -> Rabs (euclid a - euclid b) <= k * euclid w.
Proof.
  intros Hk L1 L2 H.
  assert (G : forall a b, length a = length b -> length w = length b ->
    (forall i, (i < length b)%nat -> Rabs (nth i a 0 - nth i b 0) <= k * nth i w 0) -> euclid a <= euclid b + k * euclid w).
  { clear -Hk. intros a b L1 L2 H. set (dl := map (fun i => nth i a 0 - nth i b 0) (seq 0 (length b))).
    rewrite <- (vadd_diff b a) by (symmetry; exact L1). fold dl.
    assert (Ld : length dl = length b) by (unfold dl; now rewrite map_length, seq_length).
    eapply Rle_trans; [apply euclid_triangle; symmetry; exact Ld|]. apply Rplus_le_compat_l.
    apply euclid_mono; [exact Hk|congruence|]. intros i Hi. rewrite Ld in Hi. unfold dl.
    rewrite (nth_indep _ 0 ((fun i => nth i a 0 - nth i b 0) 0%nat)) by (rewrite map_length, seq_length; exact Hi).
    rewrite (map_nth (fun i => nth i a 0 - nth i b 0)), seq_nth by exact Hi. apply H, Hi. }
  pose proof (G a b L1 L2 H) as G1. assert (G2 : euclid b <= euclid a + k * euclid w).
  { apply G; [now symmetry|congruence|]. intros i Hi. rewrite Rabs_minus_sym. apply H. congruence. }
  apply Rabs_le. lra.
Qed.

Lemma upto_nth_map {A} (f : Z -> A) d i z : (i < Z.to_nat d)%nat -> nth i (map f (upto d)) z = f (Z.of_nat i).
Proof. intros H. rewrite <- (Nat2Z.id i) at 1. apply nth_map_upto. lia. Qed.

Lemma coef_IZR c j : nth (Z.to_nat j) (map IZR c) 0 = IZR (nth (Z.to_nat j) c 0%Z).
Proof. change 0 with (IZR 0). apply map_nth. Qed.

Lemma IZR_size z e : (0 <= e)%Z -> (Z.abs z <= 2 ^ e)%Z -> IZR z = 0 \/ 1 <= Rabs (IZR z) <= bpow radix2 e.
Proof.
  intros He H. destruct (Z.eq_dec z 0) as [->|Nz]; [now left|right]. rewrite <- abs_IZR. split; [apply (IZR_le 1); lia|].
  rewrite <- IZR_Zpower by exact He. apply IZR_le. exact H.
Qed.

Lemma nth_small c j k : (0 <= k)%Z -> Forall (fun z => Z.abs z <= k)%Z c -> (Z.abs (nth j c 0) <= k)%Z.
Proof.
  intros Hk F. destruct (Nat.lt_ge_cases j (length c)) as [L|L]; [|rewrite nth_overflow by exact L; cbn; lia].
  rewrite Forall_forall in F. apply F, nth_In, L.
Qed.

Lemma point_err B c : (0 < b_dim B <= 2 ^ 20)%Z -> moderate_matrix (b_p B) -> small_coords c ->
  close_to (IZR (b_dim B) + 2) (map (row numF B c) (upto (b_dim B))) (exact_point B c) (unsigned_point B c).
Proof.
  intros Hd M Hc. unfold exact_point, unsigned_point. split; [now rewrite !map_length|]. split; [now rewrite !map_length|].
  intros i Hi. rewrite map_length, upto_length in Hi. rewrite !upto_nth_map by exact Hi.
  destruct (component_err (b_p B) (b_dim B) (Z.of_nat i) (fun j => of_Z (nth (Z.to_nat j) c 0%Z)) (map IZR c) 0) as [F E].
  - lia.
  - exact M.
  - lra.
  - intros j Hj. rewrite coef_IZR. pose proof (nth_small c (Z.to_nat j) (2 ^ 53) ltac:(lia) Hc) as Sj.
    destruct (of_Z_exact _ Sj) as [Ez Fz]. split; [exact Fz|]. rewrite Ez, Rminus_diag_eq, Rabs_R0 by reflexivity. split; [rewrite !Rmult_0_l; lra|].
    destruct (IZR_size _ 53 ltac:(lia) Sj) as [Q|[Q1 Q2]]; [now left|right]. split; [exact Q1|]. apply Rle_trans with (1 := Q2). apply bpow_le. lia.
  - split; [exact F|]. replace (IZR (b_dim B) + 2) with (0 + 2 + IZR (b_dim B)) by ring. exact E.
Qed.

Lemma unsigned_cases m d c i : (0 <= d <= 2 ^ 20)%Z -> moderate_matrix m ->
  (forall j, (0 <= j < d)%Z -> nth (Z.to_nat j) c 0 = 0 \/ 1 <= Rabs (nth (Z.to_nat j) c 0) <= bpow radix2 60) ->
  let w := unsigned_component m d c i in
  (w = 0 \/ bpow radix2 (-300) <= w) /\ 0 <= w <= bpow radix2 380 /\ Rabs (exact_component m d c i) <= w.
Proof.
  intros Hd M Hc w. unfold w, unsigned_component, exact_component, sum_upto.
  assert (T : forall j, In j (upto d) -> let x := Rabs (nth (Z.to_nat j) c 0) * Rabs (RR (entry f0 m d i j)) in
    (x = 0 \/ bpow radix2 (-300) <= x) /\ 0 <= x <= bpow radix2 60 * bpow radix2 300).
  { intros j Hj x. apply upto_In in Hj. destruct (moderate_entry m d i j M) as [_ Mv].
    assert (X0 : 0 <= x) by (apply Rmult_le_pos; apply Rabs_pos). unfold x in *.
    pose proof (bpow_gt_0 radix2 60). pose proof (bpow_gt_0 radix2 300). pose proof (bpow_gt_0 radix2 (-300)).
    destruct (Hc j Hj) as [->|[Y1 Y2]]; [rewrite Rabs_R0, Rmult_0_l in *; split; [now left|split; [lra|apply Rmult_le_pos; lra]]|].
    destruct Mv as [->|[V1 V2]]; [rewrite Rabs_R0, Rmult_0_r in *; split; [now left|split; [lra|apply Rmult_le_pos; lra]]|].
    split; [right; nra|]. split; [lra|]. apply Rmult_le_compat; try apply Rabs_pos; assumption. }
  assert (L : INR (length (upto d)) * (bpow radix2 60 * bpow radix2 300) <= bpow radix2 380).
  { rewrite upto_length, INR_IZR_INZ, Z2Nat.id by lia. rewrite <- bpow_plus. change 380%Z with (20 + (60 + 300))%Z. rewrite (bpow_plus _ 20).
    apply Rmult_le_compat_r; [apply bpow_ge_0|]. change (bpow radix2 20) with (IZR (2 ^ 20)). apply IZR_le. lia. }
  split; [|split; [split|]].
  - clear L. induction (upto d) as [|j l IH]; [now left|]. cbn [map]. rewrite sumR_cons.
    destruct (T j (or_introl eq_refl)) as (T1 & T2 & _). destruct (IH (fun a Ha => T a (or_intror Ha))) as [Z|Z];
      assert (P : 0 <= sumR (map (fun j => Rabs (nth (Z.to_nat j) c 0) * Rabs (RR (entry f0 m d i j))) l)) by (apply sumR_pos; intros a Ha; apply (T a (or_intror Ha)));
      destruct T1 as [T1|T1]; cbv zeta in *; first [left; lra|right; lra].
  - apply sumR_pos. intros a Ha. apply (T a Ha).
  - apply Rle_trans with (2 := L). rewrite <- sumR_const. apply sumR_le. intros a Ha. apply (T a Ha).
  - clear L T. induction (upto d) as [|j l IH]; cbn [map]; [unfold sumR; cbn; rewrite Rabs_R0; lra|]. rewrite !sumR_cons.
    eapply Rle_trans; [apply Rabs_triang|]. rewrite Rabs_mult. lra.
Qed.

(** The length of a vector known to k roundings. *)
Lemma length_err (x : list f64) e w k : (Z.of_nat (length x) <= 2 ^ 20)%Z -> 0 <= k <= 2000000 -> close_to k x e w ->
  (forall i, (i < length x)%nat -> (nth i w 0 = 0 \/ bpow radix2 (-300) <= nth i w 0) /\ 0 <= nth i w 0 <= bpow radix2 380 /\ Rabs (nth i e 0) <= nth i w 0) ->
  fin (norm numF x) /\ Rabs (RR (norm numF x) - euclid e) <= (k + INR (length x) + 4) * uro * euclid w.
Proof.
  intros Hn Hk (L1 & L2 & C) W. pose proof uro_pos as U0. pose proof uro_small as U1. pose proof uro_val as Uv.
  assert (Uz : uro * 9007199254740992 = 1) by (rewrite Uv; change (IZR (2 ^ 53)) with 9007199254740992; lra).
  assert (Ku : 0 <= k * uro <= / 1000000) by nra.
  set (n := INR (length x)). assert (N0 : 0 <= n <= 1048576) by (split; [apply pos_INR|unfold n; rewrite INR_IZR_INZ; apply (IZR_le _ (2 ^ 20)); exact Hn]).
  assert (Ew : 0 <= euclid w) by apply sqrt_pos.
  destruct (Forall_Exists_dec (fun y => y = 0) (fun y => Req_EM_T y 0) w) as [Z|Z].
  - assert (Zx : Forall (fun y => RR y = 0 /\ fin y) x).
    { apply Forall_forall. intros y Hy. destruct (In_nth x y f0 Hy) as (i & Hi & <-). destruct (C i Hi) as [Fi Ei].
      assert (W0 : nth i w 0 = 0) by (rewrite Forall_forall in Z; apply Z, nth_In; lia).
      destruct (W i Hi) as (_ & _ & Q). rewrite W0 in *. rewrite Rmult_0_r in Ei.
      assert (E0 : nth i e 0 = 0). { destruct (Req_dec (nth i e 0) 0) as [K|K]; [exact K|]. apply Rabs_pos_lt in K. lra. }
      rewrite E0, Rminus_0_r in Ei. split; [|exact Fi]. destruct (Req_dec (RR (nth i x f0)) 0) as [K|K]; [exact K|]. apply Rabs_pos_lt in K. lra. }
    rewrite (norm_zero x Zx). split; [apply fin_f0|]. rewrite RR_f0.
    assert (E0 : euclid e = 0).
    { apply euclid_zero. apply Forall_forall. intros y Hy. destruct (In_nth e y 0 Hy) as (i & Hi & <-). rewrite <- L1 in Hi.
      destruct (W i Hi) as (_ & _ & Q). assert (W0 : nth i w 0 = 0) by (rewrite Forall_forall in Z; apply Z, nth_In; lia).
      rewrite W0 in Q. destruct (Req_dec (nth i e 0) 0) as [K|K]; [exact K|]. apply Rabs_pos_lt in K. lra. }
    rewrite E0, Rminus_0_r, Rabs_R0. repeat apply Rmult_le_pos; lra.
  - assert (Wl : bpow radix2 (-300) <= euclid w).
    { apply Exists_exists in Z as (y & Hy & Ny). destruct (In_nth w y 0 Hy) as (i & Hi & Ey).
      destruct (W i ltac:(lia)) as ([Q|Q] & _ & _); [congruence|]. rewrite Ey in Q.
      rewrite <- (sqrt_square (bpow radix2 (-300))) by apply bpow_ge_0. unfold euclid. apply sqrt_le_1_alt.
      apply Rle_trans with (y * y); [pose proof (bpow_gt_0 radix2 (-300)); nra|].
      clear -Hy. induction w as [|z w IH]; [destruct Hy|]. rewrite sumsq_cons. destruct Hy as [->|Hy]; [pose proof (sumsq_pos w); lra|]. specialize (IH Hy). nra. }
    assert (Fx : Forall (fun a => fin a /\ Rabs (RR a) <= bpow radix2 430) x).
    { apply Forall_forall. intros y Hy. destruct (In_nth x y f0 Hy) as (i & Hi & <-). destruct (C i Hi) as [Fi Ei]. split; [exact Fi|].
      destruct (W i Hi) as (_ & (Q0 & Q1) & Q2). pose proof (Rabs_triang_inv (RR (nth i x f0)) (nth i e 0)) as T.
      apply Rle_trans with (2 * bpow radix2 380); [nra|]. change 2 with (bpow radix2 1). rewrite <- bpow_plus. apply bpow_le. lia. }
    destruct (norm_err x Hn Fx) as [Fd Ed]. split; [exact Fd|]. fold n in Ed.
    assert (Nr : Rabs (euclid (map RR x) - euclid e) <= k * uro * euclid w).
    { apply euclid_near; [lra|now rewrite map_length|exact L2|]. intros i Hi. rewrite <- L1 in Hi. destruct (C i Hi) as [_ Ei].
      change 0 with (RR f0) at 1. rewrite map_nth. exact Ei. }
    assert (Le : euclid e <= euclid w).
    { rewrite <- (Rmult_1_l (euclid w)). apply euclid_mono; [lra|congruence|]. intros i Hi. rewrite Rmult_1_l. rewrite <- L1 in Hi. apply (W i Hi). }
    assert (Tn : bpow radix2 (-499) <= / 1000 * uro * euclid w).
    { assert (bpow radix2 (-499) <= bpow radix2 (-146) * (uro * bpow radix2 (-300))).
      { unfold uro. rewrite <- !bpow_plus. apply bpow_le. lia. }
      assert (bpow radix2 (-146) <= / 1000).
      { apply Rle_trans with (bpow radix2 (-10)); [apply bpow_le; lia|]. change (bpow radix2 (-10)) with (/ 1024). lra. }
      apply Rle_trans with (1 := H). rewrite Rmult_assoc. apply Rmult_le_compat; [apply bpow_ge_0|apply Rmult_le_pos; [lra|apply bpow_ge_0]|exact H0|apply Rmult_le_compat_l; lra]. }
    apply Rabs_le_inv in Nr. set (X := euclid (map RR x)) in *. set (w0 := euclid w) in *. assert (X0 : 0 <= X) by apply sqrt_pos.
    replace (RR (norm numF x) - euclid e) with ((RR (norm numF x) - X) + (X - euclid e)) by ring. eapply Rle_trans; [apply Rabs_triang|].
    assert (Xe : Rabs (X - euclid e) <= k * uro * w0) by (apply Rabs_le; lra).
    assert (Xw : X <= (1 + k * uro) * w0) by lra.
    assert (Q : (n + 3) * uro * X <= (n + 3) * uro * ((1 + k * uro) * w0)) by (apply Rmult_le_compat_l; [apply Rmult_le_pos; lra|exact Xw]).
    assert (Q2 : (n + 3) * (k * uro) <= / 2).
    { assert ((n + 3) * uro <= / 8000000000) by nra. replace ((n + 3) * (k * uro)) with ((n + 3) * uro * k) by ring. 
      assert (0 <= (n + 3) * uro) by (apply Rmult_le_pos; lra). nra. }
    assert (0 <= uro * w0) by (apply Rmult_le_pos; lra). nra.
Qed.

Lemma small_sizes c d : small_coords c -> forall j, (0 <= j < d)%Z -> nth (Z.to_nat j) (map IZR c) 0 = 0 \/ 1 <= Rabs (nth (Z.to_nat j) (map IZR c) 0) <= bpow radix2 60.
Proof.
  intros Hc j Hj. rewrite coef_IZR. pose proof (nth_small c (Z.to_nat j) (2 ^ 53) ltac:(lia) Hc) as Sj.
  destruct (IZR_size _ 53 ltac:(lia) Sj) as [Q|[Q1 Q2]]; [now left|right]. split; [exact Q1|]. apply Rle_trans with (1 := Q2). apply bpow_le. lia.
Qed.

Lemma distance_err B c : (0 < b_dim B <= 2 ^ 20)%Z -> moderate_matrix (b_p B) -> small_coords c ->
  let D := norm numF (map (row numF B c) (upto (b_dim B))) in
  fin D /\ Rabs (RR D - euclid (exact_point B c)) <= (2 * IZR (b_dim B) + 6) * uro * euclid (unsigned_point B c).
Proof.
  intros Hd M Hc D. assert (D0 : 0 <= IZR (b_dim B) <= 1048576) by (split; [apply (IZR_le 0)|apply (IZR_le _ 1048576)]; lia).
  assert (Lx : length (map (row numF B c) (upto (b_dim B))) = Z.to_nat (b_dim B)) by (now rewrite map_length, upto_length).
  destruct (length_err (map (row numF B c) (upto (b_dim B))) (exact_point B c) (unsigned_point B c) (IZR (b_dim B) + 2)) as [F E].
  - rewrite Lx. lia.
  - lra.
  - now apply point_err.
  - intros i Hi. rewrite Lx in Hi. unfold exact_point, unsigned_point. rewrite !upto_nth_map by exact Hi.
    apply unsigned_cases; [lia|exact M|now apply small_sizes].
  - split; [exact F|]. apply Rle_trans with (1 := E). rewrite Lx, INR_IZR_INZ, Z2Nat.id by lia.
    apply Req_le. ring.
Qed.

(** * Wave vectors *)
Lemma coef_wave c j : nth (Z.to_nat j) (map (fun z => 2 * PI * IZR z) c) 0 = 2 * PI * IZR (nth (Z.to_nat j) c 0%Z).
Proof.
  replace 0 with ((fun z => 2 * PI * IZR z) 0%Z) at 1 by (cbn; ring). apply (map_nth (fun z => 2 * PI * IZR z)).
Qed.

Lemma wave_sizes c d : wave_coords c -> forall j, (0 <= j < d)%Z ->
  nth (Z.to_nat j) (map (fun z => 2 * PI * IZR z) c) 0 = 0 \/ 1 <= Rabs (nth (Z.to_nat j) (map (fun z => 2 * PI * IZR z) c) 0) <= bpow radix2 60.
Proof.
  intros Hc j Hj. rewrite coef_wave. pose proof (nth_small c (Z.to_nat j) (2 ^ 52) ltac:(lia) Hc) as Sj.
  destruct pi_d_range as [_ [P3 P4]]. rewrite Rabs_mult, (Rabs_pos_eq (2 * PI)) by lra.
  destruct (IZR_size _ 52 ltac:(lia) Sj) as [Q|[Q1 Q2]]; [left; rewrite Q; ring|right]. split; [nra|].
  apply Rle_trans with (bpow radix2 3 * bpow radix2 52); [|rewrite <- bpow_plus; apply bpow_le; lia].
  apply Rmult_le_compat; [lra|apply Rabs_pos| |exact Q2]. change (bpow radix2 3) with 8. lra.
Qed.

Lemma two_pi_coef z : (Z.abs z <= 2 ^ 52)%Z -> let x := fmul (of_Z (z * 2)) pi_d in
  fin x /\ Rabs (RR x - 2 * PI * IZR z) <= 2 * uro * Rabs (2 * PI * IZR z).
Proof.
  intros Hz x. destruct (two_c_pi z Hz) as [F E]. fold x in F, E. split; [exact F|]. rewrite E.
  pose proof uro_pos as U0. pose proof uro_small as U1. pose proof pi_d_near as Nr. destruct pi_d_range as [[P1 P2] [P3 P4]].
  destruct (IZR_size z 52 ltac:(lia) Hz) as [Q|[Q1 Q2]].
  - rewrite mult_IZR, Q. rewrite !Rmult_0_l, Rmult_0_r, rnd_0, Rminus_0_r, Rabs_R0. lra.
  - set (t := IZR (z * 2) * RR pi_d) in *. set (a := Rabs (IZR z)) in *.
    assert (Et : Rabs t = 2 * a * RR pi_d) by (unfold t, a; rewrite mult_IZR, !Rabs_mult, (Rabs_pos_eq (RR pi_d)), (Rabs_pos_eq 2) by lra; ring).
    assert (R1 : Rabs (rnd t - t) <= uro * Rabs t).
    { apply rnd_rel. apply Rle_trans with 1; [change 1 with (bpow radix2 0); apply bpow_le; lia|]. rewrite Et. nra. }
    assert (R2 : Rabs (t - 2 * PI * IZR z) <= 2 * a * (5 / 4 * uro)).
    { replace (t - 2 * PI * IZR z) with (2 * IZR z * (RR pi_d - PI)) by (unfold t; rewrite mult_IZR; ring).
      rewrite !Rabs_mult, (Rabs_pos_eq 2) by lra. apply Rmult_le_compat_l; [fold a; lra|exact Nr]. }
    rewrite !Rabs_mult, (Rabs_pos_eq 2), (Rabs_pos_eq PI) by lra. fold a.
    replace (rnd t - 2 * PI * IZR z) with ((rnd t - t) + (t - 2 * PI * IZR z)) by ring. eapply Rle_trans; [apply Rabs_triang|].
    rewrite Et in R1. apply Rabs_le_inv in Nr. assert (A0 : 0 <= a * uro) by (apply Rmult_le_pos; lra).
    assert (2 * a * uro * RR pi_d <= 2 * a * uro * (PI + 5 / 4 * uro)) by (apply Rmult_le_compat_l; lra). nra.
Qed.

Lemma wave_err B c : (0 < b_dim B <= 2 ^ 20)%Z -> moderate_matrix (b_pi B) -> wave_coords c ->
  close_to (IZR (b_dim B) + 4) (map (rrow numF pi_d B c) (upto (b_dim B))) (exact_wave B c) (unsigned_wave B c).
Proof.
  intros Hd M Hc. unfold exact_wave, unsigned_wave. split; [now rewrite !map_length|]. split; [now rewrite !map_length|].
  intros i Hi. rewrite map_length, upto_length in Hi. rewrite !upto_nth_map by exact Hi.
  destruct (component_err (b_pi B) (b_dim B) (Z.of_nat i) (fun j => fmul (of_Z (nth (Z.to_nat j) c 0%Z * 2)) pi_d) (map (fun z => 2 * PI * IZR z) c) 2) as [F E].
  - lia.
  - exact M.
  - lra.
  - intros j Hj. pose proof (nth_small c (Z.to_nat j) (2 ^ 52) ltac:(lia) Hc) as Sj.
    destruct (two_pi_coef _ Sj) as [Fz Ez]. split; [exact Fz|]. split; [now rewrite coef_wave|]. now apply (wave_sizes c (b_dim B)).
  - split; [exact F|]. replace (IZR (b_dim B) + 4) with (2 + 2 + IZR (b_dim B)) by ring. exact E.
Qed.

(** Divided by the extents *)
Lemma over_err x s e w k : fin x -> (0 < s <= 2 ^ 53)%Z -> 0 <= k <= 2000000 -> Rabs (RR x - e) <= k * uro * w -> Rabs e <= w ->
  (w = 0 \/ bpow radix2 (-300) <= w) -> w <= bpow radix2 380 ->
  fin (fdiv x (of_Z s)) /\ Rabs (RR (fdiv x (of_Z s)) - e / IZR s) <= (k + 3 / 2) * uro * (w / IZR s).
Proof.
  intros Fx Hs Hk Hx He Hw Hu. pose proof uro_pos as U0. pose proof uro_small as U1. pose proof uro_val as Uv.
  assert (Uz : uro * 9007199254740992 = 1) by (rewrite Uv; change (IZR (2 ^ 53)) with 9007199254740992; lra).
  destruct (of_Z_exact s) as [Es Fs]; [lia|]. assert (S1 : 1 <= IZR s) by (apply (IZR_le 1); lia).
  assert (S2 : IZR s <= bpow radix2 53) by (change (bpow radix2 53) with (IZR (2 ^ 53)); apply IZR_le; lia).
  assert (W0 : 0 <= w) by (pose proof (Rabs_pos e); lra).
  assert (Ku : 0 <= k * uro <= / 1000000000) by nra.
  assert (Xw : Rabs (RR x) <= (1 + k * uro) * w) by (pose proof (Rabs_triang_inv (RR x) e); lra).
  assert (Xq : Rabs (RR x / IZR s) <= (1 + k * uro) * (w / IZR s)).
  { unfold Rdiv. rewrite Rabs_mult, (Rabs_pos_eq (/ IZR s)) by (left; apply Rinv_0_lt_compat; lra). rewrite <- Rmult_assoc.
    apply Rmult_le_compat_r; [left; apply Rinv_0_lt_compat; lra|exact Xw]. }
  set (v := w / IZR s) in *.
  assert (V0 : 0 <= v) by (unfold v; apply Rmult_le_pos; [lra|left; apply Rinv_0_lt_compat; lra]).
  assert (Vw : v <= w). { unfold v. apply Rle_trans with (w / 1); [|lra]. apply Rmult_le_compat_l; [lra|]. apply Rinv_le; lra. }
  destruct (fdiv_ok x (of_Z s) Fx) as [E F].
  - rewrite Es. lra.
  - rewrite Es. apply (no_overflow _ 400); [lia|]. apply Rle_trans with (1 := Xq). apply Rle_trans with (2 * bpow radix2 380); [nra|].
    change 2 with (bpow radix2 1). rewrite <- bpow_plus. apply bpow_le. lia.
  - split; [exact F|]. rewrite E, Es. set (q := RR x / IZR s) in *.
    assert (Q : Rabs (q - e / IZR s) <= k * uro * v).
    { unfold q, v. replace (RR x / IZR s - e / IZR s) with ((RR x - e) / IZR s) by (unfold Rdiv; ring).
      unfold Rdiv. rewrite Rabs_mult, (Rabs_pos_eq (/ IZR s)) by (left; apply Rinv_0_lt_compat; lra).
      rewrite <- Rmult_assoc. apply Rmult_le_compat_r; [left; apply Rinv_0_lt_compat; lra|exact Hx]. }
    assert (R : Rabs (rnd q - q) <= 5 / 4 * uro * v).
    { destruct Hw as [Z|Wl].
      - assert (q = 0). { unfold v in Xq. rewrite Z in Xq. replace (0 / IZR s) with 0 in Xq by (unfold Rdiv; ring). rewrite Rmult_0_r in Xq.
          destruct (Req_dec q 0) as [K|K]; [exact K|]. apply Rabs_pos_lt in K. lra. }
        rewrite H, rnd_0, Rminus_0_r, Rabs_R0. apply Rmult_le_pos; [lra|exact V0].
      - apply Rle_trans with (1 := rnd_err q).
        assert (Et : eta <= / 8 * (uro * v)).
        { assert (Vl : bpow radix2 (-353) <= v).
          { unfold v. change (-353)%Z with (-300 + - (53))%Z. rewrite bpow_plus, bpow_opp. apply Rmult_le_compat; try apply bpow_ge_0; [left; apply Rinv_0_lt_compat, bpow_gt_0|exact Wl|].
            apply Rinv_le; lra. }
          apply Rle_trans with (bpow radix2 (-3) * (bpow radix2 (-53) * bpow radix2 (-353))).
          - rewrite <- !bpow_plus. unfold eta. apply bpow_le. lia.
          - change (bpow radix2 (-3)) with (/ 8). apply Rmult_le_compat_l; [lra|]. apply Rmult_le_compat_l; [lra|exact Vl]. }
        assert (uro * Rabs q <= uro * ((1 + k * uro) * v)) by (apply Rmult_le_compat_l; lra).
        assert (0 <= uro * v) by (apply Rmult_le_pos; lra). assert (uro * (k * uro) * v <= / 8 * (uro * v)).
        { replace (uro * (k * uro) * v) with (k * uro * (uro * v)) by ring. apply Rmult_le_compat_r; lra. }
        lra. }
    replace (rnd q - e / IZR s) with ((rnd q - q) + (q - e / IZR s)) by ring. eapply Rle_trans; [apply Rabs_triang|].
    assert (0 <= uro * v) by (apply Rmult_le_pos; lra). lra.
Qed.

(** * The triangular lattice *)
Lemma RR_SF (x : f64) : RR x = SF2R radix2 (B2SF x).
Proof. symmetry. apply SF2R_B2SF. Qed.

Definition half_root3 : R := 7800463371553962 * / 9007199254740992.

Lemma tri_values : let P := b_p (TriangularLattice numF) in
  RR (entry f0 P 2 0 0) = 1 /\ RR (entry f0 P 2 1 0) = 0 /\ RR (entry f0 P 2 0 1) = / 2 /\ RR (entry f0 P 2 1 1) = half_root3.
Proof.
  intros P. rewrite !RR_SF.
  assert (E0 : B2SF (entry f0 P 2 0 0) = SpecFloat.S754_finite false 4503599627370496 (-52)) by (vm_compute; reflexivity).
  assert (E1 : B2SF (entry f0 P 2 1 0) = SpecFloat.S754_zero false) by (vm_compute; reflexivity).
  assert (E2 : B2SF (entry f0 P 2 0 1) = SpecFloat.S754_finite false 4503599627370496 (-53)) by (vm_compute; reflexivity).
  assert (E3 : B2SF (entry f0 P 2 1 1) = SpecFloat.S754_finite false 7800463371553962 (-53)) by (vm_compute; reflexivity).
  rewrite E0, E1, E2, E3. cbn [SF2R cond_Zopp]. unfold F2R. cbn [Fnum Fexp].
  change (bpow radix2 (-52)) with (/ 4503599627370496). change (bpow radix2 (-53)) with (/ 9007199254740992).
  unfold half_root3. repeat split; lra.
Qed.

Definition moderate_b (x : f64) : bool :=
  match B2SF x with
  | SpecFloat.S754_zero _ => true
  | SpecFloat.S754_finite _ _ e => ((-300 <=? e) && (e <=? 247))%Z
  | _ => false
  end.

Lemma moderate_b_ok x : moderate_b x = true -> fin x /\ moderate (RR x).
Proof.
  unfold moderate_b. destruct x as [s|s| |s m e Hb]; cbn [B2SF]; intros H; try discriminate.
  - split; [reflexivity|left; reflexivity].
  - split; [reflexivity|right]. apply andb_prop in H as [H1 H2]. apply Z.leb_le in H1, H2.
    assert (Hm : (Z.pos m < 2 ^ 53)%Z).
    { unfold SpecFloat.bounded, SpecFloat.canonical_mantissa in Hb. apply andb_prop in Hb as [Hc _]. apply Zeq_bool_eq in Hc.
      unfold SpecFloat.fexp, SpecFloat.emin in Hc. rewrite Digits.Zpos_digits2_pos in Hc.
      assert (D : (Digits.Zdigits radix2 (Z.pos m) <= 53)%Z) by lia.
      apply Digits.Zpower_gt_Zdigits in D. cbn in D. lia. }
    unfold RR. cbn [B2R]. rewrite <- F2R_Zabs. cbn [F2R]. unfold F2R. cbn [Fnum Fexp]. rewrite abs_cond_Zopp. cbn [Z.abs].
    split.
    + apply Rle_trans with (1 * bpow radix2 e); [rewrite Rmult_1_l; apply bpow_le; lia|]. apply Rmult_le_compat_r; [apply bpow_ge_0|]. apply (IZR_le 1). lia.
    + apply Rle_trans with (bpow radix2 53 * bpow radix2 e); [|rewrite <- bpow_plus; apply bpow_le; lia].
      apply Rmult_le_compat_r; [apply bpow_ge_0|]. change (bpow radix2 53) with (IZR (2 ^ 53)). apply IZR_le. lia.
Qed.

Lemma moderate_matrix_b m : forallb moderate_b m = true -> moderate_matrix m.
Proof. intros H. rewrite forallb_forall in H. apply Forall_forall. intros x Hx. apply moderate_b_ok, H, Hx. Qed.

Lemma builtin_moderate B : B = ChainLattice numF \/ B = SquareLattice numF \/ B = CubicLattice numF \/ B = TriangularLattice numF ->
  moderate_matrix (b_p B) /\ moderate_matrix (b_pi B).
Proof. intros [->|[->|[->| ->]]]; split; apply moderate_matrix_b; vm_compute; reflexivity. Qed.

Lemma half_root3_near : Rabs (half_root3 - sqrt 3 / 2) <= uro * (sqrt 3 / 2).
Proof.
  pose proof uro_val as Uv. change (IZR (2 ^ 53)) with 9007199254740992 in Uv. set (r := sqrt 3).
  assert (R0 : 0 <= r) by apply sqrt_pos. assert (R2 : r * r = 3) by (apply sqrt_sqrt; lra). unfold half_root3. rewrite Uv.
  apply Rabs_le. split.
  - assert (r <= 17320508075688772936 / 10000000000000000000); [|lra]. apply Rsqr_incr_0_var; [unfold Rsqr; lra|lra].
  - assert (17320508075688772935 / 10000000000000000000 <= r); [|lra]. apply Rsqr_incr_0_var; [unfold Rsqr; lra|lra].
Qed.

Lemma tri_exact x y : exact_point (TriangularLattice numF) [x; y] = [IZR x + IZR y / 2; IZR y * half_root3] /\
  unsigned_point (TriangularLattice numF) [x; y] = [Rabs (IZR x) + Rabs (IZR y) / 2; Rabs (IZR y) * half_root3].
Proof.
  destruct tri_values as (V0 & V1 & V2 & V3). unfold exact_point, unsigned_point, exact_component, unsigned_component, sum_upto.
  change (b_dim (TriangularLattice numF)) with 2%Z. change (upto 2) with [0%Z; 1%Z]. cbn [map]. 
  change (Z.to_nat 0) with 0%nat. change (Z.to_nat 1) with 1%nat. cbn [nth]. rewrite V0, V1, V2, V3. unfold sumR. cbn [fold_right].
  rewrite (Rabs_pos_eq half_root3) by (unfold half_root3; lra). rewrite Rabs_R0, Rabs_R1, (Rabs_pos_eq (/ 2)) by lra.
  split; f_equal; try f_equal; field.
Qed.

Lemma tri_square x y : triangular_length x y = euclid [IZR x + IZR y / 2; IZR y * (sqrt 3 / 2)].
Proof.
  unfold triangular_length, euclid, sumsq. cbn [fold_right]. f_equal. rewrite !plus_IZR, !mult_IZR.
  pose proof (sqrt_sqrt 3 ltac:(lra)) as R. replace (IZR y * (sqrt 3 / 2) * (IZR y * (sqrt 3 / 2))) with (IZR y * IZR y * (sqrt 3 * sqrt 3) / 4) by field.
  rewrite R. field.
Qed.

Lemma tri_unsigned x y : euclid (unsigned_point (TriangularLattice numF) [x; y]) <= 1.7321 * triangular_length x y.
Proof.
  destruct (tri_exact x y) as [_ ->]. unfold triangular_length, euclid, sumsq. cbn [fold_right].
  rewrite <- (sqrt_square 1.7321) by lra. rewrite <- sqrt_mult_alt by lra. apply sqrt_le_1_alt.
  rewrite !plus_IZR, !mult_IZR. set (a := IZR x). set (b := IZR y). unfold half_root3.
  assert (A : Rabs a * Rabs a = a * a) by (rewrite <- Rabs_mult; apply Rabs_pos_eq; nra).
  assert (B : Rabs b * Rabs b = b * b) by (rewrite <- Rabs_mult; apply Rabs_pos_eq; nra).
  assert (C : Rabs a * Rabs b = Rabs (a * b)) by (now rewrite Rabs_mult).
  replace ((Rabs a + Rabs b / 2) * (Rabs a + Rabs b / 2)) with (Rabs a * Rabs a + Rabs a * Rabs b + Rabs b * Rabs b / 4) by field.
  set (h := 7800463371553962 * / 9007199254740992) in *. assert (H : h * h <= 0.75001) by (unfold h; lra).
  replace (Rabs b * h * (Rabs b * h)) with (Rabs b * Rabs b * (h * h)) by ring. rewrite A, B, C.
  assert (b * b * (h * h) <= b * b * 0.75001) by (apply Rmult_le_compat_l; nra).
  assert (S1 : 0 <= (a + b) * (a + b)) by apply Rle_0_sqr. assert (S2 : 0 <= (a + b / 2) * (a + b / 2)) by apply Rle_0_sqr.
  assert (S3 : 0 <= b * b) by apply Rle_0_sqr. assert (S4 : 0 <= a * a) by apply Rle_0_sqr.
  replace ((a + b) * (a + b)) with (a * a + 2 * (a * b) + b * b) in S1 by ring.
  replace ((a + b / 2) * (a + b / 2)) with (a * a + a * b + b * b / 4) in S2 by field.
  unfold Rabs. destruct (Rcase_abs (a * b)); lra.
Qed.

Lemma tri_distance_err x y : (Z.abs x <= 2 ^ 53)%Z -> (Z.abs y <= 2 ^ 53)%Z ->
  let D := norm numF (map (row numF (TriangularLattice numF) [x; y]) (upto 2)) in
  fin D /\ Rabs (RR D - triangular_length x y) <= 19 * uro * triangular_length x y.
Proof.
  intros Hx Hy D. pose proof uro_pos as U0. pose proof uro_small as U1.
  destruct (distance_err (TriangularLattice numF) [x; y]) as [F E].
  - cbn. lia.
  - apply builtin_moderate. auto.
  - repeat constructor; assumption.
  - change (b_dim (TriangularLattice numF)) with 2%Z in F, E. fold D in F, E. split; [exact F|].
    pose proof (tri_unsigned x y) as W. destruct (tri_exact x y) as [Ee _]. set (L := triangular_length x y) in *.
    assert (L0 : 0 <= L) by apply sqrt_pos.
    assert (Nr : Rabs (euclid (exact_point (TriangularLattice numF) [x; y]) - L) <= uro * L).
    { set (w := [Rabs (IZR x + IZR y / 2); Rabs (IZR y) * (sqrt 3 / 2)]).
      pose proof (sqrt_pos 3) as R0.
      assert (Ew : euclid w = L).
      { unfold L. rewrite tri_square. unfold w, euclid, sumsq. cbn [fold_right]. f_equal. f_equal; [|f_equal].
        - rewrite <- Rabs_mult. apply Rabs_pos_eq. apply Rle_0_sqr.
        - replace (Rabs (IZR y) * (sqrt 3 / 2)) with (Rabs (IZR y * (sqrt 3 / 2))) by (rewrite Rabs_mult, (Rabs_pos_eq (sqrt 3 / 2)); lra).
          rewrite <- Rabs_mult. apply Rabs_pos_eq. apply Rle_0_sqr. }
      rewrite <- Ew at 2. unfold L. rewrite Ee, tri_square. apply euclid_near; [lra|reflexivity|reflexivity|].
      intros [|[|i]] Hi; cbn [nth w length] in *; [..|lia].
      - rewrite Rminus_diag_eq, Rabs_R0 by reflexivity. apply Rmult_le_pos; [lra|apply Rabs_pos].
      - rewrite <- Rmult_minus_distr_l, Rabs_mult. pose proof half_root3_near as N. pose proof (Rabs_pos (IZR y)).
        replace (uro * (Rabs (IZR y) * (sqrt 3 / 2))) with (Rabs (IZR y) * (uro * (sqrt 3 / 2))) by ring. now apply Rmult_le_compat_l. }
    set (e := euclid (exact_point (TriangularLattice numF) [x; y])) in *.
    replace (RR D - L) with ((RR D - e) + (e - L)) by ring. eapply Rle_trans; [apply Rabs_triang|].
    assert ((2 * 2 + 6) * uro * euclid (unsigned_point (TriangularLattice numF) [x; y]) <= (2 * 2 + 6) * uro * (1.7321 * L)) by (apply Rmult_le_compat_l; lra).
    assert (0 <= uro * L) by (apply Rmult_le_pos; lra). lra.
Qed.

(** * Lattices *)
Lemma image_small size c e : Forall (fun s => s <= 2 ^ 51)%Z size -> on_grid size c -> shell size e -> small_coords (image size c e).
Proof.
  intros F G. revert e F. unfold image, small_coords. induction G as [|s x size c Hx G IH]; intros [|y e] F [L S]; cbn [zip_with]; try constructor.
  - inversion S; subst. inversion F; subst. nia.
  - inversion S; subst. inversion F; subst. apply IH; [assumption|]. split; [now injection L|assumption].
Qed.

Lemma on_grid_small size c : Forall (fun s => s <= 2 ^ 51)%Z size -> on_grid size c -> small_coords c /\ wave_coords (centred_coords size c).
Proof.
  intros F G. unfold small_coords, wave_coords, centred_coords. revert F. induction G as [|s x size c Hx G IH]; intros F; cbn [zip_with]; [split; constructor|].
  inversion F; subst. destruct (IH H2) as [I1 I2]. split; constructor; auto; try lia.
  assert (0 <= s / 2 <= s)%Z by (split; [apply Z.div_pos; lia|apply Z.div_le_upper_bound; lia]). lia.
Qed.

Lemma lattice_distance_err pi B size : lattice_ok B size -> moderate_matrix (b_p B) -> Forall (fun s => s <= 2 ^ 51)%Z size ->
  exists L, Lattice numF pi B size true = Ok L /\ forall a b ca cb, valid_site size a -> valid_site size b ->
  GetCoordinates (l_grid L) a = Ok ca -> GetCoordinates (l_grid L) b = Ok cb ->
  let c := seen_from size ca cb in
  exists D e0, GetDistance L a b = Ok D /\ fin D /\ shell size e0 /\ D = norm numF (pv numF B (image size c e0)) /\
  forall e, shell size e -> small_coords (image size c e) /\ length (image size c e) = length size /\ RR D <= RR (norm numF (pv numF B (image size c e))).
Proof.
  intros H M F51. exists (built numF pi B size true). split; [now apply lattice_built|]. intros a b ca cb Ha Hb Ea Eb c.
  pose proof H as (W & Hs & H40 & Hok & He & Hn). destruct (ok_dims _ _ H) as [Dm DS].
  change (l_grid (built numF pi B size true)) with (HyperCubicGrid size true) in Ea, Eb.
  rewrite grid_coords in Ea, Eb by assumption. injection Ea as <-. injection Eb as <-.
  destruct (closed_distance numF pi B size a b H Ha Hb) as (Gc & V & D). fold c in Gc, V, D.
  destruct (best_spec numF flt_trans flt_irrefl B size c (on_grid_length _ _ Gc) ltac:(lia)) as (E1 & (e0 & S0 & E0) & F).
  assert (Fn : forall e, shell size e -> fin (norm numF (pv numF B (image size c e)))).
  { intros e Se. apply distance_err; [lia|exact M|now apply image_small]. }
  exists (norm numF (snd (best numF B size c))), e0. split; [exact D|]. rewrite E0. split; [now apply Fn|]. split; [exact S0|]. split; [reflexivity|].
  intros e Se. split; [now apply image_small|]. split; [apply image_length; [now apply on_grid_length|apply Se]|].
  rewrite <- E0, <- E1. apply flt_R_false; [now apply Fn| |now apply F]. rewrite E1, E0. now apply Fn.
Qed.

Lemma position_built {T} (N : num T) pi (B : bravais T) size cl a : lattice_ok B size -> valid_site size a ->
  GetPosition (built N pi B size cl) a = Ok (pv N B (coords_of size a)).
Proof. intros H Ha. unfold GetPosition, built. cbn [l_pos]. now apply (vget_sites (fun i => pv N B (coords_of size i))). Qed.

Lemma zip_nth_R (k : list R) : forall (size : list Z) i, (i < length k)%nat -> (i < length size)%nat ->
  nth i (over_extents size k) 0 = nth i k 0 / IZR (nth i size 0%Z).
Proof.
  induction k as [|x k IH]; intros [|s size] [|i] Hk Hs; cbn [length nth] in *; try lia; [reflexivity|].
  unfold over_extents in *. cbn [zip_with nth]. apply IH; lia.
Qed.

Lemma momentum_err B size c : lattice_ok B size -> moderate_matrix (b_pi B) -> Forall (fun s => s <= 2 ^ 51)%Z size -> on_grid size c ->
  close_to (IZR (b_dim B) + 6) (mom numF pi_d B size c) (over_extents size (exact_wave B (centred_coords size c))) (over_extents size (unsigned_wave B (centred_coords size c))).
Proof.
  intros H M F51 G. pose proof H as (W & Hs & H40 & [Hok _] & _). destruct (ok_dims _ _ H) as [Dm DS].
  destruct (on_grid_small size c F51 G) as [_ Wc].
  destruct (wave_err B (centred_coords size c) ltac:(lia) M Wc) as (L1 & L2 & C).
  assert (D0 : 0 <= IZR (b_dim B) <= 40) by (split; [apply (IZR_le 0)|apply (IZR_le _ 40)]; lia).
  assert (Lx : length (map (rrow numF pi_d B (centred_coords size c)) (upto (b_dim B))) = length size) by (rewrite map_length, upto_length; lia).
  assert (Lm : length (mom numF pi_d B size c) = length size) by (unfold mom; rewrite map_length, upto_length; lia).
  assert (Lo : forall k, length k = length size -> length (over_extents size k) = length size) by (intros k Hk; unfold over_extents; rewrite zip_length; lia).
  split; [rewrite Lm, Lo; lia|]. split; [rewrite !Lo; lia|]. intros i Hi. rewrite Lm in Hi.
  rewrite !zip_nth_R by lia. destruct (C i ltac:(lia)) as [Fi Ei].
  assert (U := unsigned_cases (b_pi B) (b_dim B) (map (fun z => 2 * PI * IZR z) (centred_coords size c)) (Z.of_nat i) ltac:(lia) M (wave_sizes _ _ Wc)).
  unfold exact_wave, unsigned_wave in Ei |- *. rewrite !upto_nth_map in Ei by lia. rewrite !upto_nth_map by lia. rewrite upto_nth_map in Fi by lia.
  cbv zeta in U. destruct U as (U1 & (U2 & U3) & U4).
  assert (Hsi : (0 < nth i size 0 <= 2 ^ 51)%Z).
  { rewrite Forall_forall in F51, Hok. split; [apply Hok, nth_In; exact Hi|apply F51, nth_In; exact Hi]. }
  destruct (over_err _ (nth i size 0%Z) _ _ (IZR (b_dim B) + 4) Fi ltac:(lia) ltac:(lra) Ei U4 U1 U3) as [Fq Eq].
  unfold mom. rewrite upto_nth_map by lia. rewrite Nat2Z.id. split; [exact Fq|]. apply Rle_trans with (1 := Eq).
  apply Rmult_le_compat_r.
  - apply Rmult_le_pos; [exact U2|]. left. apply Rinv_0_lt_compat. apply (IZR_lt 0). lia.
  - pose proof uro_pos. nra.
Qed.
