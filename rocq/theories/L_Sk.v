(** Lemmas about structure factors computed in doubles. *)
From Coq Require Import ZArith Reals List Bool Lia Lra.
From Flocq Require Import Core.
From Flocq Require Import IEEE754.BinarySingleNaN.
From Verif Require Import Base F64 Num S_Math S_Accum M_MathInt M_MathF M_Pairs M_Grid M_Bravais M_Lattice S_Grid S_Bravais S_Lattice S_Sk
  L_MathInt L_Grid L_Hist L_MathF L_Bravais L_Lattice L_LatticeK L_LatticeD L_LatticeV L_Fourier L_Space L_Pi L_Mom.
Import ListNotations.
Open Scope Z_scope.

(** * What AccumulateSk computes, for any arithmetic *)
Section Pure.
Context {T : Type} (N : num T) (pi : T) (fsin fcos : T -> T).
Context (B : bravais T) (size : list Z) (H : lattice_ok B size).
Notation L := (built N pi B size true).
Notation zero := (n_ofZ N 0).
Definition gvec (j : Z) : list T := snd (best N B size (coords_of size j)).
Definition gsum (l : list T) : T := fold_left (n_add N) l zero.
Definition gphase (k : list T) (j : Z) : T := gsum (zip_with (n_mul N) k (gvec j)).
Definition gamp (f : T -> T) (occ k : list T) : T :=
  gsum (map (fun j => n_mul N (f (gphase k j)) (nth (Z.to_nat j) occ zero)) (upto (prodZ size))).
Definition gmom (i : Z) : list T := mom N pi B size (coords_of size i).

Lemma gvector_from_zero j : valid_site size j -> GetVector L 0 j = Ok (gvec j).
Proof.
  intros Hj. pose proof H as (W & Hs & H40 & Hok & He & Hn). unfold GetVector. change (l_grid L) with (HyperCubicGrid size true).
  rewrite (mapped_from_origin (HyperCubicGrid size true)) by assumption || reflexivity. cbn [bind].
  destruct (distance_built N pi B size true j H Hj) as [V _]. exact V.
Qed.

Lemma gvec_size j : vsize (gvec j) = b_dim B.
Proof.
  destruct (ok_dims _ _ H) as [Dm DS]. unfold gvec, best.
  assert (G : forall l st, vsize (snd st) = b_dim B -> vsize (snd (fold_left (closer N B size (coords_of size j)) l st)) = b_dim B).
  { induction l as [|e l IH]; intros st Hst; [exact Hst|]. cbn [fold_left]. apply IH. unfold closer. destruct (n_lt N _ _); [|exact Hst].
    cbn [snd]. unfold pv. now apply vsize_map_upto; lia. }
  apply G. cbn [snd]. unfold pv. apply vsize_map_upto. lia.
Qed.

Lemma fold_map_add {A} (f : A -> T) l : forall s, fold_left (fun p a => n_add N p (f a)) l s = fold_left (n_add N) (map f l) s.
Proof. induction l as [|a l IH]; intros s; [reflexivity|]. cbn [fold_left map]. apply IH. Qed.

Lemma gphase_pure k j : vsize k = b_dim B -> phase N L k (gvec j) = Ok (gphase k j).
Proof.
  intros Hk. pose proof (gvec_size j) as Hx. destruct (ok_dims _ _ H) as [Dm DS]. unfold phase. change (dim (l_grid L)) with (vsize size).
  replace (vsize size) with (b_dim B) by (unfold vsize; lia).
  rewrite (ofold_pure _ (fun p q => n_add N p (n_mul N (nth (Z.to_nat q) k zero) (nth (Z.to_nat q) (gvec j) zero)))).
  - rewrite (fold_map_add (fun q => n_mul N (nth (Z.to_nat q) k zero) (nth (Z.to_nat q) (gvec j) zero))). unfold gphase, gsum.
    do 2 f_equal. rewrite <- Hk. apply (zip_upto zero zero (n_mul N)). congruence.
  - intros p q Hq. apply upto_In in Hq. rewrite (vget_at k q zero), (vget_at (gvec j) q zero) by lia. reflexivity.
Qed.

Lemma gamp_pure occ k : vsize occ = prodZ size -> vsize k = b_dim B ->
  amplitude N fsin fcos L occ k = Ok (gamp fsin occ k, gamp fcos occ k).
Proof.
  intros Ho Hk. pose proof H as (W & Hs & H40 & Hok & He & Hn). destruct (grid_sites size true Hok) as [En Pn].
  unfold amplitude. change (l_grid L) with (HyperCubicGrid size true). rewrite En.
  set (t := fun (f : T -> T) j => n_mul N (f (gphase k j)) (nth (Z.to_nat j) occ zero)).
  rewrite (ofold_pure _ (fun st j => (n_add N (fst st) (t fsin j), n_add N (snd st) (t fcos j)))).
  - assert (G : forall l a b, fold_left (fun st j => (n_add N (fst st) (t fsin j), n_add N (snd st) (t fcos j))) l (a, b) =
      (fold_left (n_add N) (map (t fsin) l) a, fold_left (n_add N) (map (t fcos) l) b)).
    { induction l as [|j l IH]; intros a b; [reflexivity|]. cbn [fold_left map fst snd]. apply IH. }
    rewrite G. reflexivity.
  - intros st j Hj. apply upto_In in Hj. rewrite gvector_from_zero by exact Hj. cbn [bind].
    rewrite gphase_pure by auto. cbn [bind]. rewrite (vget_at occ j zero) by lia. reflexivity.
Qed.

Definition ginc (occ : list T) (mult : T) (i : Z) : T :=
  n_div N (n_mul N mult (n_add N (n_mul N (gamp fsin occ (gmom i)) (gamp fsin occ (gmom i))) (n_mul N (gamp fcos occ (gmom i)) (gamp fcos occ (gmom i)))))
    (n_ofZ N (prodZ size * prodZ size)).

Lemma gaccumulate occ sk mult : vsize occ = prodZ size -> vsize sk = prodZ size -> prodZ size < 2 ^ 32 ->
  AccumulateSk N fsin fcos L occ sk mult = Ok (map (fun i => n_add N (nth (Z.to_nat i) sk zero) (ginc occ mult i)) (upto (prodZ size))).
Proof.
  intros Ho Hsk Hlt. pose proof H as (W & Hs & H40 & Hok & He & Hn). destruct (grid_sites size true Hok) as [En Pn].
  destruct (ok_dims _ _ H) as [Dm DS].
  unfold AccumulateSk. change (l_grid L) with (HyperCubicGrid size true). change (closed (HyperCubicGrid size true)) with true. cbv iota zeta. rewrite En.
  assert (Sq : square_u (prodZ size) = prodZ size * prodZ size) by (unfold square_u; apply u64_small; rewrite two64_eq; nia).
  assert (Vk : forall i, vsize (gmom i) = b_dim B) by (intros i; unfold gmom, mom; apply vsize_map_upto; lia).
  rewrite (ofold_ext _ (fun s i => x <- vget s i ;; y <- Ok (n_add N x (ginc occ mult i)) ;; vset s i y)).
  - rewrite <- Hsk.
    rewrite (update_each zero (fun i x => Ok (n_add N x (ginc occ mult i))) (fun i x => n_add N x (ginc occ mult i)) sk); [reflexivity|].
    intros. reflexivity.
  - intros s i Hi. apply upto_In in Hi. unfold built at 1. cbn [l_mom].
    rewrite (vget_sites (fun i => mom N pi B size (coords_of size i))) by exact Hi. fold (gmom i). cbn [bind].
    rewrite gamp_pure by auto. cbn [bind fst snd]. rewrite Sq. destruct (vget s i) as [x| | |]; reflexivity.
Qed.
End Pure.

(** * Sums of doubles *)
Open Scope R_scope.

Lemma pw1 n : 1 <= (1 + uro) ^ n.
Proof. apply pow_R1_Rle. pose proof uro_pos. lra. Qed.

Lemma sum_abs_pos l : 0 <= sum_abs l.
Proof. unfold sum_abs. induction l as [|x l IH]; unfold sumR in *; cbn [map fold_right]; [lra|]. pose proof (Rabs_pos x). lra. Qed.
Lemma sum_abs_cons x l : sum_abs (x :: l) = Rabs x + sum_abs l.
Proof. reflexivity. Qed.
Lemma sumR_cons x l : sumR (x :: l) = x + sumR l.
Proof. reflexivity. Qed.

Lemma sum_err l : forall s, fin s -> Forall fin l -> (1 + uro) ^ length l * (Rabs (RR s) + sum_abs (map RR l)) <= bpow radix2 1000 ->
  let r := fold_left fadd l s in
  fin r /\ Rabs (RR r - (RR s + sumR (map RR l))) <= ((1 + uro) ^ length l - 1) * (Rabs (RR s) + sum_abs (map RR l)).
Proof.
  pose proof uro_pos as U0. induction l as [|x l IH]; intros s Fs Fl Hb; cbn [length fold_left map] in *.
  - split; [exact Fs|]. cbn [pow sumR fold_right]. unfold sumR, sum_abs. cbn [fold_right map]. rewrite Rplus_0_r, Rminus_diag_eq, Rabs_R0 by reflexivity. lra.
  - inversion Fl as [|? ? Fx Fl']; subst. rewrite sum_abs_cons in *. rewrite sumR_cons. cbn [pow] in *.
    pose proof (pw1 (length l)) as P1. pose proof (sum_abs_pos (map RR l)) as A0. pose proof (Rabs_pos (RR s)). pose proof (Rabs_pos (RR x)).
    set (p := (1 + uro) ^ length l) in *. set (a := sum_abs (map RR l)) in *. set (S := Rabs (RR s)) in *. set (X := Rabs (RR x)) in *.
    assert (Tr : Rabs (RR s + RR x) <= S + X) by apply Rabs_triang.
    assert (Big : (1 + uro) * (S + X + a) <= (1 + uro) * p * (S + (X + a))).
    { replace (S + X + a) with (1 * (S + (X + a))) by ring. rewrite Rmult_assoc. apply Rmult_le_compat_l; [lra|]. apply Rmult_le_compat_r; lra. }
    pose proof (plus_err (RR s) (RR x) (fmt_RR s) (fmt_RR x)) as E.
    assert (Ra : Rabs (rnd (RR s + RR x)) <= (1 + uro) * (S + X)).
    { pose proof (Rabs_triang_inv (rnd (RR s + RR x)) (RR s + RR x)). nra. }
    destruct (fadd_ok s x Fs Fx) as [Es Fa].
    { apply Rle_lt_trans with (bpow radix2 1000); [nra|]. unfold fmax. apply bpow_lt. lia. }
    destruct (IH (fadd s x) Fa Fl') as [Fr Er].
    { rewrite Es. apply Rle_trans with (2 := Hb). rewrite (Rmult_comm (1 + uro) p), Rmult_assoc. apply Rmult_le_compat_l; [lra|]. nra. }
    split; [exact Fr|]. set (r := fold_left fadd l (fadd s x)) in *. rewrite Es in Er.
    replace (RR r - (RR s + (RR x + sumR (map RR l)))) with ((RR r - (rnd (RR s + RR x) + sumR (map RR l))) + (rnd (RR s + RR x) - (RR s + RR x))) by ring.
    eapply Rle_trans; [apply Rabs_triang|]. apply Rle_trans with ((p - 1) * ((1 + uro) * (S + X) + a) + uro * (S + X)).
    + apply Rplus_le_compat; [|nra]. apply Rle_trans with (1 := Er). apply Rmult_le_compat_l; lra.
    + replace (((1 + uro) * p - 1) * (S + (X + a))) with ((p - 1) * ((1 + uro) * (S + X) + a) + uro * (S + X) + p * uro * a) by ring.
      assert (0 <= p * uro * a) by (apply Rmult_le_pos; [nra|lra]). lra.
Qed.

(** (1+u)^n is at most 1 + (n+1)u for n up to 2^26. *)
Lemma pow_linear n : (Z.of_nat n <= 2 ^ 26)%Z -> (1 + uro) ^ n <= 1 + (INR n + INR n * INR n * uro) * uro /\ INR n * INR n * uro <= / 2 /\ INR n * uro <= / 1000000.
Proof.
  intros Hn. pose proof uro_pos as U0. pose proof uro_val as Uv.
  assert (B : INR n <= 67108864) by (rewrite INR_IZR_INZ; apply IZR_le; exact Hn).
  pose proof (pos_INR n) as N0.
  assert (Ue : uro * 9007199254740992 = 1) by (rewrite Uv; change (IZR (2 ^ 53)) with 9007199254740992; field).
  assert (Q : INR n * INR n <= 67108864 * 67108864) by (apply Rmult_le_compat; lra).
  assert (Q2 : INR n * INR n * uro <= / 2) by nra. assert (Q3 : INR n * uro <= / 1000000) by nra.
  split; [|split; assumption]. clear Q2 Q3 Hn Uv.
  assert (G : forall m, (m <= n)%nat -> (1 + uro) ^ m <= 1 + (INR m + INR m * INR m * uro) * uro); [|apply G; lia].
  induction m as [|m IH]; intros Hm; [cbn [pow INR]; lra|]. rewrite S_INR. cbn [pow]. specialize (IH ltac:(lia)).
  assert (Bm : INR m <= 67108864) by (apply Rle_trans with (2 := B); apply le_INR; lia). pose proof (pos_INR m) as M0. set (x := INR m) in *. clearbody x.
  apply Rle_trans with ((1 + uro) * (1 + (x + x * x * uro) * uro)); [apply Rmult_le_compat_l; lra|].
  assert (K : x * x * uro <= x + 1) by nra.
  assert (K2 : x * x * uro * (uro * uro) <= (x + 1) * (uro * uro)) by (apply Rmult_le_compat_r; [nra|exact K]). nra.
Qed.

Lemma dsum_err {A} (l : list A) (x : A -> f64) (y w : A -> R) (e : R) : (Z.of_nat (length l) <= 2 ^ 26)%Z -> 0 <= e <= 1 ->
  (forall a, In a l -> fin (x a) /\ Rabs (RR (x a) - y a) <= e * w a /\ Rabs (y a) <= w a) ->
  sumR (map w l) <= bpow radix2 900 ->
  let r := fold_left fadd (map x l) f0 in
  fin r /\ Rabs (RR r - sumR (map y l)) <= (e + (INR (length l) + / 2) * (1 + e) * uro) * sumR (map w l).
Proof.
  intros Hn He P Hb. destruct (pow_linear (length l) Hn) as (P1 & P2 & P3). pose proof uro_pos as U0.
  assert (Fl : Forall fin (map x l)) by (apply Forall_map, Forall_forall; intros a Ha; apply (P a Ha)).
  assert (W0 : 0 <= sumR (map w l)).
  { clear -P. induction l as [|a l IH]; cbn [map]; [unfold sumR; cbn; lra|]. rewrite sumR_cons.
    pose proof (IH (fun a Ha => P a (or_intror Ha))). destruct (P a (or_introl eq_refl)) as (_ & _ & K). pose proof (Rabs_pos (y a)). lra. }
  assert (Sa : sum_abs (map RR (map x l)) <= (1 + e) * sumR (map w l)).
  { clear -P. induction l as [|a l IH]; cbn [map]; [unfold sum_abs, sumR; cbn; lra|]. rewrite sumR_cons, sum_abs_cons.
    pose proof (IH (fun a Ha => P a (or_intror Ha))). destruct (P a (or_introl eq_refl)) as (_ & K1 & K2).
    pose proof (Rabs_triang_inv (RR (x a)) (y a)). lra. }
  assert (Se : Rabs (sumR (map RR (map x l)) - sumR (map y l)) <= e * sumR (map w l)).
  { clear -P. induction l as [|a l IH]; cbn [map]; [unfold sumR; cbn; rewrite Rminus_0_r, Rabs_R0; lra|]. rewrite !sumR_cons.
    pose proof (IH (fun a Ha => P a (or_intror Ha))). destruct (P a (or_introl eq_refl)) as (_ & K1 & K2).
    replace (RR (x a) + sumR (map RR (map x l)) - (y a + sumR (map y l))) with ((RR (x a) - y a) + (sumR (map RR (map x l)) - sumR (map y l))) by ring.
    eapply Rle_trans; [apply Rabs_triang|]. lra. }
  pose proof (pos_INR (length l)) as N0.
  assert (Pg : (1 + uro) ^ length l - 1 <= (INR (length l) + / 2) * uro) by nra.
  assert (P4 : (1 + uro) ^ length l <= 2) by (pose proof uro_small; lra).
  pose proof (pw1 (length l)) as Pp. pose proof (sum_abs_pos (map RR (map x l))) as Sp.
  destruct (sum_err (map x l) f0 fin_f0 Fl) as [Fr Er].
  { rewrite map_length, RR_f0, Rabs_R0, Rplus_0_l. apply Rle_trans with (4 * bpow radix2 900).
    - apply Rle_trans with (2 * ((1 + e) * sumR (map w l))); [apply Rmult_le_compat; lra|]. nra.
    - change 4 with (bpow radix2 2). rewrite <- bpow_plus. apply bpow_le. lia. }
  rewrite map_length, RR_f0, Rabs_R0, !Rplus_0_l in Er. split; [exact Fr|]. set (r := fold_left fadd (map x l) f0) in *.
  replace (RR r - sumR (map y l)) with ((RR r - sumR (map RR (map x l))) + (sumR (map RR (map x l)) - sumR (map y l))) by ring.
  eapply Rle_trans; [apply Rabs_triang|]. rewrite Rmult_plus_distr_r, (Rplus_comm (e * _)). apply Rplus_le_compat; [|exact Se].
  apply Rle_trans with (1 := Er). apply Rle_trans with ((INR (length l) + / 2) * uro * ((1 + e) * sumR (map w l))); [|apply Req_le; ring].
  apply Rmult_le_compat; lra.
Qed.

Lemma sin_lip a b : Rabs (sin a - sin b) <= Rabs (a - b).
Proof.
  destruct (MVT_abs sin cos b a) as (c & E & _); [intros c _; apply derivable_pt_lim_sin|]. rewrite E.
  assert (Rabs (cos c) <= 1) by (apply Rabs_le; apply COS_bound). pose proof (Rabs_pos (a - b)). nra.
Qed.
Lemma cos_lip a b : Rabs (cos a - cos b) <= Rabs (a - b).
Proof.
  destruct (MVT_abs cos (fun x => - sin x) b a) as (c & E & _); [intros c _; apply derivable_pt_lim_cos|]. rewrite E, Rabs_Ropp.
  assert (Rabs (sin c) <= 1) by (apply Rabs_le; apply SIN_bound). pose proof (Rabs_pos (a - b)). nra.
Qed.

(** One term of a phase: a momentum of three units times an integer. *)
Lemma phase_term x y c s z : (Z.abs c * 2 <= s <= 2 ^ 53)%Z -> (0 < s)%Z -> (2 * Z.abs z <= s)%Z ->
  close3 x (2 * PI * IZR c / IZR s) -> fin y -> RR y = IZR z ->
  let k := 2 * PI * IZR c / IZR s in
  fin (fmul x y) /\ Rabs (RR (fmul x y) - k * IZR z) <= 5 * uro * (2 * IZR s) /\ Rabs (k * IZR z) <= 2 * IZR s.
Proof.
  intros Hc Hs Hz [Fx Ex] Fy Ey k. pose proof pi_d_range as [_ [P3 P4]]. pose proof uro_pos as U0. pose proof uro_small as U1.
  fold k in Ex.
  assert (S0 : 1 <= IZR s) by (apply IZR_le; lia). assert (S1 : IZR s <= bpow radix2 53) by (apply (IZR_le s (2 ^ 53)); lia).
  assert (Iv : 0 < / IZR s) by (apply Rinv_0_lt_compat; lra). assert (Si : IZR s * / IZR s = 1) by (apply Rinv_r; lra).
  assert (C2 : Rabs (IZR c) * 2 <= IZR s) by (rewrite <- abs_IZR, <- mult_IZR; apply IZR_le; lia).
  assert (Z2 : 2 * Rabs (IZR z) <= IZR s) by (rewrite <- abs_IZR, <- mult_IZR; apply IZR_le; lia).
  assert (Ek : Rabs k = 2 * PI * Rabs (IZR c) * / IZR s).
  { unfold k, Rdiv. rewrite !Rabs_mult, (Rabs_pos_eq 2), (Rabs_pos_eq PI), (Rabs_pos_eq (/ IZR s)) by lra. reflexivity. }
  assert (K4 : Rabs k <= 4).
  { rewrite Ek. assert (Rabs (IZR c) * 2 * / IZR s <= 1) by (rewrite <- Si; apply Rmult_le_compat_r; lra).
    replace (2 * PI * Rabs (IZR c) * / IZR s) with (PI * (Rabs (IZR c) * 2 * / IZR s)) by ring.
    pose proof (Rabs_pos (IZR c)). assert (0 <= Rabs (IZR c) * 2 * / IZR s) by (apply Rmult_le_pos; lra). nra. }
  assert (Kz : Rabs (k * IZR z) <= 2 * IZR s) by (rewrite Rabs_mult; pose proof (Rabs_pos k); pose proof (Rabs_pos (IZR z)); nra).
  assert (Sm : bpow radix2 55 = 4 * bpow radix2 53) by (change 4 with (bpow radix2 2); rewrite <- bpow_plus; reflexivity).
  assert (Kx : Rabs (RR x * RR y - k * IZR z) <= 3 * uro * Rabs (k * IZR z)).
  { rewrite Ey. replace (RR x * IZR z - k * IZR z) with ((RR x - k) * IZR z) by ring. rewrite !Rabs_mult, <- Rmult_assoc.
    apply Rmult_le_compat_r; [apply Rabs_pos|exact Ex]. }
  pose proof (Rabs_pos (k * IZR z)) as KZ0. pose proof (Rabs_triang_inv (RR x * RR y) (k * IZR z)) as T1.
  assert (Rr : Rabs (rnd (RR x * RR y) - RR x * RR y) <= uro * Rabs (RR x * RR y)).
  { destruct (Z.eq_dec c 0) as [->|Nc].
    - assert (RR x = 0) as ->.
      { unfold k in Ex. unfold Rdiv in Ex. rewrite Rmult_0_r, Rmult_0_l, Rminus_0_r, Rabs_R0, Rmult_0_r in Ex. pose proof (Rabs_pos (RR x)).
        destruct (Req_dec (RR x) 0) as [E|E]; [exact E|]. apply Rabs_pos_lt in E. lra. }
      rewrite Rmult_0_l, rnd_0, Rminus_0_r, Rabs_R0. lra.
    - destruct (Z.eq_dec z 0) as [->|Nz]; [rewrite Ey, Rmult_0_r, rnd_0, Rminus_0_r, Rabs_R0; lra|].
      apply rnd_rel.
      assert (C1 : 1 <= Rabs (IZR c)) by (rewrite <- abs_IZR; apply IZR_le; lia).
      assert (Z1 : 1 <= Rabs (IZR z)) by (rewrite <- abs_IZR; apply IZR_le; lia).
      assert (V1 : uro <= / IZR s) by (rewrite uro_val; apply Rinv_le_contravar; [lra|apply IZR_le; lia]).
      assert (K1 : uro <= Rabs k) by (rewrite Ek; assert (1 <= 2 * PI * Rabs (IZR c)) by nra; nra).
      assert (X1 : uro / 2 <= Rabs (RR x)).
      { pose proof (Rabs_triang_inv k (RR x)) as T. rewrite (Rabs_minus_sym k) in T. nra. }
      rewrite Rabs_mult, Ey. apply Rle_trans with (uro / 2).
      + unfold uro. replace (bpow radix2 (-53) / 2) with (bpow radix2 (-54)); [apply bpow_le; lia|].
        replace (bpow radix2 (-53)) with (bpow radix2 (-54) * 2); [field|]. change 2 with (bpow radix2 1). rewrite <- bpow_plus. reflexivity.
      + nra. }
  assert (Pb : Rabs (RR x * RR y) <= bpow radix2 55).
  { rewrite Sm. apply Rle_trans with ((1 + 3 * uro) * Rabs (k * IZR z)); [lra|]. nra. }
  destruct (fmul_ok x y Fx Fy) as [A B]; [apply (no_overflow _ 55); [lia|exact Pb]|].
  split; [exact B|]. split; [|exact Kz]. rewrite A. set (t := RR x * RR y) in *. set (kz := k * IZR z) in *.
  replace (rnd t - kz) with ((rnd t - t) + (t - kz)) by ring. eapply Rle_trans; [apply Rabs_triang|].
  apply Rle_trans with (5 * uro * Rabs kz); [|apply Rmult_le_compat_l; lra]. assert (T2 : Rabs t <= (1 + 3 * uro) * Rabs kz) by lra.
  apply (Rmult_le_compat_l uro) in T2; [|lra]. assert (0 <= uro * Rabs kz) by (apply Rmult_le_pos; lra).
  assert (uro * (uro * Rabs kz) <= / 1000000 * (uro * Rabs kz)) by (apply Rmult_le_compat_r; lra). lra.
Qed.

Lemma Forall3_nth {A B C} (P : A -> B -> C -> Prop) a b c : forall la lb lc, Forall3 P la lb lc ->
  length lb = length la /\ length lc = length la /\ forall n, (n < length la)%nat -> P (nth n la a) (nth n lb b) (nth n lc c).
Proof.
  induction 1 as [|x y z la lb lc Hp F (L1 & L2 & IH)]; cbn [length]; [repeat split; intros; lia|]. split; [lia|]. split; [lia|].
  intros [|n] Hn; cbn [nth]; [exact Hp|apply IH; lia].
Qed.

Section Hyper.
Context (B : bravais f64) (size : list Z) (U : unit_lattice f0 f1 B) (H : lattice_ok B size).
Context (Hb : (4 * sum_squares size <= 2 ^ 53)%Z) (HN : (prodZ size <= 2 ^ 26)%Z).
Context (delta : R) (fsin fcos : f64 -> f64) (Htrig : trig_close delta fsin fcos) (Hd : 0 <= delta <= / 200).
Notation coords := (coords_of size).
Notation D := (length size).

Lemma size_facts : Forall (fun s => (0 < s <= 2 ^ 26)%Z) size /\ Forall (fun s => (s <= 2 ^ 53)%Z) size /\ (Z.of_nat D <= 40)%Z /\ (0 < sumZ size <= 2 ^ 32)%Z.
Proof.
  pose proof H as (W & Hs & H40 & Hok & He & Hn). destruct (ok_dims _ _ H) as [Dm DS]. pose proof (sizes_pos _ Hok) as pos.
  assert (F : Forall (fun s => (0 < s <= 2 ^ 26)%Z) size).
  { clear -pos Hb. assert (G : forall m, (m <= 2 ^ 51)%Z -> (sum_squares size <= m)%Z -> Forall (fun s => (0 < s <= 2 ^ 26)%Z) size).
    { induction pos as [|s l Hs F IH]; intros m Hm Hl; constructor.
      - rewrite sum_squares_cons in Hl. pose proof (sum_squares_nonneg l). nia.
      - assert (Hb' : (4 * sum_squares l <= 2 ^ 53)%Z) by (rewrite sum_squares_cons in Hb; nia). apply (IH Hb' m Hm). rewrite sum_squares_cons in Hl. nia. }
    apply (G (2 ^ 51)%Z); lia. }
  split; [exact F|]. split; [eapply Forall_impl; [|exact F]; cbv beta; intros; lia|]. unfold vsize in *. split; [lia|].
  assert (G : forall l, Forall (fun s => (0 < s <= 2 ^ 26)%Z) l -> (0 <= sumZ l <= 2 ^ 26 * Z.of_nat (length l))%Z /\ (l <> [] -> (0 < sumZ l)%Z)).
  { clear. intros l F. induction F as [|s l Hs F IH].
    - split; [cbn; lia|]. intros E. now destruct E.
    - destruct IH as [IH _]. cbn [length]. change (sumZ (s :: l)) with (s + sumZ l)%Z. split; [lia|]. intros _. lia. }
  destruct (G size F) as [G1 G2]. split; [apply G2; intros ->; cbn in *; lia|lia].
Qed.

Lemma gvec_int j : valid_site size j -> exists z, Forall2 (fun y k => fin y /\ RR y = IZR k) (gvec numF B size j) z /\
  Forall3 (fun s d k => (s | k - d)%Z /\ (2 * Z.abs k <= s)%Z) size (coords j) z.
Proof.
  intros Hj. pose proof H as (W & Hs & H40 & Hok & He & Hn). destruct (grid_sites size true Hok) as [En Pn].
  assert (H0 : valid_site size 0) by (unfold valid_site in *; lia).
  destruct (hypercubic_vector B size U H Hb) as (L & EL & P). rewrite lattice_built in EL by exact H. injection EL as <-.
  destruct (P 0%Z j (coords 0%Z) (coords j) H0 Hj (grid_coords size true 0 Hok H0) (grid_coords size true j Hok Hj)) as (v & z & x & Ev & Fv & F3 & _).
  rewrite gvector_from_zero in Ev by assumption. injection Ev as <-. exists z. split; [exact Fv|].
  rewrite origin_coords in F3 by exact Hok. destruct (coords_of_spec size j Hok Hj) as (_ & Gj & _).
  rewrite zip_sub_zeros in F3 by now apply on_grid_length. exact F3.
Qed.

Definition turn (i j : Z) : R := dot (allowed size (coords i)) (map IZR (coords j)).
Definition phase_err : R := 2 * uro * ((INR D + 6) * IZR (sumZ size)).

Lemma phase_close i j : valid_site size i -> valid_site size j ->
  let p := gphase numF B size (gmom numF pi_d B size i) j in
  exists q, fin p /\ Rabs (RR p - q) <= phase_err /\ Rabs (RR p) <= 2 ^ 40 /\ sin q = sin (turn i j) /\ cos q = cos (turn i j).
Proof.
  intros Hi Hj p. pose proof H as (W & Hs & H40 & Hok & He & Hn). destruct (ok_dims _ _ H) as [Dm DS]. pose proof (sizes_pos _ Hok) as pos.
  destruct size_facts as (SF & S53 & D40 & SS). pose proof uro_pos as U0. pose proof uro_small as U1.
  destruct (gvec_int j Hj) as (z & Fv & F3). destruct (coords_of_spec size i Hok Hi) as (_ & Gi & _). destruct (coords_of_spec size j Hok Hj) as (_ & Gj & _).
  pose proof (on_grid_length _ _ Gi) as Li. pose proof (on_grid_length _ _ Gj) as Lj.
  destruct (Forall3_nth _ 0%Z 0%Z 0%Z _ _ _ F3) as (_ & Lz & N3). assert (Lv : length (gvec numF B size j) = length z) by (eapply Forall2_length; exact Fv).
  destruct (centred_small size (coords i) Gi S53) as [_ C2].
  assert (Ll : length (centred size (coords i)) = D) by (unfold centred; rewrite zip_length; lia).
  set (k := gmom numF pi_d B size i) in *.
  assert (Lk : length k = D) by (apply mom_length; exact H).
  set (v := gvec numF B size j) in *.
  set (tx := fun n => fmul (nth (Z.to_nat n) k (of_Z 0)) (nth (Z.to_nat n) v (of_Z 0))).
  set (ty := fun n => nth (Z.to_nat n) (allowed size (coords i)) 0 * nth (Z.to_nat n) (map IZR z) 0).
  set (tw := fun n => 2 * IZR (nth (Z.to_nat n) size 0%Z)).
  assert (Ep : p = fold_left fadd (map tx (upto (vsize k))) f0).
  { unfold p, gphase, gsum. cbn [numF n_add n_mul n_ofZ]. fold k v. unfold tx. rewrite (zip_upto (of_Z 0) (of_Z 0) fmul) by (unfold vsize; lia). reflexivity. }
  assert (Eq : dot (allowed size (coords i)) (map IZR z) = sumR (map ty (upto (vsize k)))).
  { unfold dot. rewrite <- (zip_upto 0 0 Rmult) by (unfold vsize; rewrite map_length, allowed_length by lia; lia). fold ty.
    replace (vsize (allowed size (coords i))) with (vsize k) by (unfold vsize; rewrite allowed_length by lia; lia). reflexivity. }
  assert (Ew : sumR (map tw (upto (vsize k))) = 2 * IZR (sumZ size)).
  { replace (vsize k) with (vsize size) by (unfold vsize; lia). unfold tw. rewrite <- (map_map (fun n => nth (Z.to_nat n) size 0%Z) (fun s => 2 * IZR s)), map_nth_upto.
    clear. induction size as [|s l IH]; [unfold sumR; cbn; ring|]. cbn [map]. rewrite sumR_cons, IH. change (sumZ (s :: l)) with (s + sumZ l)%Z. rewrite plus_IZR. ring. }
  assert (Sb : IZR (sumZ size) <= 4294967296) by (apply IZR_le; lia). assert (S0 : 1 <= IZR (sumZ size)) by (apply IZR_le; lia).
  assert (Dr : 0 <= INR D <= 40) by (split; [apply pos_INR|rewrite INR_IZR_INZ; apply IZR_le; exact D40]).
  destruct (dsum_err (upto (vsize k)) tx ty tw (5 * uro)) as [Fp Er].
  - rewrite upto_length. unfold vsize. lia.
  - lra.
  - intros n In. apply upto_In in In. unfold vsize in In. assert (Ln : (Z.to_nat n < D)%nat) by lia.
    destruct (unit_mom_nth B size (coords i) (Z.to_nat n) U H S53 Gi Ln) as [Cl _]. rewrite allowed_nth in Cl by lia.
    destruct (Forall2_nth _ 0%Z 0%Z _ _ C2 (Z.to_nat n) ltac:(lia)) as [Q1 Q2].
    destruct (N3 (Z.to_nat n) Ln) as [_ Qz]. destruct (Forall2_nth _ (of_Z 0) 0%Z _ _ Fv (Z.to_nat n) ltac:(lia)) as [Fy Ey].
    assert (Q3 : (nth (Z.to_nat n) size 0 <= 2 ^ 53)%Z) by (rewrite Forall_forall in S53; apply S53, nth_In; lia).
    unfold tx, ty, tw. rewrite allowed_nth by lia. change 0 with (IZR 0). rewrite map_nth.
    apply phase_term; auto; lia.
  - rewrite Ew. apply Rle_trans with (bpow radix2 40); [|apply bpow_le; lia]. change (bpow radix2 40) with (IZR (2 ^ 40)). change (IZR (2 ^ 40)) with 1099511627776. lra.
  - rewrite <- Ep in Fp, Er. rewrite Ew, <- Eq in Er. rewrite upto_length in Er. replace (Z.to_nat (vsize k)) with D in Er by (unfold vsize; lia).
    exists (dot (allowed size (coords i)) (map IZR z)).
    assert (Pe : Rabs (RR p - dot (allowed size (coords i)) (map IZR z)) <= phase_err).
    { apply Rle_trans with (1 := Er). unfold phase_err. replace (2 * uro * ((INR D + 6) * IZR (sumZ size))) with (uro * (INR D + 6) * (2 * IZR (sumZ size))) by ring.
      apply Rmult_le_compat_r; [lra|]. assert (uro * INR D <= / 1000) by nra. nra. }
    assert (Qb : Rabs (dot (allowed size (coords i)) (map IZR z)) <= 2 * IZR (sumZ size)).
    { rewrite Eq, <- Ew. assert (G : forall l, (forall n, In n l -> Rabs (ty n) <= tw n) -> Rabs (sumR (map ty l)) <= sumR (map tw l)).
      { clear. induction l as [|a l IH]; intros P; cbn [map]; [unfold sumR; cbn; rewrite Rabs_R0; lra|]. rewrite !sumR_cons.
        eapply Rle_trans; [apply Rabs_triang|]. apply Rplus_le_compat; [apply P; now left|apply IH; intros; apply P; now right]. }
      apply G. intros n In. apply upto_In in In. unfold vsize in In. assert (Ln : (Z.to_nat n < D)%nat) by lia.
      destruct (unit_mom_nth B size (coords i) (Z.to_nat n) U H S53 Gi Ln) as [Cl _]. rewrite allowed_nth in Cl by lia.
      destruct (Forall2_nth _ 0%Z 0%Z _ _ C2 (Z.to_nat n) ltac:(lia)) as [Q1 Q2].
      destruct (N3 (Z.to_nat n) Ln) as [_ Qz]. destruct (Forall2_nth _ (of_Z 0) 0%Z _ _ Fv (Z.to_nat n) ltac:(lia)) as [Fy Ey].
      assert (Q3 : (nth (Z.to_nat n) size 0 <= 2 ^ 53)%Z) by (rewrite Forall_forall in S53; apply S53, nth_In; lia).
      unfold ty, tw. rewrite allowed_nth by lia. change 0 with (IZR 0). rewrite map_nth.
      eapply phase_term; eauto; lia. }
    split; [exact Fp|]. split; [exact Pe|]. split.
    + pose proof (Rabs_triang_inv (RR p) (dot (allowed size (coords i)) (map IZR z))) as T.
      assert (PE : phase_err <= 1).
      { unfold phase_err. assert (uro * 9007199254740992 = 1) by (rewrite uro_val; change (IZR (2 ^ 53)) with 9007199254740992; field).
        assert ((INR D + 6) * IZR (sumZ size) <= 46 * 4294967296) by (apply Rmult_le_compat; lra). nra. }
      apply Rle_trans with (2 * 4294967296 + 1); [lra|]. lra.
    + unfold turn. rewrite !allowed_dot by lia.
      destruct (frac_congruent size pos (centred size (coords i)) (coords j) z) as [t Et].
      * lia.
      * eapply Forall3_impl; [|exact F3]. cbv beta. intros s d y _ [Q _]. exact Q.
      * rewrite Et, Rmult_plus_distr_l. destruct (cos_sin_turns (2 * PI * frac size (centred size (coords i)) (coords j)) t) as [-> ->]. auto.
Qed.

Lemma bpow2 n : bpow radix2 (Z.of_nat n) = 2 ^ n.
Proof. rewrite bpow_powerRZ. change (IZR radix2) with 2. symmetry. apply pow_powerRZ. Qed.

Lemma mul_term s o S e : fin s -> Rabs (RR s - S) <= e -> Rabs S <= 1 -> 0 <= e <= / 100 -> moderate o ->
  fin (fmul s o) /\ Rabs (RR (fmul s o) - S * RR o) <= (e + 3 * uro) * Rabs (RR o) /\ Rabs (S * RR o) <= Rabs (RR o).
Proof.
  intros Fs Es Hs He [Fo Ho]. pose proof uro_pos as U0. pose proof uro_small as U1. pose proof (Rabs_pos (RR o)) as O0.
  assert (Sb : Rabs (RR s) <= 1.01) by (pose proof (Rabs_triang_inv (RR s) S); lra).
  assert (So : Rabs (S * RR o) <= Rabs (RR o)) by (rewrite Rabs_mult; pose proof (Rabs_pos S); nra).
  destruct Ho as [O|[O1 O2]].
  - destruct (fmul_R0 s o Fs Fo O) as [F E]. split; [exact F|]. split; [|exact So]. rewrite E, O, Rmult_0_r, Rminus_0_r, Rabs_R0. lra.
  - pose proof (rnd_err (RR s * RR o)) as R1.
    assert (Mo : Rabs (RR s * RR o) <= 1.01 * Rabs (RR o)) by (rewrite Rabs_mult; nra).
    assert (Et : eta <= uro * Rabs (RR o)).
    { apply Rle_trans with (uro * / 2 ^ 200); [|apply Rmult_le_compat_l; lra]. rewrite <- (bpow2 200), <- bpow_opp. unfold uro, eta.
      rewrite <- bpow_plus. apply bpow_le. lia. }
    destruct (fmul_ok s o Fs Fo) as [A F].
    { apply (no_overflow _ 201); [lia|]. apply Rle_trans with (1.01 * 2 ^ 200); [nra|].
      replace (bpow radix2 201) with (2 * 2 ^ 200); [pose proof (pow_lt 2 200 ltac:(lra)); lra|]. exact (eq_sym (bpow2 201)). }
    split; [exact F|]. split; [|exact So]. rewrite A.
    replace (rnd (RR s * RR o) - S * RR o) with ((rnd (RR s * RR o) - RR s * RR o) + (RR s - S) * RR o) by ring.
    eapply Rle_trans; [apply Rabs_triang|]. rewrite (Rabs_mult (RR s - S)). nra.
Qed.

Definition amp (F : R -> R) (occ : list f64) (i : Z) : R :=
  sumR (map (fun j => F (turn i j) * RR (nth (Z.to_nat j) occ f0)) (upto (prodZ size))).
Notation E := (amplitude_error delta size).

Lemma E_small : 8 * uro <= E <= / 100 /\ 0 <= delta + phase_err <= / 101 /\ E = delta + phase_err + 2 * uro * (IZR (prodZ size) + 2) /\ 1 <= IZR (prodZ size).
Proof.
  destruct size_facts as (SF & S53 & D40 & SS). pose proof uro_pos as U0. pose proof H as (W & Hs & H40 & Hok & He & Hn). destruct (grid_sites size true Hok) as [En Pn].
  assert (Sb : IZR (sumZ size) <= 4294967296) by (apply IZR_le; lia). assert (S0 : 1 <= IZR (sumZ size)) by (apply IZR_le; lia).
  assert (Dr : 0 <= INR D <= 40) by (split; [apply pos_INR|rewrite INR_IZR_INZ; apply IZR_le; exact D40]).
  assert (Nb : 1 <= IZR (prodZ size) <= 67108864) by (split; apply IZR_le; lia).
  assert (Uv : uro * 9007199254740992 = 1) by (rewrite uro_val; change (IZR (2 ^ 53)) with 9007199254740992; field).
  assert (DS : 6 <= (INR D + 6) * IZR (sumZ size) <= 46 * 4294967296).
  { split; [|apply Rmult_le_compat; lra]. assert (6 * 1 <= (INR D + 6) * IZR (sumZ size)) by (apply Rmult_le_compat; lra). lra. }
  unfold amplitude_error, phase_err. set (ds := (INR D + 6) * IZR (sumZ size)) in *. clearbody ds. set (n := IZR (prodZ size)) in *. clearbody n.
  split; [|split; [|split; [ring|lra]]]; nra.
Qed.

Lemma amp_close f F occ i : (forall x q, fin x -> Rabs (RR x) <= 2 ^ 40 -> Rabs (RR x - q) <= phase_err -> fin (f x) /\ Rabs (RR (f x) - F q) <= delta + phase_err) ->
  (forall q, Rabs (F q) <= 1) -> (forall q j, sin q = sin (turn i j) -> cos q = cos (turn i j) -> F q = F (turn i j)) ->
  valid_site size i -> vsize occ = prodZ size -> Forall moderate occ ->
  let a := gamp numF B size f occ (gmom numF pi_d B size i) in
  fin a /\ Rabs (RR a - amp F occ i) <= E * sum_abs (map RR occ).
Proof.
  intros Hf Hb1 Hp Hi Ho Mo a. destruct E_small as (E1 & E2 & E3 & E4). pose proof uro_pos as U0. pose proof uro_small as U1.
  set (t := fun j => fmul (f (gphase numF B size (gmom numF pi_d B size i) j)) (nth (Z.to_nat j) occ f0)).
  set (y := fun j => F (turn i j) * RR (nth (Z.to_nat j) occ f0)).
  set (w := fun j => Rabs (RR (nth (Z.to_nat j) occ f0))).
  assert (Ea : a = fold_left fadd (map t (upto (prodZ size))) f0) by reflexivity.
  assert (Ew : sumR (map w (upto (prodZ size))) = sum_abs (map RR occ)).
  { unfold w, sum_abs. rewrite <- Ho. rewrite <- (map_map (fun j => nth (Z.to_nat j) occ f0) (fun o => Rabs (RR o))), map_nth_upto. now rewrite map_map. }
  assert (Wb : sum_abs (map RR occ) <= IZR (prodZ size) * 2 ^ 200).
  { replace (IZR (prodZ size)) with (INR (length occ)) by (rewrite INR_IZR_INZ; f_equal; exact Ho).
    clear -Mo. induction Mo as [|o l [Fo Mo] F IH]; cbn [map length]; [unfold sum_abs, sumR; cbn; lra|]. rewrite sum_abs_cons, S_INR.
    assert (Rabs (RR o) <= 2 ^ 200) by (destruct Mo as [->|]; [rewrite Rabs_R0; apply pow_le; lra|lra]). lra. }
  destruct (dsum_err (upto (prodZ size)) t y w (delta + phase_err + 3 * uro)) as [Fa Er].
  - rewrite upto_length. destruct (grid_sites size true) as [_ Pn]; [apply H|]. lia.
  - lra.
  - intros j Hj. apply upto_In in Hj. destruct (phase_close i j Hi Hj) as (q & Fp & Pq & Pb & Sq & Cq).
    destruct (Hf _ q Fp Pb Pq) as [Ff Ef]. rewrite (Hp q j Sq Cq) in Ef.
    apply mul_term; auto; [lra|]. rewrite Forall_forall in Mo. apply Mo, nth_In. unfold vsize, valid_site in *. lia.
  - rewrite Ew. apply Rle_trans with (1 := Wb). apply Rle_trans with (bpow radix2 26 * bpow radix2 200).
    + apply Rmult_le_compat; [lra|apply pow_le; lra|apply (IZR_le _ (2 ^ 26)); exact HN|rewrite <- (bpow2 200); apply Rle_refl].
    + rewrite <- bpow_plus. apply bpow_le. lia.
  - rewrite <- Ea, Ew in *. split; [exact Fa|]. apply Rle_trans with (1 := Er). apply Rmult_le_compat_r; [apply sum_abs_pos|].
    rewrite upto_length. assert (En : INR (Z.to_nat (prodZ size)) = IZR (prodZ size)).
    { rewrite INR_IZR_INZ. f_equal. destruct (grid_sites size true) as [_ Pn]; [apply H|]. lia. }
    rewrite En. set (n := IZR (prodZ size)) in *. clearbody n. set (e := delta + phase_err) in *. clearbody e. rewrite E3.
    assert (K : (n + / 2) * (1 + (e + 3 * uro)) <= (n + / 2) * 1.02) by (apply Rmult_le_compat_l; lra).
    apply (Rmult_le_compat_r uro) in K; [|lra]. assert (0 <= n * uro) by (apply Rmult_le_pos; lra). lra.
Qed.

Lemma fsin_close x q : fin x -> Rabs (RR x) <= 2 ^ 40 -> Rabs (RR x - q) <= phase_err -> fin (fsin x) /\ Rabs (RR (fsin x) - sin q) <= delta + phase_err.
Proof.
  intros F Bx Q. destruct (Htrig x F Bx) as [[Fs Es] _]. split; [exact Fs|]. pose proof (sin_lip (RR x) q).
  replace (RR (fsin x) - sin q) with ((RR (fsin x) - sin (RR x)) + (sin (RR x) - sin q)) by ring. eapply Rle_trans; [apply Rabs_triang|]. lra.
Qed.
Lemma fcos_close x q : fin x -> Rabs (RR x) <= 2 ^ 40 -> Rabs (RR x - q) <= phase_err -> fin (fcos x) /\ Rabs (RR (fcos x) - cos q) <= delta + phase_err.
Proof.
  intros F Bx Q. destruct (Htrig x F Bx) as [_ [Fs Es]]. split; [exact Fs|]. pose proof (cos_lip (RR x) q).
  replace (RR (fcos x) - cos q) with ((RR (fcos x) - cos (RR x)) + (cos (RR x) - cos q)) by ring. eapply Rle_trans; [apply Rabs_triang|]. lra.
Qed.

Lemma final_close (a b s m : f64) (S C A e : R) (n : Z) :
  fin a -> fin b -> Rabs (RR a - S) <= e * A -> Rabs (RR b - C) <= e * A -> 0 <= e <= / 100 -> S * S + C * C <= A * A ->
  A = 0 \/ / 2 ^ 200 <= A <= 2 ^ 230 -> moderate m -> (1 <= n <= 2 ^ 26)%Z -> fin s -> Rabs (RR s) <= 2 ^ 1000 ->
  let r := fadd s (fdiv (fmul m (fadd (fmul a a) (fmul b b))) (of_Z (n * n))) in
  let q := Rabs (RR m) * (A * A) / IZR (n * n) in
  fin r /\ Rabs (RR r - (RR s + RR m * (S * S + C * C) / IZR (n * n))) <= uro * Rabs (RR s) + q * (3 * e + 6 * uro).
Proof.
  intros Fa Fb Ha Hb' He HI HA [Fm Hm] Hn Fs Hs r q. pose proof uro_pos as U0. pose proof uro_small as U1.
  destruct (of_Z_exact (n * n)) as [En Fn]; [nia|]. set (nn := IZR (n * n)) in *.
  assert (Nn : 1 <= nn <= bpow radix2 52) by (split; [apply IZR_le; nia|apply (IZR_le _ (2 ^ 52)); nia]).
  assert (Iv : 0 < / nn <= 1) by (split; [apply Rinv_0_lt_compat; lra|rewrite <- Rinv_1; apply Rinv_le_contravar; lra]).
  assert (A0 : 0 <= A) by (destruct HA as [->|[L _]]; [lra|]; apply Rle_trans with (2 := L); left; apply Rinv_0_lt_compat, pow_lt; lra).
  destruct HA as [Az|[A1 A2]].
  { (* nothing there *)
    assert (Z0 : forall x, Rabs x <= 0 -> x = 0) by (intros x Hx; destruct (Req_dec x 0) as [|Nz]; [assumption|apply Rabs_pos_lt in Nz; lra]).
    rewrite Az in *. rewrite Rmult_0_r in Ha, Hb'. rewrite Rmult_0_l in HI.
    assert (S0 : S = 0) by nra. assert (C0 : C = 0) by nra. subst S C.
    assert (Ea : RR a = 0) by (apply Z0; now rewrite Rminus_0_r in Ha). assert (Eb : RR b = 0) by (apply Z0; now rewrite Rminus_0_r in Hb').
    destruct (fmul_R0 a a Fa Fa Ea) as [F1 E1]. destruct (fmul_R0 b b Fb Fb Eb) as [F2 E2]. destruct (fadd_R0 _ _ F1 F2 E2) as [F3 E3].
    rewrite E1 in E3. destruct (fmul_R0 m _ Fm F3 E3) as [F4 E4].
    destruct (fdiv_ok _ (of_Z (n * n)) F4) as [E5 F5]; [rewrite En; fold nn; lra|rewrite E4; unfold Rdiv; rewrite Rmult_0_l, rnd_0, Rabs_R0; unfold fmax; apply bpow_gt_0|].
    rewrite E4 in E5. unfold Rdiv in E5. rewrite Rmult_0_l, rnd_0 in E5. destruct (fadd_R0 s _ Fs F5 E5) as [F6 E6].
    split; [exact F6|]. unfold r, q. rewrite E6. unfold Rdiv.
    replace (RR s - (RR s + RR m * (0 * 0 + 0 * 0) * / nn)) with 0 by ring. replace (Rabs (RR m) * (0 * 0) * / nn * (3 * e + 6 * uro)) with 0 by ring.
    rewrite Rabs_R0. pose proof (Rabs_pos (RR s)). nra. }
  set (M := Rabs (RR m)) in *. set (X := A * A) in *.
  assert (B200 : 2 ^ 200 = bpow radix2 200) by exact (eq_sym (bpow2 200)). assert (B230 : 2 ^ 230 = bpow radix2 230) by exact (eq_sym (bpow2 230)).
  assert (B1000 : 2 ^ 1000 = bpow radix2 1000) by exact (eq_sym (bpow2 1000)).
  rewrite B200, <- bpow_opp in A1, Hm. rewrite B230 in A2. rewrite B1000 in Hs. clear B200 B230 B1000.
  assert (X1 : bpow radix2 (-400) <= X).
  { change (-400)%Z with (-200 + -200)%Z. rewrite bpow_plus. unfold X. apply Rmult_le_compat; auto; apply bpow_ge_0. }
  assert (X2 : X <= bpow radix2 460).
  { change 460%Z with (230 + 230)%Z. rewrite bpow_plus. unfold X. apply Rmult_le_compat; auto. }
  assert (X0 : 0 < X) by (apply Rlt_le_trans with (2 := X1); apply bpow_gt_0).
  assert (M0 : 0 <= M) by apply Rabs_pos.
  assert (M2 : M <= bpow radix2 200) by (destruct Hm as [Mz|[_ K]]; [unfold M; rewrite Mz, Rabs_R0; apply bpow_ge_0|exact K]).
  assert (K7 : / 128 * uro = bpow radix2 (-60)) by (unfold uro; change (/ 128) with (bpow radix2 (-7)); rewrite <- bpow_plus; reflexivity).
  assert (EX : eta <= / 128 * uro * X).
  { rewrite K7. apply Rle_trans with (bpow radix2 (-60) * bpow radix2 (-400)); [rewrite <- bpow_plus; apply bpow_le; lia|].
    apply Rmult_le_compat_l; [apply bpow_ge_0|exact X1]. }
  assert (EM : RR m = 0 \/ eta <= / 128 * uro * (M * X * / nn)).
  { destruct Hm as [Mz|[M1 _]]; [now left|right]. rewrite K7.
    apply Rle_trans with (bpow radix2 (-60) * (bpow radix2 (-200) * bpow radix2 (-400) * bpow radix2 (-52))); [rewrite <- !bpow_plus; apply bpow_le; lia|].
    apply Rmult_le_compat_l; [apply bpow_ge_0|]. apply Rmult_le_compat; [rewrite <- bpow_plus; apply bpow_ge_0|apply bpow_ge_0| |].
    - apply Rmult_le_compat; auto; apply bpow_ge_0.
    - change (-52)%Z with (- (52))%Z. rewrite bpow_opp. apply Rinv_le_contravar; lra. }
  (* the squares *)
  assert (SC : (Rabs S + Rabs C) * (Rabs S + Rabs C) <= 2 * X).
  { pose proof (Rsqr_abs S) as Q1. pose proof (Rsqr_abs C) as Q2. unfold Rsqr in Q1, Q2. pose proof (pow2_ge_0 (Rabs S - Rabs C)). unfold X in *. nra. }
  assert (SC2 : Rabs S + Rabs C <= 1.415 * A).
  { pose proof (Rabs_pos S). pose proof (Rabs_pos C). unfold X in SC. set (t := Rabs S + Rabs C) in *. assert (0 <= t) by (unfold t; lra). clearbody t.
    destruct (Rle_or_lt t (1.415 * A)) as [|G]; [assumption|]. exfalso. assert ((1.415 * A) * (1.415 * A) <= t * t) by (apply Rmult_le_compat; lra).
    unfold X in X0. nra. }
  assert (SQ : forall x Y, Rabs (x - Y) <= e * A -> Rabs (x * x - Y * Y) <= 2 * (e * A) * Rabs Y + e * A * (e * A)).
  { intros x Y K. replace (x * x - Y * Y) with ((x - Y) * (x - Y) + 2 * Y * (x - Y)) by ring. eapply Rle_trans; [apply Rabs_triang|].
    rewrite !Rabs_mult, (Rabs_pos_eq 2) by lra. pose proof (Rabs_pos (x - Y)). pose proof (Rabs_pos Y).
    assert (Rabs (x - Y) * Rabs (x - Y) <= e * A * (e * A)) by (apply Rmult_le_compat; lra).
    assert (Rabs Y * Rabs (x - Y) <= Rabs Y * (e * A)) by (apply Rmult_le_compat_l; lra). lra. }
  pose proof (SQ _ _ Ha) as Qa. pose proof (SQ _ _ Hb') as Qb. clear SQ. set (I := S * S + C * C) in *. set (Ia := RR a * RR a + RR b * RR b).
  assert (EIa : Rabs (Ia - I) <= 2.9 * (e * X)).
  { unfold Ia, I. replace (RR a * RR a + RR b * RR b - (S * S + C * C)) with ((RR a * RR a - S * S) + (RR b * RR b - C * C)) by ring.
    eapply Rle_trans; [apply Rabs_triang|].
    apply Rle_trans with (2 * (e * A) * (Rabs S + Rabs C) + 2 * (e * A * (e * A))); [lra|].
    assert (K1 : (e * A) * (Rabs S + Rabs C) <= (e * A) * (1.415 * A)) by (apply Rmult_le_compat_l; [apply Rmult_le_pos; lra|exact SC2]).
    assert (K2 : e * A * (e * A) <= / 100 * (e * X)).
    { unfold X. replace (e * A * (e * A)) with (e * (e * (A * A))) by ring. apply Rmult_le_compat_r; [|lra]. fold X. apply Rmult_le_pos; lra. }
    replace (e * A * (1.415 * A)) with (1.415 * (e * X)) in K1 by (unfold X; ring). assert (0 <= e * X) by (apply Rmult_le_pos; lra). lra. }
  assert (EX2 : 0 <= e * X <= / 100 * X) by (split; [apply Rmult_le_pos; lra|apply Rmult_le_compat_r; lra]).
  assert (I0 : 0 <= I) by (unfold I; pose proof (pow2_ge_0 S); pose proof (pow2_ge_0 C); nra).
  assert (Sa : 0 <= RR a * RR a) by (pose proof (pow2_ge_0 (RR a)); nra). assert (Sb : 0 <= RR b * RR b) by (pose proof (pow2_ge_0 (RR b)); nra).
  assert (IaX : 0 <= Ia <= 1.03 * X) by (apply Rabs_le_inv in EIa; split; [unfold Ia; lra|lra]).
  assert (UX : 0 <= uro * X <= / 1000000 * X) by (split; [apply Rmult_le_pos; lra|apply Rmult_le_compat_r; lra]).
  assert (NO : forall x, Rabs x <= 2 * X -> Rabs (rnd x) < fmax).
  { intros x Hx. apply (no_overflow _ 461); [lia|]. replace (bpow radix2 461) with (2 * bpow radix2 460); [lra|].
    change 2 with (bpow radix2 1) at 1. rewrite <- bpow_plus. reflexivity. }
  destruct (fmul_ok a a Fa Fa) as [E1 F1]; [apply NO; rewrite Rabs_pos_eq by exact Sa; unfold Ia in IaX; lra|].
  destruct (fmul_ok b b Fb Fb) as [E2 F2]; [apply NO; rewrite Rabs_pos_eq by exact Sb; unfold Ia in IaX; lra|].
  pose proof (rnd_err (RR a * RR a)) as R1. rewrite (Rabs_pos_eq _ Sa) in R1. pose proof (rnd_err (RR b * RR b)) as R2. rewrite (Rabs_pos_eq _ Sb) in R2.
  rewrite <- E1 in R1. rewrite <- E2 in R2. set (x1 := RR (fmul a a)) in *. set (x2 := RR (fmul b b)) in *.
  assert (X12 : Rabs (x1 + x2 - Ia) <= 1.05 * (uro * X)).
  { unfold Ia. replace (x1 + x2 - (RR a * RR a + RR b * RR b)) with ((x1 - RR a * RR a) + (x2 - RR b * RR b)) by ring. eapply Rle_trans; [apply Rabs_triang|].
    apply Rle_trans with (uro * Ia + 2 * eta); [unfold Ia; lra|]. assert (uro * Ia <= uro * (1.03 * X)) by (apply Rmult_le_compat_l; lra). lra. }
  pose proof (plus_err x1 x2 (fmt_RR _) (fmt_RR _)) as R3. assert (X12b : Rabs (x1 + x2) <= 1.04 * X).
  { pose proof (Rabs_triang_inv (x1 + x2) Ia) as T. rewrite (Rabs_pos_eq Ia) in T by lra. lra. }
  destruct (fadd_ok _ _ F1 F2) as [E3 F3]; [apply NO; fold x1 x2; lra|]. fold x1 x2 in E3. set (y := RR (fadd (fmul a a) (fmul b b))) in *.
  rewrite <- E3 in R3.
  assert (EY : Rabs (y - I) <= 2.9 * (e * X) + 2.1 * (uro * X)).
  { replace (y - I) with ((y - (x1 + x2)) + (x1 + x2 - Ia) + (Ia - I)) by ring. eapply Rle_trans; [apply Rabs_triang|].
    pose proof (Rabs_triang (y - (x1 + x2)) (x1 + x2 - Ia)) as T. assert (uro * Rabs (x1 + x2) <= uro * (1.04 * X)) by (apply Rmult_le_compat_l; lra). lra. }
  assert (YX : Rabs y <= 1.04 * X).
  { pose proof (Rabs_triang_inv y I) as T. rewrite (Rabs_pos_eq I) in T by lra. lra. }
  (* times the multiplier *)
  assert (MX : 0 <= M * X) by (apply Rmult_le_pos; lra). assert (UMX : 0 <= uro * (M * X)) by (apply Rmult_le_pos; lra).
  assert (My : Rabs (RR m * y) <= 1.04 * (M * X)).
  { rewrite Rabs_mult. fold M. replace (1.04 * (M * X)) with (M * (1.04 * X)) by ring. apply Rmult_le_compat_l; lra. }
  assert (R4 : Rabs (rnd (RR m * y) - RR m * y) <= 1.05 * (uro * (M * X))).
  { destruct EM as [Mz|EM]; [rewrite Mz, Rmult_0_l, rnd_0, Rminus_0_r, Rabs_R0; lra|].
    eapply Rle_trans; [apply rnd_err|]. assert (uro * Rabs (RR m * y) <= uro * (1.04 * (M * X))) by (apply Rmult_le_compat_l; lra).
    assert (uro * (M * X * / nn) <= uro * (M * X * 1)) by (apply Rmult_le_compat_l; [lra|apply Rmult_le_compat_l; lra]). lra. }
  assert (MXb : M * X <= bpow radix2 660) by (change 660%Z with (200 + 460)%Z; rewrite bpow_plus; apply Rmult_le_compat; lra).
  assert (NO2 : forall x, Rabs x <= 2 * (M * X) -> Rabs (rnd x) < fmax).
  { intros x Hx. apply (no_overflow _ 661); [lia|]. replace (bpow radix2 661) with (2 * bpow radix2 660); [lra|].
    change 2 with (bpow radix2 1) at 1. rewrite <- bpow_plus. reflexivity. }
  destruct (fmul_ok m _ Fm F3) as [E4 F4]; [apply NO2; fold y; lra|]. fold y in E4. set (t := RR (fmul m (fadd (fmul a a) (fmul b b)))) in *. rewrite <- E4 in R4.
  assert (UMX2 : uro * (M * X) <= / 1000000 * (M * X)) by (apply Rmult_le_compat_r; lra).
  assert (Tb : Rabs t <= 1.05 * (M * X)) by (pose proof (Rabs_triang_inv t (RR m * y)); lra).
  assert (ET : Rabs (t - RR m * I) <= 2.9 * (e * (M * X)) + 3.15 * (uro * (M * X))).
  { replace (t - RR m * I) with ((t - RR m * y) + RR m * (y - I)) by ring. eapply Rle_trans; [apply Rabs_triang|]. rewrite (Rabs_mult (RR m)). fold M.
    apply (Rmult_le_compat_l M) in EY; [|lra]. lra. }
  (* over the number of sites squared *)
  set (v := / nn) in *. assert (Eq : q = M * X * v) by reflexivity. assert (Q0 : 0 <= q) by (rewrite Eq; apply Rmult_le_pos; lra).
  assert (UQ : 0 <= uro * q <= / 1000000 * q) by (split; [apply Rmult_le_pos; lra|apply Rmult_le_compat_r; lra]).
  assert (Tv : Rabs (t / nn) <= 1.05 * q).
  { unfold Rdiv. fold v. rewrite Rabs_mult, (Rabs_pos_eq v), Eq by lra. replace (1.05 * (M * X * v)) with (1.05 * (M * X) * v) by ring. apply Rmult_le_compat_r; lra. }
  assert (R5 : Rabs (rnd (t / nn) - t / nn) <= 1.06 * (uro * q)).
  { destruct EM as [Mz|EM].
    - assert (t = 0) as -> by (rewrite E4, Mz, Rmult_0_l; apply rnd_0). unfold Rdiv. rewrite Rmult_0_l, rnd_0, Rminus_0_r, Rabs_R0. lra.
    - eapply Rle_trans; [apply rnd_err|]. assert (uro * Rabs (t / nn) <= uro * (1.05 * q)) by (apply Rmult_le_compat_l; lra). fold v in EM. rewrite <- Eq in EM. lra. }
  destruct (fdiv_ok (fmul m (fadd (fmul a a) (fmul b b))) (of_Z (n * n)) F4) as [E5 F5].
  { rewrite En. lra. }
  { rewrite En. fold t. apply NO2. apply Rle_trans with (1 := Tv). rewrite Eq. assert (M * X * v <= M * X * 1) by (apply Rmult_le_compat_l; lra). lra. }
  rewrite En in E5. fold t in E5. set (d := RR (fdiv (fmul m (fadd (fmul a a) (fmul b b))) (of_Z (n * n)))) in *. rewrite <- E5 in R5.
  assert (ED : Rabs (d - RR m * I / nn) <= 2.9 * (e * q) + 4.25 * (uro * q)).
  { replace (d - RR m * I / nn) with ((d - t / nn) + (t - RR m * I) * v) by (unfold v; field; lra). eapply Rle_trans; [apply Rabs_triang|].
    rewrite (Rabs_mult (t - _)), (Rabs_pos_eq v) by lra. apply (Rmult_le_compat_r v) in ET; [|lra].
    replace ((2.9 * (e * (M * X)) + 3.15 * (uro * (M * X))) * v) with (2.9 * (e * q) + 3.15 * (uro * q)) in ET by (rewrite Eq; ring). lra. }
  (* added to the entry *)
  assert (Db : Rabs d <= 1.06 * q) by (pose proof (Rabs_triang_inv d (t / nn)); lra).
  pose proof (plus_err (RR s) d (fmt_RR _) (fmt_RR _)) as R6.
  assert (Sd : Rabs (RR s + d) <= Rabs (RR s) + 1.06 * q) by (eapply Rle_trans; [apply Rabs_triang|lra]).
  destruct (fadd_ok s _ Fs F5) as [E6 F6].
  { fold d. apply (no_overflow _ 1001); [lia|]. apply Rle_trans with (1 := Sd). replace (bpow radix2 1001) with (bpow radix2 1000 + bpow radix2 1000).
    - apply Rplus_le_compat; [exact Hs|]. apply Rle_trans with (2 * bpow radix2 660).
      + assert (q <= M * X) by (rewrite Eq; assert (M * X * v <= M * X * 1) by (apply Rmult_le_compat_l; lra); lra). lra.
      + change 2 with (bpow radix2 1). rewrite <- bpow_plus. apply bpow_le. lia.
    - replace (bpow radix2 1001) with (2 * bpow radix2 1000); [ring|]. change 2 with (bpow radix2 1). rewrite <- bpow_plus. reflexivity. }
  fold d in E6. split; [exact F6|]. unfold r. rewrite E6.
  replace (rnd (RR s + d) - (RR s + RR m * I / nn)) with ((rnd (RR s + d) - (RR s + d)) + (d - RR m * I / nn)) by ring.
  eapply Rle_trans; [apply Rabs_triang|]. apply (Rmult_le_compat_l uro) in Sd; [|lra].
  assert (0 <= e * q) by (apply Rmult_le_pos; lra). lra.
Qed.

Lemma weight_range occ : (vsize occ <= 2 ^ 26)%Z -> Forall moderate occ -> let A := sum_abs (map RR occ) in A = 0 \/ / 2 ^ 200 <= A <= 2 ^ 230.
Proof.
  intros Ho Mo A. unfold A. clear A.
  assert (L : 0 < / 2 ^ 200) by (apply Rinv_0_lt_compat, pow_lt; lra).
  assert (Up : sum_abs (map RR occ) <= INR (length occ) * 2 ^ 200).
  { clear Ho. induction Mo as [|o l [Fo Mo] F IH]; cbn [map length]; [unfold sum_abs, sumR; cbn; lra|]. rewrite sum_abs_cons, S_INR.
    assert (Rabs (RR o) <= 2 ^ 200) by (destruct Mo as [->|]; [rewrite Rabs_R0; apply pow_le; lra|lra]). lra. }
  assert (Lo : sum_abs (map RR occ) = 0 \/ / 2 ^ 200 <= sum_abs (map RR occ)).
  { clear Ho Up. induction Mo as [|o l [Fo Mo] F IH]; cbn [map]; [left; reflexivity|]. rewrite sum_abs_cons. pose proof (sum_abs_pos (map RR l)).
    destruct Mo as [->|[K _]]; [rewrite Rabs_R0, Rplus_0_l; exact IH|right; lra]. }
  destruct Lo as [Z0|Lo]; [now left|right]. split; [exact Lo|]. apply Rle_trans with (1 := Up).
  apply Rle_trans with (2 ^ 26 * 2 ^ 200); [|rewrite <- pow_add; apply Rle_pow; [lra|lia]].
  apply Rmult_le_compat_r; [apply pow_le; lra|]. rewrite <- (bpow2 26), INR_IZR_INZ. apply (IZR_le _ (2 ^ 26)). exact Ho.
Qed.

Lemma amp_intensity occ i : vsize occ = prodZ size ->
  intensity (map RR occ) (allowed size (coords i)) (map (map IZR) (map coords (upto (prodZ size)))) = amp sin occ i * amp sin occ i + amp cos occ i * amp cos occ i.
Proof.
  intros Ho. unfold intensity. rewrite map_map.
  assert (G : forall F : R -> R, sumR (zip_with (fun n x => n * F (dot (allowed size (coords i)) x)) (map RR occ) (map (fun j => map IZR (coords j)) (upto (prodZ size)))) = amp F occ i).
  { intros F. replace (prodZ size) with (vsize (map RR occ)) by (unfold vsize; rewrite map_length; exact Ho).
    rewrite (zip_sites 0 (fun n x => n * F (dot (allowed size (coords i)) x))). unfold amp.
    replace (vsize (map RR occ)) with (prodZ size) by (unfold vsize; rewrite map_length; symmetry; exact Ho).
    apply sumR_ext. intros j _. unfold turn. change 0 with (RR f0). rewrite map_nth. ring. }
  rewrite (G cos), (G sin). ring.
Qed.

Lemma sk_close occ sk mult : vsize occ = prodZ size -> vsize sk = prodZ size -> Forall moderate occ -> moderate mult ->
  Forall (fun s => fin s /\ Rabs (RR s) <= 2 ^ 1000) sk ->
  exists L sk' cs, Lattice numF pi_d B size true = Ok L /\ AccumulateSk numF fsin fcos L occ sk mult = Ok sk' /\ vsize sk' = prodZ size /\
  omapl (GetCoordinates (l_grid L)) (upto (prodZ size)) = Ok cs /\
  forall i c, valid_site size i -> GetCoordinates (l_grid L) i = Ok c ->
  let x := nth (Z.to_nat i) sk' f0 in let s := nth (Z.to_nat i) sk f0 in let nn := IZR (prodZ size * prodZ size) in
  fin x /\ Rabs (RR x - (RR s + RR mult * intensity (map RR occ) (allowed size c) (map (map IZR) cs) / nn)) <=
    uro * Rabs (RR s) + Rabs (RR mult) * (sum_abs (map RR occ) * sum_abs (map RR occ)) / nn * (3 * E + 6 * uro).
Proof.
  intros Ho Hsk Mo Mm Fsk. pose proof H as (W & Hs & H40 & Hok & He & Hn). destruct (grid_sites size true Hok) as [En Pn].
  exists (built numF pi_d B size true). eexists. exists (map coords (upto (prodZ size))). split; [now apply lattice_built|].
  split; [apply gaccumulate; auto; lia|]. split; [apply vsize_map_upto; lia|].
  change (l_grid (built numF pi_d B size true)) with (HyperCubicGrid size true).
  split; [apply omapl_pure; intros j Hj; apply upto_In in Hj; now apply grid_coords|].
  intros i c Hi Ec. rewrite grid_coords in Ec by assumption. injection Ec as <-. cbv zeta. rewrite nth_map_upto by exact Hi. rewrite amp_intensity by exact Ho.
  destruct E_small as (E1 & E2 & E3 & E4). pose proof uro_pos as U0.
  destruct (amp_close fsin sin occ i fsin_close (fun q => Rabs_le _ _ (SIN_bound q)) (fun q j Hsq Hcq => Hsq) Hi Ho Mo) as [Fa Ha].
  destruct (amp_close fcos cos occ i fcos_close (fun q => Rabs_le _ _ (COS_bound q)) (fun q j Hsq Hcq => Hcq) Hi Ho Mo) as [Fc Hc].
  pose proof (intensity_bound (allowed size (coords i)) (map RR occ) (map (map IZR) (map coords (upto (prodZ size))))) as IB.
  rewrite amp_intensity in IB by exact Ho. cbn [pow] in IB. rewrite Rmult_1_r in IB.
  assert (Fs : fin (nth (Z.to_nat i) sk f0) /\ Rabs (RR (nth (Z.to_nat i) sk f0)) <= 2 ^ 1000).
  { rewrite Forall_forall in Fsk. apply Fsk, nth_In. unfold valid_site, vsize in *. lia. }
  destruct Fs as [Fs Hs1].
  exact (final_close _ _ _ mult _ _ _ E (prodZ size) Fa Fc Ha Hc ltac:(lra) IB (weight_range occ ltac:(lia) Mo) Mm ltac:(lia) Fs Hs1).
Qed.
End Hyper.

(** Accumulating with a positive multiplier never decreases an entry. *)
Lemma sk_grows B size pi fsin fcos occ sk mult : lattice_ok B size -> vsize occ = prodZ size -> vsize sk = prodZ size -> (prodZ size < 2 ^ 32)%Z ->
  0 <= RR mult -> exists L sk', Lattice numF pi B size true = Ok L /\ AccumulateSk numF fsin fcos L occ sk mult = Ok sk' /\
  forall i, valid_site size i -> let x := nth (Z.to_nat i) sk' f0 in let s := nth (Z.to_nat i) sk f0 in fin x -> fin s /\ RR s <= RR x.
Proof.
  intros H Ho Hsk Hlt Mp. pose proof H as (W & Hs & H40 & Hok & He & Hn). destruct (grid_sites size true Hok) as [En Pn].
  exists (built numF pi B size true). eexists. split; [now apply lattice_built|]. split; [now apply gaccumulate|].
  intros i Hi. cbv zeta. rewrite nth_map_upto by exact Hi. cbn [numF n_add n_ofZ]. change (of_Z 0) with f0. set (s := nth (Z.to_nat i) sk f0). intros Fx.
  destruct (fadd_inv _ _ Fx) as (Fs & Fi & Es). split; [exact Fs|]. rewrite Es. apply rnd_ge_fmt; [apply fmt_RR|].
  enough (0 <= RR (ginc numF pi fsin fcos B size occ mult i)) by lra.
  unfold ginc in *. cbn [numF n_add n_mul n_div n_ofZ] in *.
  destruct (of_Z_ok (prodZ size * prodZ size)) as [Ez Fz].
  { rewrite Z.abs_eq by nia. apply Z.le_trans with (2 ^ 64)%Z; [nia|]. apply Z.pow_le_mono_r; lia. }
  destruct (fdiv_inv _ _ Fi Fz) as (Fn & Nz & Ed). rewrite Ed. apply rnd_pos.
  destruct (fmul_inv _ _ Fn) as (Fm & Fq & Em). destruct (fadd_inv _ _ Fq) as (F1 & F2 & Eq).
  destruct (fmul_inv _ _ F1) as (_ & _ & E1). destruct (fmul_inv _ _ F2) as (_ & _ & E2).
  assert (Zp : 0 < RR (of_Z (prodZ size * prodZ size))).
  { assert (0 <= RR (of_Z (prodZ size * prodZ size))) by (rewrite Ez; apply rnd_pos, IZR_le; nia). lra. }
  unfold Rdiv. apply Rmult_le_pos; [|left; now apply Rinv_0_lt_compat]. rewrite Em. apply rnd_pos, Rmult_le_pos; [exact Mp|]. rewrite Eq. apply rnd_pos.
  rewrite E1, E2. apply Rplus_le_le_0_compat; apply rnd_pos; [pose proof (pow2_ge_0 (RR (gamp numF B size fsin occ (gmom numF pi B size i))))|pose proof (pow2_ge_0 (RR (gamp numF B size fcos occ (gmom numF pi B size i))))]; nra.
Qed.

(** Correctly rounded sines and cosines are within 2 units. *)
Definition to_double (r : R) : f64 :=
  dyad (Ztrunc (scaled_mantissa radix2 (FLT_exp (-1074) 53) (rnd r))) (cexp radix2 (FLT_exp (-1074) 53) (rnd r)).
Lemma to_double_ok r : Rabs r <= 1 -> fin (to_double r) /\ Rabs (RR (to_double r) - r) <= 2 * uro.
Proof.
  intros Hr. assert (Ef : F2R (Float radix2 (Ztrunc (scaled_mantissa radix2 (FLT_exp (-1074) 53) (rnd r))) (cexp radix2 (FLT_exp (-1074) 53) (rnd r))) = rnd r).
  { symmetry. apply fmt_rnd. }
  destruct (dyad_ok (Ztrunc (scaled_mantissa radix2 (FLT_exp (-1074) 53) (rnd r))) (cexp radix2 (FLT_exp (-1074) 53) (rnd r))) as [A F].
  - rewrite Ef, (rnd_fmt _ (fmt_rnd r)). apply (no_overflow _ 0); [lia|exact Hr].
  - split; [exact F|]. unfold to_double. rewrite A, Ef, (rnd_fmt _ (fmt_rnd r)). pose proof (rnd_err r). pose proof uro_pos.
    assert (eta <= uro) by (unfold eta, uro; apply bpow_le; lia). nra.
Qed.
Lemma trig_close_ex : trig_close (2 * uro) (fun x => to_double (sin (RR x))) (fun x => to_double (cos (RR x))).
Proof. intros x _ _. split; apply to_double_ok; apply Rabs_le; [apply SIN_bound|apply COS_bound]. Qed.
