(** Lemmas about structure factors computed in doubles on triangular lattices. *)
From Coq Require Import ZArith Reals List Bool Lia Lra.
From Flocq Require Import Core IEEE754.BinarySingleNaN.
From Verif Require Import Base F64 Num S_Math S_Accum M_MathInt M_MathF M_Pairs M_Grid M_Bravais M_Lattice S_Grid S_Bravais S_Lattice S_BravaisAcc S_Fourier S_Sk S_SkTri
  L_MathInt L_Grid L_Hist L_MathF L_Bravais L_Lattice L_LatticeK L_LatticeD L_LatticeV L_Fourier L_Space L_Pi L_Mom L_Sk L_BravaisAcc.
Import ListNotations.
Open Scope R_scope.
Notation moderate := S_Sk.moderate.

(** * From phases to structure factors, on any lattice *)
Section Gen.
Context (B : bravais f64) (size : list Z) (H : lattice_ok B size) (HN : (prodZ size <= 2 ^ 26)%Z).
Context (delta : R) (fsin fcos : f64 -> f64) (Htrig : trig_close delta fsin fcos) (Hd : 0 <= delta).
Notation coords := (coords_of size).
Notation turn := (L_Sk.turn size).
Notation amp := (L_Sk.amp size).
Context (phase_err : R) (He0 : 0 <= phase_err) (He1 : delta + phase_err <= / 101).
Context (phase_close : forall i j, valid_site size i -> valid_site size j ->
  let p := gphase numF B size (gmom numF pi_d B size i) j in
  exists q, fin p /\ Rabs (RR p - q) <= phase_err /\ Rabs (RR p) <= 2 ^ 40 /\ sin q = sin (turn i j) /\ cos q = cos (turn i j)).
Notation E := (delta + phase_err + 2 * uro * (IZR (prodZ size) + 2)).

Lemma E_facts : 0 <= E <= / 100 /\ 1 <= IZR (prodZ size).
Proof.
  pose proof uro_pos as U0. pose proof H as (W & Hs & H40 & Hok & He & Hn). destruct (grid_sites size true Hok) as [En Pn].
  assert (Nb : 1 <= IZR (prodZ size) <= 67108864) by (split; apply IZR_le; lia).
  assert (Uv : uro * 9007199254740992 = 1) by (rewrite uro_val; change (IZR (2 ^ 53)) with 9007199254740992; field).
  set (n := IZR (prodZ size)) in *. clearbody n. split; [|lra]. nra.
Qed.

Lemma amp_near f F occ i : (forall x q, fin x -> Rabs (RR x) <= 2 ^ 40 -> Rabs (RR x - q) <= phase_err -> fin (f x) /\ Rabs (RR (f x) - F q) <= delta + phase_err) ->
  (forall q, Rabs (F q) <= 1) -> (forall q j, sin q = sin (turn i j) -> cos q = cos (turn i j) -> F q = F (turn i j)) ->
  valid_site size i -> vsize occ = prodZ size -> Forall moderate occ ->
  let a := gamp numF B size f occ (gmom numF pi_d B size i) in
  fin a /\ Rabs (RR a - amp F occ i) <= E * sum_abs (map RR occ).
Proof.
  intros Hf Hb1 Hp Hi Ho Mo a. destruct E_facts as (E1 & E4). pose proof uro_pos as U0. pose proof uro_small as U1.
  set (t := fun j => fmul (f (gphase numF B size (gmom numF pi_d B size i) j)) (nth (Z.to_nat j) occ f0)).
  set (y := fun j => F (turn i j) * RR (nth (Z.to_nat j) occ f0)).
  set (w := fun j => Rabs (RR (nth (Z.to_nat j) occ f0))).
  assert (Ea : a = fold_left fadd (map t (upto (prodZ size))) f0) by reflexivity.
  assert (Ew : sumR (map w (upto (prodZ size))) = sum_abs (map RR occ)).
  { unfold w, sum_abs. rewrite <- Ho. rewrite <- (map_map (fun j => nth (Z.to_nat j) occ f0) (fun o => Rabs (RR o))), map_nth_upto. now rewrite map_map. }
  assert (Wb : sum_abs (map RR occ) <= IZR (prodZ size) * 2 ^ 200).
  { replace (IZR (prodZ size)) with (INR (length occ)) by (rewrite INR_IZR_INZ; f_equal; exact Ho).
    clear -Mo. induction Mo as [|o l [Fo Mo] F IH]; cbn [map length]; [unfold sum_abs, sumR; cbn; lra|]. rewrite sum_abs_cons, S_INR.
    assert (Rabs (RR o) <= 2 ^ 200) by (destruct Mo as [->|]; [rewrite Rabs_R0; apply pow_le; lra|lra]). lra. }
  destruct (dsum_err (upto (prodZ size)) t y w (delta + phase_err + 3 * uro)) as [Fa Er].
  - rewrite upto_length. destruct (grid_sites size true) as [_ Pn]; [apply H|]. lia.
  - lra.
  - intros j Hj. apply upto_In in Hj. destruct (phase_close i j Hi Hj) as (q & Fp & Pq & Pb & Sq & Cq).
    destruct (Hf _ q Fp Pb Pq) as [Ff Ef]. rewrite (Hp q j Sq Cq) in Ef.
    apply mul_term; auto; [lra|]. rewrite Forall_forall in Mo. apply Mo, nth_In. unfold vsize, valid_site in *. lia.
  - rewrite Ew. apply Rle_trans with (1 := Wb). apply Rle_trans with (bpow radix2 26 * bpow radix2 200).
    + apply Rmult_le_compat; [lra|apply pow_le; lra|apply (IZR_le _ (2 ^ 26)); exact HN|rewrite <- (bpow2 200); apply Rle_refl].
    + rewrite <- bpow_plus. apply bpow_le. lia.
  - rewrite <- Ea, Ew in *. split; [exact Fa|]. apply Rle_trans with (1 := Er). apply Rmult_le_compat_r; [apply sum_abs_pos|].
    rewrite upto_length. assert (En : INR (Z.to_nat (prodZ size)) = IZR (prodZ size)).
    { rewrite INR_IZR_INZ. f_equal. destruct (grid_sites size true) as [_ Pn]; [apply H|]. lia. }
    rewrite En. set (n := IZR (prodZ size)) in *. clearbody n. set (e := delta + phase_err) in *. clearbody e.
    assert (K : (n + / 2) * (1 + (e + 3 * uro)) <= (n + / 2) * 1.02) by (apply Rmult_le_compat_l; lra).
    apply (Rmult_le_compat_r uro) in K; [|lra]. assert (0 <= n * uro) by (apply Rmult_le_pos; lra). lra.
Qed.

Lemma fsin_near x q : fin x -> Rabs (RR x) <= 2 ^ 40 -> Rabs (RR x - q) <= phase_err -> fin (fsin x) /\ Rabs (RR (fsin x) - sin q) <= delta + phase_err.
Proof.
  intros F Bx Q. destruct (Htrig x F Bx) as [[Fs Es] _]. split; [exact Fs|]. pose proof (sin_lip (RR x) q).
  replace (RR (fsin x) - sin q) with ((RR (fsin x) - sin (RR x)) + (sin (RR x) - sin q)) by ring. eapply Rle_trans; [apply Rabs_triang|]. lra.
Qed.
Lemma fcos_near x q : fin x -> Rabs (RR x) <= 2 ^ 40 -> Rabs (RR x - q) <= phase_err -> fin (fcos x) /\ Rabs (RR (fcos x) - cos q) <= delta + phase_err.
Proof.
  intros F Bx Q. destruct (Htrig x F Bx) as [_ [Fs Es]]. split; [exact Fs|]. pose proof (cos_lip (RR x) q).
  replace (RR (fcos x) - cos q) with ((RR (fcos x) - cos (RR x)) + (cos (RR x) - cos q)) by ring. eapply Rle_trans; [apply Rabs_triang|]. lra.
Qed.

Lemma sk_near occ sk mult : vsize occ = prodZ size -> vsize sk = prodZ size -> Forall moderate occ -> moderate mult ->
  Forall (fun s => fin s /\ Rabs (RR s) <= 2 ^ 1000) sk ->
  exists L sk' cs, Lattice numF pi_d B size true = Ok L /\ AccumulateSk numF fsin fcos L occ sk mult = Ok sk' /\ vsize sk' = prodZ size /\
  omapl (GetCoordinates (l_grid L)) (upto (prodZ size)) = Ok cs /\
  forall i c, valid_site size i -> GetCoordinates (l_grid L) i = Ok c ->
  let x := nth (Z.to_nat i) sk' f0 in let s := nth (Z.to_nat i) sk f0 in let nn := IZR (prodZ size * prodZ size) in
  fin x /\ Rabs (RR x - (RR s + RR mult * intensity (map RR occ) (allowed size c) (map (map IZR) cs) / nn)) <=
    uro * Rabs (RR s) + Rabs (RR mult) * (sum_abs (map RR occ) * sum_abs (map RR occ)) / nn * (3 * E + 6 * uro).
Proof.
  intros Ho Hsk Mo Mm Fsk. pose proof H as (W & Hs & H40 & Hok & He & Hn). destruct (grid_sites size true Hok) as [En Pn].
  exists (built numF pi_d B size true). eexists. exists (map coords (upto (prodZ size))). split; [now apply lattice_built|].
  split; [apply gaccumulate; auto; lia|]. split; [apply vsize_map_upto; lia|].
  change (l_grid (built numF pi_d B size true)) with (HyperCubicGrid size true).
  split; [apply omapl_pure; intros j Hj; apply upto_In in Hj; now apply grid_coords|].
  intros i c Hi Ec. rewrite grid_coords in Ec by assumption. injection Ec as <-. cbv zeta. rewrite nth_map_upto by exact Hi. rewrite amp_intensity by exact Ho.
  destruct E_facts as (E1 & E4). pose proof uro_pos as U0.
  destruct (amp_near fsin sin occ i fsin_near (fun q => Rabs_le _ _ (SIN_bound q)) (fun q j Hsq Hcq => Hsq) Hi Ho Mo) as [Fa Ha].
  destruct (amp_near fcos cos occ i fcos_near (fun q => Rabs_le _ _ (COS_bound q)) (fun q j Hsq Hcq => Hcq) Hi Ho Mo) as [Fc Hc].
  pose proof (intensity_bound (allowed size (coords i)) (map RR occ) (map (map IZR) (map coords (upto (prodZ size))))) as IB.
  rewrite amp_intensity in IB by exact Ho. cbn [pow] in IB. rewrite Rmult_1_r in IB.
  assert (Fs : fin (nth (Z.to_nat i) sk f0) /\ Rabs (RR (nth (Z.to_nat i) sk f0)) <= 2 ^ 1000).
  { rewrite Forall_forall in Fsk. apply Fsk, nth_In. unfold valid_site, vsize in *. lia. }
  destruct Fs as [Fs Hs1].
  exact (final_close _ _ _ mult _ _ _ E (prodZ size) Fa Fc Ha Hc ltac:(lra) IB (weight_range occ ltac:(lia) Mo) Mm ltac:(lia) Fs Hs1).
Qed.
End Gen.

(** * Triangular lattices of equal extents *)
Notation TL := (TriangularLattice numF).
Definition inv_root3 : R := 5200308914369309 * / 9007199254740992.
Definition two_root3 : R := 5200308914369309 * / 4503599627370496.

Lemma tri_dual_values : let P := b_pi TL in
  RR (entry f0 P 2 0 0) = 1 /\ RR (entry f0 P 2 1 0) = - inv_root3 /\ RR (entry f0 P 2 0 1) = 0 /\ RR (entry f0 P 2 1 1) = two_root3.
Proof.
  intros P. rewrite !RR_SF.
  assert (E0 : B2SF (entry f0 P 2 0 0) = SpecFloat.S754_finite false 4503599627370496 (-52)) by (vm_compute; reflexivity).
  assert (E1 : B2SF (entry f0 P 2 1 0) = SpecFloat.S754_finite true 5200308914369309 (-53)) by (vm_compute; reflexivity).
  assert (E2 : B2SF (entry f0 P 2 0 1) = SpecFloat.S754_zero false) by (vm_compute; reflexivity).
  assert (E3 : B2SF (entry f0 P 2 1 1) = SpecFloat.S754_finite false 5200308914369309 (-52)) by (vm_compute; reflexivity).
  rewrite E0, E1, E2, E3. cbn [SF2R cond_Zopp]. unfold F2R. cbn [Fnum Fexp Z.opp].
  change (bpow radix2 (-52)) with (/ 4503599627370496). change (bpow radix2 (-53)) with (/ 9007199254740992).
  unfold inv_root3, two_root3. repeat split; lra.
Qed.

Lemma root3_range : 17320508075688772935 / 10000000000000000000 <= sqrt 3 <= 17320508075688772936 / 10000000000000000000.
Proof.
  assert (R0 : 0 <= sqrt 3) by apply sqrt_pos. assert (R2 : sqrt 3 * sqrt 3 = 3) by (apply sqrt_sqrt; lra).
  split; (apply Rsqr_incr_0_var; [unfold Rsqr; rewrite ?R2; lra|lra]).
Qed.

Lemma tri_wave m0 m1 : exact_wave TL [m0; m1] = [2 * PI * IZR m0; 2 * PI * IZR m0 * - inv_root3 + 2 * PI * IZR m1 * two_root3] /\
  unsigned_wave TL [m0; m1] = [Rabs (2 * PI * IZR m0); Rabs (2 * PI * IZR m0) * inv_root3 + Rabs (2 * PI * IZR m1) * two_root3].
Proof.
  destruct tri_dual_values as (V0 & V1 & V2 & V3). unfold exact_wave, unsigned_wave, exact_component, unsigned_component, sum_upto.
  change (b_dim TL) with 2%Z. change (upto 2) with [0; 1]%Z. cbn [map]. change (Z.to_nat 0) with 0%nat. change (Z.to_nat 1) with 1%nat. cbn [nth map].
  rewrite V0, V1, V2, V3. unfold sumR. cbn [fold_right]. rewrite Rabs_R1, Rabs_R0, Rabs_Ropp.
  rewrite (Rabs_pos_eq inv_root3) by (unfold inv_root3; lra). rewrite (Rabs_pos_eq two_root3) by (unfold two_root3; lra).
  split; f_equal; try ring; f_equal; ring.
Qed.

(** The two products of a phase. *)
Lemma product_near (k x : f64) K X ek ex bk bx c : fin k -> fin x -> Rabs (RR k - K) <= ek -> Rabs (RR x - X) <= ex -> Rabs K <= bk -> Rabs X <= bx ->
  (bk + ek) * (bx + ex) <= bpow radix2 60 -> ek * bx + bk * ex + ek * ex + uro * ((bk + ek) * (bx + ex)) + eta <= c ->
  fin (fmul k x) /\ Rabs (RR (fmul k x) - K * X) <= c.
Proof.
  intros Fk Fx Ek Ex Bk Bx Ov Hc. pose proof uro_pos as U0.
  pose proof (Rabs_pos (RR k - K)) as P1. pose proof (Rabs_pos (RR x - X)) as P2. pose proof (Rabs_pos K) as P3. pose proof (Rabs_pos X) as P4.
  assert (Nk : Rabs (RR k) <= bk + ek) by (pose proof (Rabs_triang_inv (RR k) K); lra).
  assert (Nx : Rabs (RR x) <= bx + ex) by (pose proof (Rabs_triang_inv (RR x) X); lra).
  assert (Np : Rabs (RR k * RR x) <= (bk + ek) * (bx + ex)) by (rewrite Rabs_mult; apply Rmult_le_compat; auto using Rabs_pos).
  destruct (fmul_ok k x Fk Fx) as [A F].
  { apply (no_overflow _ 60); [lia|]. lra. }
  split; [exact F|]. rewrite A. pose proof (rnd_err (RR k * RR x)) as R1.
  replace (rnd (RR k * RR x) - K * X) with ((rnd (RR k * RR x) - RR k * RR x) + ((RR k - K) * X + K * (RR x - X) + (RR k - K) * (RR x - X))) by ring.
  eapply Rle_trans; [apply Rabs_triang|].
  assert (Rabs ((RR k - K) * X + K * (RR x - X) + (RR k - K) * (RR x - X)) <= ek * bx + bk * ex + ek * ex).
  { eapply Rle_trans; [apply Rabs_triang|]. apply Rplus_le_compat; [eapply Rle_trans; [apply Rabs_triang|]; apply Rplus_le_compat|];
      rewrite Rabs_mult; apply Rmult_le_compat; auto using Rabs_pos. }
  assert (uro * Rabs (RR k * RR x) <= uro * ((bk + ek) * (bx + ex))) by (apply Rmult_le_compat_l; lra).
  lra.
Qed.

Lemma pi_range : 3 <= PI <= 3.1416.
Proof.
  pose proof pi_d_near as P. apply Rabs_le_inv in P. pose proof uro_val as Uv. change (IZR (2 ^ 53)) with 9007199254740992 in Uv.
  assert (E : RR pi_d = 884279719003555 * / 281474976710656).
  { rewrite RR_SF. assert (E0 : B2SF pi_d = SpecFloat.S754_finite false 7074237752028440 (-51)) by (vm_compute; reflexivity). rewrite E0.
    cbn [SF2R cond_Zopp]. unfold F2R. cbn [Fnum Fexp]. change (bpow radix2 (-51)) with (/ 2251799813685248). lra. }
  rewrite E in P. lra.
Qed.

Section Tri.
Context (s : Z) (H : lattice_ok TL [s; s]) (HN : (s * s <= 2 ^ 26)%Z).
Notation size := [s; s].
Notation u := uro.

Lemma s_range : (1 <= s <= 8192)%Z.
Proof. pose proof H as (_ & _ & _ & Hok & _). pose proof (sizes_pos _ Hok) as P. inversion P; subst. nia. Qed.

(** Momenta. *)
Lemma tri_mom m0 m1 k0 k1 : (Z.abs m0 * 2 <= s)%Z -> (Z.abs m1 * 2 <= s)%Z ->
  close_to 8 [k0; k1] (over_extents size (exact_wave TL [m0; m1])) (over_extents size (unsigned_wave TL [m0; m1])) ->
  let K0 := 2 * PI * IZR m0 / IZR s in let K1 := 2 * PI * (2 * IZR m1 - IZR m0) / (sqrt 3 * IZR s) in
  fin k0 /\ fin k1 /\ Rabs (RR k0 - K0) <= 26 * u /\ Rabs (RR k1 - K1) <= 54 * u /\ Rabs K0 <= 3.1416 /\ Rabs K1 <= 5.4415.
Proof.
  intros H0 H1 (_ & _ & C) K0 K1. destruct (tri_wave m0 m1) as [Ee Eu]. rewrite Ee, Eu in C. unfold over_extents in C. cbn [zip_with] in C.
  destruct (C 0%nat ltac:(cbn; lia)) as [F0 C0]. destruct (C 1%nat ltac:(cbn; lia)) as [F1 C1]. cbn [nth] in F0, F1, C0, C1. clear C Ee Eu.
  pose proof s_range as Sr. pose proof pi_range as Pr. destruct root3_range as [r1 r2]. pose proof uro_pos as U0.
  assert (S1 : 1 <= IZR s) by (apply IZR_le; lia).
  set (a := 2 * PI * IZR m0 / IZR s) in *. set (b := 2 * PI * IZR m1 / IZR s).
  assert (Ab : forall m, (Z.abs m * 2 <= s)%Z -> Rabs (2 * PI * IZR m / IZR s) <= 3.1416).
  { intros m Hm. assert (M : Rabs (IZR m) * 2 <= IZR s) by (rewrite <- abs_IZR, <- mult_IZR; apply IZR_le; exact Hm).
    unfold Rdiv. rewrite !Rabs_mult, (Rabs_pos_eq 2), (Rabs_pos_eq PI), (Rabs_pos_eq (/ IZR s)) by (try lra; left; apply Rinv_0_lt_compat; lra).
    apply Rle_trans with (PI * (IZR s * / IZR s)); [|rewrite Rinv_r by lra; lra].
    replace (2 * PI * Rabs (IZR m) * / IZR s) with (PI * ((Rabs (IZR m) * 2) * / IZR s)) by ring.
    apply Rmult_le_compat_l; [lra|]. apply Rmult_le_compat_r; [left; apply Rinv_0_lt_compat; lra|exact M]. }
  pose proof (Ab m0 H0) as A. pose proof (Ab m1 H1) as Bb. fold a in A. fold b in Bb.
  assert (Un : forall m, Rabs (2 * PI * IZR m) / IZR s = Rabs (2 * PI * IZR m / IZR s)).
  { intros m. unfold Rdiv. rewrite (Rabs_mult _ (/ IZR s)), (Rabs_pos_eq (/ IZR s)) by (left; apply Rinv_0_lt_compat; lra). reflexivity. }
  assert (E1 : (2 * PI * IZR m0 * - inv_root3 + 2 * PI * IZR m1 * two_root3) / IZR s = a * - inv_root3 + b * two_root3) by (unfold a, b; field; lra).
  assert (E2 : (Rabs (2 * PI * IZR m0) * inv_root3 + Rabs (2 * PI * IZR m1) * two_root3) / IZR s = Rabs a * inv_root3 + Rabs b * two_root3).
  { unfold a, b. rewrite <- !Un. field. lra. }
  rewrite E1, E2 in C1. rewrite Un in C0. fold a in C0.
  set (t := / sqrt 3). assert (T : K1 = a * - t + b * (2 * t)) by (unfold K1, a, b, t; field; lra).
  assert (Uv := uro_val). change (IZR (2 ^ 53)) with 9007199254740992 in Uv.
  assert (T1 : t * sqrt 3 = 1) by (unfold t; field; lra).
  assert (Tr : 0.57735026918962 <= t <= 0.57735026918963).
  { assert (T0 : 0 < t) by (apply Rinv_0_lt_compat; lra). split; nra. }
  assert (I1 : Rabs (inv_root3 - t) <= u).
  { assert (5200308914369308 / 9007199254740992 <= t <= 5200308914369309 / 9007199254740992).
    { split; [apply Rmult_le_reg_r with (sqrt 3)|apply Rmult_le_reg_r with (sqrt 3)]; try lra; rewrite T1; lra. }
    unfold inv_root3. rewrite Uv. apply Rabs_le. lra. }
  assert (I2 : Rabs (two_root3 - 2 * t) <= 2 * u).
  { replace (two_root3 - 2 * t) with (2 * (inv_root3 - t)) by (unfold two_root3, inv_root3; lra). rewrite Rabs_mult, (Rabs_pos_eq 2) by lra. lra. }
  pose proof (Rabs_pos a) as A0. pose proof (Rabs_pos b) as B0.
  split; [exact F0|]. split; [exact F1|]. split; [eapply Rle_trans; [exact C0|]; nra|]. split; [|split; [exact A|]].
  - rewrite T. replace (RR k1 - (a * - t + b * (2 * t))) with ((RR k1 - (a * - inv_root3 + b * two_root3)) + (- (a * (inv_root3 - t)) + b * (two_root3 - 2 * t))) by ring.
    eapply Rle_trans; [apply Rabs_triang|].
    assert (Rabs (- (a * (inv_root3 - t)) + b * (two_root3 - 2 * t)) <= 3.1416 * u + 3.1416 * (2 * u)).
    { eapply Rle_trans; [apply Rabs_triang|]. rewrite Rabs_Ropp, !Rabs_mult. apply Rplus_le_compat; apply Rmult_le_compat; auto using Rabs_pos. }
    assert (Rabs a * inv_root3 + Rabs b * two_root3 <= 5.4415) by (unfold inv_root3, two_root3; lra).
    assert (8 * u * (Rabs a * inv_root3 + Rabs b * two_root3) <= 8 * u * 5.4415) by (apply Rmult_le_compat; try lra; unfold inv_root3, two_root3; lra).
    lra.
  - rewrite T. eapply Rle_trans; [apply Rabs_triang|]. rewrite (Rabs_mult a), (Rabs_mult b), Rabs_Ropp, (Rabs_pos_eq t), (Rabs_pos_eq (2 * t)) by lra. nra.
Qed.

(** Vectors. *)
Lemma tri_vec z0 z1 x0 x1 : (Z.abs z0 <= 2 * s)%Z -> (Z.abs z1 <= 2 * s)%Z ->
  close_to 4 [x0; x1] (exact_point TL [z0; z1]) (unsigned_point TL [z0; z1]) ->
  let X0 := IZR z0 + IZR z1 / 2 in let X1 := IZR z1 * (sqrt 3 / 2) in
  fin x0 /\ fin x1 /\ Rabs (RR x0 - X0) <= 12 * u * IZR s /\ Rabs (RR x1 - X1) <= 9 * u * IZR s /\ Rabs X0 <= 3 * IZR s /\ Rabs X1 <= 1.7321 * IZR s.
Proof.
  intros H0 H1 (_ & _ & C) X0 X1. destruct (tri_exact z0 z1) as [Ee Eu]. rewrite Ee, Eu in C.
  destruct (C 0%nat ltac:(cbn; lia)) as [F0 C0]. destruct (C 1%nat ltac:(cbn; lia)) as [F1 C1]. cbn [nth] in F0, F1, C0, C1. clear C Ee Eu.
  pose proof s_range as Sr. destruct root3_range as [r1 r2]. pose proof uro_pos as U0.
  assert (S1 : 1 <= IZR s) by (apply IZR_le; lia).
  assert (Z0 : Rabs (IZR z0) <= 2 * IZR s) by (rewrite <- abs_IZR, <- mult_IZR; apply IZR_le; exact H0).
  assert (Z1 : Rabs (IZR z1) <= 2 * IZR s) by (rewrite <- abs_IZR, <- mult_IZR; apply IZR_le; exact H1).
  pose proof (Rabs_pos (IZR z0)) as P0. pose proof (Rabs_pos (IZR z1)) as P1.
  split; [exact F0|]. split; [exact F1|]. split; [|split; [|split]].
  - eapply Rle_trans; [exact C0|]. replace (12 * u * IZR s) with (4 * u * (3 * IZR s)) by ring. apply Rmult_le_compat_l; lra.
  - replace (RR x1 - X1) with ((RR x1 - IZR z1 * half_root3) + IZR z1 * (half_root3 - sqrt 3 / 2)) by (unfold X1; ring).
    eapply Rle_trans; [apply Rabs_triang|]. rewrite (Rabs_mult (IZR z1)). pose proof half_root3_near as N.
    assert (Rabs (IZR z1) * Rabs (half_root3 - sqrt 3 / 2) <= 2 * IZR s * (u * 0.8661)).
    { apply Rmult_le_compat; auto using Rabs_pos. apply Rle_trans with (1 := N). apply Rmult_le_compat_l; lra. }
    assert (4 * u * (Rabs (IZR z1) * half_root3) <= 4 * u * (2 * IZR s * 0.8661)).
    { apply Rmult_le_compat_l; [lra|]. apply Rmult_le_compat; try lra; unfold half_root3; lra. }
    assert (0 <= u * IZR s) by (apply Rmult_le_pos; lra). lra.
  - unfold X0. eapply Rle_trans; [apply Rabs_triang|]. unfold Rdiv. rewrite Rabs_mult, (Rabs_pos_eq (/ 2)) by lra. lra.
  - unfold X1. rewrite Rabs_mult, (Rabs_pos_eq (sqrt 3 / 2)) by lra. apply Rle_trans with (2 * IZR s * (sqrt 3 / 2)); [apply Rmult_le_compat_r; lra|]. nra.
Qed.
Notation coords := (coords_of size).
Definition tri_phase_err : R := 400 * u * IZR s.

Lemma tri_phase i j : valid_site size i -> valid_site size j ->
  let p := gphase numF TL size (gmom numF pi_d TL size i) j in
  exists q, fin p /\ Rabs (RR p - q) <= tri_phase_err /\ Rabs (RR p) <= 2 ^ 40 /\ sin q = sin (turn size i j) /\ cos q = cos (turn size i j).
Proof.
  intros Hi Hj p. pose proof H as (W & Hs & H40 & Hok & He & Hn). pose proof (sizes_pos _ Hok) as pos. pose proof s_range as Sr.
  assert (F53 : Forall (fun x => x <= 2 ^ 53)%Z size) by (repeat constructor; lia). assert (F51 : Forall (fun x => x <= 2 ^ 51)%Z size) by (repeat constructor; lia).
  destruct (coords_of_spec size i Hok Hi) as (_ & Gi & _). destruct (coords_of_spec size j Hok Hj) as (_ & Gj & _).
  pose proof (on_grid_length _ _ Gi) as Li. pose proof (on_grid_length _ _ Gj) as Lj.
  destruct (builtin_moderate TL) as [Mp Mpi]; [auto|].
  destruct (centred_small size (coords i) Gi F53) as [_ C2].
  pose proof (momentum_err TL size (coords i) H Mpi F51 Gi) as Em. change (centred_coords size (coords i)) with (centred size (coords i)) in Em.
  destruct (best_spec numF flt_trans flt_irrefl TL size (coords j) Lj ltac:(cbn; lia)) as (_ & (e & Se & Ev) & _).
  pose proof (image_small size (coords j) e F51 Gj Se) as Sm.
  pose proof (point_err TL (image size (coords j) e) ltac:(cbn; lia) Mp Sm) as Ep.
  pose proof (image_congruent size (coords j) e Lj (proj1 Se)) as Cg.
  assert (Lc : length (centred size (coords i)) = 2%nat) by (unfold centred; rewrite zip_length, Li; reflexivity).
  change (map (row numF TL (image size (coords j) e)) (upto (b_dim TL))) with (pv numF TL (image size (coords j) e)) in Ep. rewrite <- Ev in Ep.
  fold (gvec numF TL size j) in Ep. fold (gmom numF pi_d TL size i) in Em.
  assert (Lk : length (gmom numF pi_d TL size i) = 2%nat) by (apply (mom_length numF pi_d TL size); exact H).
  assert (Lx : length (gvec numF TL size j) = 2%nat) by (pose proof (gvec_size numF TL size H j) as Q; unfold vsize in Q; cbn in Q; lia).
  assert (Zb : Forall (fun z => Z.abs z <= 2 * s)%Z (image size (coords j) e) /\ length (image size (coords j) e) = 2%nat).
  { destruct (coords j) as [|c0 [|c1 [|]]]; try discriminate Lj. destruct Se as [Le Fe]. destruct e as [|e0 [|e1 [|]]]; try discriminate Le.
    inversion Gj as [|? ? ? ? G0 G']; subst. inversion G' as [|? ? ? ? G1 _]; subst. inversion Fe as [|? ? Q0 Fe']; subst. inversion Fe' as [|? ? Q1 _]; subst.
    cbn [image zip_with]. unfold image. cbn [zip_with]. split; [repeat constructor; nia|reflexivity]. }
  destruct Zb as [Zb Lz].
  remember (image size (coords j) e) as z eqn:Ez. remember (centred size (coords i)) as m eqn:Emm.
  unfold p, gphase, gsum. cbn [numF n_add n_mul n_ofZ].
  destruct (gmom numF pi_d TL size i) as [|k0 [|k1 [|]]]; try discriminate Lk. destruct (gvec numF TL size j) as [|x0 [|x1 [|]]]; try discriminate Lx.
  destruct z as [|z0 [|z1 [|]]]; try discriminate Lz. destruct m as [|m0 [|m1 [|]]]; try discriminate Lc.
  inversion Zb as [|? ? Zb0 Zb']; subst. inversion Zb' as [|? ? Zb1 _]; subst.
  inversion C2 as [|? ? ? ? [Q0 _] C2']; subst. inversion C2' as [|? ? ? ? [Q1 _] _]; subst.
  change (IZR (b_dim TL) + 6) with (2 + 6) in Em. change (IZR (b_dim TL) + 2) with (2 + 2) in Ep.
  replace (2 + 6) with 8 in Em by ring. replace (2 + 2) with 4 in Ep by ring.
  destruct (tri_mom m0 m1 k0 k1 Q0 Q1 Em) as (Fk0 & Fk1 & Ek0 & Ek1 & Bk0 & Bk1).
  destruct (tri_vec z0 z1 x0 x1 Zb0 Zb1 Ep) as (Fx0 & Fx1 & Ex0 & Ex1 & Bx0 & Bx1).
  set (K0 := 2 * PI * IZR m0 / IZR s) in *. set (K1 := 2 * PI * (2 * IZR m1 - IZR m0) / (sqrt 3 * IZR s)) in *.
  set (X0 := IZR z0 + IZR z1 / 2) in *. set (X1 := IZR z1 * (sqrt 3 / 2)) in *.
  pose proof uro_pos as U0. pose proof pi_range as Pr. destruct root3_range as [r1 r2].
  assert (S1 : 1 <= IZR s <= 8192) by (split; apply IZR_le; lia).
  assert (Uv : u * 9007199254740992 = 1) by (rewrite uro_val; change (IZR (2 ^ 53)) with 9007199254740992; field).
  assert (Us : 0 <= u <= / 9007199254740992) by lra.
  assert (Et : eta <= u * u) by (unfold eta, uro; rewrite <- bpow_plus; apply bpow_le; lia).
  assert (Ov : IZR 1000000 <= bpow radix2 60) by (change (bpow radix2 60) with (IZR (2 ^ 60)); apply IZR_le; lia).
  set (S := IZR s) in *. assert (US : 0 <= u * S <= u * 8192) by (split; [apply Rmult_le_pos; lra|apply Rmult_le_compat_l; lra]).
  assert (UU : u * u <= / 1000 * u) by (apply Rmult_le_compat_r; lra). assert (UUS : u * (u * S) <= / 1000 * (u * S)) by (apply Rmult_le_compat_r; lra).
  assert (US1 : u <= u * S) by (rewrite <- (Rmult_1_r u) at 1; apply Rmult_le_compat_l; lra).
  assert (UUU : u * (u * (u * S)) <= u * S) by (apply Rle_trans with (u * (/ 1000 * (u * S))); [apply Rmult_le_compat_l; lra|nra]).
  destruct (product_near k0 x0 K0 X0 (26 * u) (12 * u * S) 3.1416 (3 * S) (17 * u * (10 * S)) Fk0 Fx0 Ek0 Ex0 Bk0 Bx0) as [G0 T0].
  { apply Rle_trans with (2 := Ov). apply Rle_trans with (4 * (4 * 8192)); [|lra]. apply Rmult_le_compat; lra. }
  { replace ((3.1416 + 26 * u) * (3 * S + 12 * u * S)) with (9.4248 * S + 37.6992 * (u * S) + 78 * (u * S) + 312 * (u * (u * S))) by lra. nra. }
  destruct (product_near k1 x1 K1 X1 (54 * u) (9 * u * S) 5.4415 (1.7321 * S) (17 * u * (10 * S)) Fk1 Fx1 Ek1 Ex1 Bk1 Bx1) as [G1 T1].
  { apply Rle_trans with (2 := Ov). apply Rle_trans with (6 * (4 * 8192)); [|lra]. apply Rmult_le_compat; lra. }
  { replace ((5.4415 + 54 * u) * (1.7321 * S + 9 * u * S)) with (5.4415 * 1.7321 * S + 5.4415 * 9 * (u * S) + 54 * 1.7321 * (u * S) + 54 * 9 * (u * (u * S))) by lra. nra. }
  destruct (dsum_err [true; false] (fun b : bool => if b then fmul k0 x0 else fmul k1 x1) (fun b : bool => if b then K0 * X0 else K1 * X1) (fun _ => 10 * S) (17 * u)) as [Fp Er].
  { cbn. lia. } { lra. }
  { intros [|] _; (split; [assumption|]); (split; [assumption|]); rewrite Rabs_mult; [apply Rle_trans with (3.1416 * (3 * S))|apply Rle_trans with (5.4415 * (1.7321 * S))];
      [apply Rmult_le_compat; auto using Rabs_pos|lra|apply Rmult_le_compat; auto using Rabs_pos|lra]. }
  { unfold sumR. cbn [map fold_right]. apply Rle_trans with (IZR 1000000); [lra|]. apply Rle_trans with (1 := Ov). apply bpow_le. lia. }
  cbn [map fold_left] in Fp, Er. unfold sumR in Er. cbn [fold_right length INR] in Er.
  change (fold_left fadd (zip_with fmul [k0; k1] [x0; x1]) (of_Z 0)) with (fadd (fadd f0 (fmul k0 x0)) (fmul k1 x1)).
  set (P := fadd (fadd f0 (fmul k0 x0)) (fmul k1 x1)) in *.
  assert (Er' : Rabs (RR P - (K0 * X0 + K1 * X1)) <= tri_phase_err).
  { replace (K0 * X0 + K1 * X1) with (K0 * X0 + (K1 * X1 + 0)) by ring. eapply Rle_trans; [exact Er|]. unfold tri_phase_err. fold S. nra. }
  exists (K0 * X0 + K1 * X1). split; [exact Fp|]. split; [exact Er'|]. split.
  - assert (Rabs (K0 * X0 + K1 * X1) <= 20 * S).
    { eapply Rle_trans; [apply Rabs_triang|]. rewrite !Rabs_mult.
      assert (Rabs K0 * Rabs X0 <= 3.1416 * (3 * S)) by (apply Rmult_le_compat; auto using Rabs_pos).
      assert (Rabs K1 * Rabs X1 <= 5.4415 * (1.7321 * S)) by (apply Rmult_le_compat; auto using Rabs_pos). lra. }
    pose proof (Rabs_triang_inv (RR P) (K0 * X0 + K1 * X1)) as Tr. unfold tri_phase_err in Er'. fold S in Er'.
    assert (400 * u * S <= 1) by nra. apply Rle_trans with (20 * 8192 + 1); [lra|]. lra.
  - unfold turn. rewrite !allowed_dot by assumption. rewrite <- Emm.
    destruct (frac_congruent size pos [m0; m1] (coords j) [z0; z1]) as [t Et']; [reflexivity|exact Cg|].
    assert (Q : K0 * X0 + K1 * X1 = 2 * PI * frac size [m0; m1] [z0; z1]).
    { cbn [frac]. unfold K0, K1, X0, X1. rewrite !mult_IZR. fold S. field. split; [lra|]. apply Rgt_not_eq. lra. }
    rewrite Q, Et', Rmult_plus_distr_l. destruct (cos_sin_turns (2 * PI * frac size [m0; m1] (coords j)) t) as [-> ->]. auto.
Qed.
End Tri.

(** * Laws of the exact intensities *)
Section Exact.
Context (BR : bravais R) (size : list Z) (D : dual_momenta BR size) (H : lattice_ok BR size).
Notation P := (prodZ size).
Notation coords := (coords_of size).
Notation exact occ i := (intensity occ (allowed size (coords i)) (map (map IZR) (map coords (upto P)))).

Lemma allowed_intensity occ i : vsize occ = P -> valid_site size i ->
  exact occ i = L_Fourier.amp size cos occ i ^ 2 + L_Fourier.amp size sin occ i ^ 2.
Proof.
  intros Ho Hi. unfold intensity, L_Fourier.amp. rewrite map_map, <- Ho.
  rewrite (zip_sites 0 (fun n x => n * cos (dot (allowed size (coords i)) x))), (zip_sites 0 (fun n x => n * sin (dot (allowed size (coords i)) x))).
  pose proof (fun j Hj => on_grid_length _ _ (c_on BR size H j Hj)) as Lc.
  f_equal; f_equal; apply sumR_ext; intros j Hj; apply upto_In in Hj; rewrite Ho in Hj; rewrite allowed_dot by (apply Lc; assumption); reflexivity.
Qed.
Lemma allowed_parseval occ : vsize occ = P -> sumR (map (fun i => exact occ i) (upto P)) = IZR P * sumR (map (fun n => n * n) occ).
Proof.
  intros Ho. pose proof (dual_fourier BR size D H) as FB. rewrite <- (intensities_sum BR size H FB occ Ho). apply sumR_ext. intros i Hi. apply upto_In in Hi.
  rewrite (site_intensity BR size H FB occ i Ho Hi). now apply allowed_intensity.
Qed.
Lemma allowed_constant a i : valid_site size i -> exact (repeat a (Z.to_nat P)) i = if (i =? middle size)%Z then (IZR P * a) ^ 2 else 0.
Proof.
  intros Hi. pose proof (dual_fourier BR size D H) as FB. pose proof H as (_ & _ & _ & Hok & _). destruct (grid_sites size true Hok) as [_ Pn].
  rewrite allowed_intensity by (try exact Hi; unfold vsize; rewrite repeat_length; lia).
  assert (G : forall th f, (forall x, f x = cos (th + x)) ->
    L_Fourier.amp size f (repeat a (Z.to_nat P)) i = (if (i =? middle size)%Z then 1 else 0) * (IZR P * cos th) * a).
  { intros th f E. unfold L_Fourier.amp. pose proof (constant_sum BR size H th i Hi) as Q. cbv zeta beta in Q. rewrite <- Q, (Rmult_comm _ a).
    rewrite <- (sumR_scal a (fun j => cos (th + 2 * PI * frac size (centred size (coords i)) (coords j))) (upto P)).
    apply sumR_ext. intros j Hj. apply upto_In in Hj. rewrite (nth_indep _ 0 a) by (rewrite repeat_length; lia). rewrite nth_repeat, E. reflexivity. }
  rewrite (G 0 cos) by (intros; now rewrite Rplus_0_l). rewrite (G (- (PI / 2)) sin).
  2:{ intros x. rewrite cos_plus, cos_neg, sin_neg, cos_PI2, sin_PI2. ring. }
  rewrite cos_neg, cos_PI2, cos_0. destruct (i =? middle size)%Z; ring.
Qed.
End Exact.

(** * Sums and constant occupations of computed structure factors *)
Section Computed.
Context (size : list Z) (sk occ : list f64) (mult : f64) (cs : list (list Z)) (b : R).
Notation P := (prodZ size).
Notation exact i := (intensity (map RR occ) (allowed size (coords_of size i)) (map (map IZR) cs)).
Context (BR : bravais R) (Du : dual_momenta BR size) (H : lattice_ok BR size) (Ho : vsize occ = P) (Hs : vsize sk = P).
Context (Ecs : omapl (GetCoordinates (HyperCubicGrid size true)) (upto P) = Ok cs).
Context (C : forall i c, valid_site size i -> GetCoordinates (HyperCubicGrid size true) i = Ok c ->
  fin (nth (Z.to_nat i) sk f0) /\ Rabs (RR (nth (Z.to_nat i) sk f0) - RR mult * intensity (map RR occ) (allowed size c) (map (map IZR) cs) / IZR (P * P)) <= b).

Lemma cs_eq : cs = map (coords_of size) (upto P).
Proof.
  pose proof H as (_ & _ & _ & Hok & _). rewrite (omapl_pure _ (coords_of size)) in Ecs; [now injection Ecs|].
  intros j Hj. apply upto_In in Hj. now apply grid_coords.
Qed.
Lemma P_pos : (0 < P)%Z. Proof. apply (grid_sites size true). apply H. Qed.

Lemma computed_sum : Rabs (sumR (map RR sk) - RR mult * sumR (map (fun n => RR n * RR n) occ) / IZR P) <= IZR P * b.
Proof.
  pose proof P_pos as P0. assert (PR : 0 < IZR P) by (apply IZR_lt; exact P0).
  assert (Vo : vsize (map RR occ) = P) by (unfold vsize in *; rewrite map_length; exact Ho).
  pose proof (allowed_parseval BR size Du H (map RR occ) Vo) as Q. rewrite <- cs_eq in Q. rewrite map_map in Q.
  assert (E1 : RR mult * sumR (map (fun n => RR n * RR n) occ) / IZR P = sumR (map (fun i => RR mult / IZR (P * P) * exact i) (upto P))).
  { rewrite (sumR_scal (RR mult / IZR (P * P)) (fun i => exact i)), Q, mult_IZR. field. lra. }
  assert (E2 : sumR (map RR sk) = sumR (map (fun i => RR (nth (Z.to_nat i) sk f0)) (upto P))).
  { rewrite <- (map_nth_upto sk f0) at 1. rewrite map_map, Hs. reflexivity. }
  rewrite E1, E2.
  assert (G : forall l, (forall i, In i l -> valid_site size i) ->
    Rabs (sumR (map (fun i => RR (nth (Z.to_nat i) sk f0)) l) - sumR (map (fun i => RR mult / IZR (P * P) * exact i) l)) <= INR (length l) * b).
  { induction l as [|i l IH]; intros V; cbn [map].
    - unfold sumR. cbn. rewrite Rminus_0_r, Rabs_R0. lra.
    - rewrite !sumR_cons. cbn [length]. rewrite S_INR.
      match goal with |- Rabs (?a + ?A - (?c + ?B)) <= _ => replace (a + A - (c + B)) with ((a - c) + (A - B)) by ring end.
      eapply Rle_trans; [apply Rabs_triang|]. pose proof (IH (fun j Hj => V j (or_intror Hj))) as I1. pose proof (V i (or_introl eq_refl)) as Vi.
      pose proof H as (_ & _ & _ & Hok & _). destruct (C i (coords_of size i) Vi (grid_coords size true i Hok Vi)) as [_ Ci].
      replace (RR mult * exact i / IZR (P * P)) with (RR mult / IZR (P * P) * exact i) in Ci by (unfold Rdiv; ring). lra. }
  pose proof (G (upto P) (fun i Hi => proj1 (upto_In _ _) Hi)) as Q2. rewrite upto_length, INR_IZR_INZ, Z2Nat.id in Q2 by lia. exact Q2.
Qed.

Lemma computed_constant a i : occ = repeat a (Z.to_nat P) -> valid_site size i ->
  Rabs (RR (nth (Z.to_nat i) sk f0) - (if (i =? middle size)%Z then RR mult * (RR a * RR a) else 0)) <= b.
Proof.
  intros Eo Hi. pose proof P_pos as P0. assert (PR : 0 < IZR P) by (apply IZR_lt; exact P0). pose proof H as (_ & _ & _ & Hok & _).
  destruct (C i (coords_of size i) Hi (grid_coords size true i Hok Hi)) as [_ Ci]. rewrite cs_eq, Eo, map_repeat, (allowed_constant BR size Du H (RR a) i Hi) in Ci.
  destruct (i =? middle size)%Z.
  - replace (RR mult * (IZR P * RR a) ^ 2 / IZR (P * P)) with (RR mult * (RR a * RR a)) in Ci by (rewrite mult_IZR; field; lra). exact Ci.
  - unfold Rdiv in Ci. rewrite Rmult_0_r, Rmult_0_l in Ci. exact Ci.
Qed.
End Computed.
