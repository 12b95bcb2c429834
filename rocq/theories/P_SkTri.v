(** C108: structure factors computed in doubles on triangular lattices, their sum
    rule and those of constant occupations.  [uro] is 2^-53, [RR x] the real value
    of the double x, [allowed size c] the exact momentum of the point c in lattice
    coordinates, [intensity n k xs] the squared modulus of sum_j n_j exp(i k.x_j). *)
From Coq Require Import ZArith Reals List Bool Lia Lra.
From Flocq Require Import IEEE754.BinarySingleNaN.
From Verif Require Import Base F64 Num S_Math S_Accum M_MathF M_Grid M_Bravais M_Lattice S_Grid S_Bravais S_Lattice S_Fourier S_Sk S_SkTri
  L_Grid L_MathF L_Bravais L_Lattice L_Sk L_SkTri P_Mom P_Lattice P_Sk P_Fourier.
Import ListNotations.
Open Scope Z_scope.

Theorem C108_accumulate : forall s delta fsin fcos occ sk mult, let size := [s; s] in
  lattice_ok (TriangularLattice numF) size -> s * s <= 2 ^ 26 -> trig_close delta fsin fcos -> (0 <= delta <= / 200)%R ->
  vsize occ = s * s -> vsize sk = s * s -> Forall moderate occ -> moderate mult ->
  Forall (fun x => fin x /\ (Rabs (RR x) <= 2 ^ 1000)%R) sk ->
  exists L sk' cs, Lattice numF pi_d (TriangularLattice numF) size true = Ok L /\ AccumulateSk numF fsin fcos L occ sk mult = Ok sk' /\ vsize sk' = s * s /\
  omapl (GetCoordinates (l_grid L)) (upto (s * s)) = Ok cs /\
  forall i c, valid_site size i -> GetCoordinates (l_grid L) i = Ok c ->
  let x := nth (Z.to_nat i) sk' f0 in let y := nth (Z.to_nat i) sk f0 in let nn := IZR (s * s * (s * s)) in
  fin x /\ (Rabs (RR x - (RR y + RR mult * intensity (map RR occ) (allowed size c) (map (map IZR) cs) / nn)) <=
    uro * Rabs (RR y) + Rabs (RR mult) * (sum_abs (map RR occ) * sum_abs (map RR occ)) / nn * (3 * triangular_error delta s + 6 * uro))%R.
Proof.
  intros s delta fsin fcos occ sk mult size H HN Ht Hd Ho Hs Mo Mm Fs. subst size.
  assert (Ep : prodZ [s; s] = s * s) by (cbn; lia). pose proof uro_pos as U0. pose proof (s_range s H HN) as Sr.
  assert (Sb : (1 <= IZR s <= 8192)%R) by (split; apply IZR_le; lia).
  assert (Uv : (uro * 9007199254740992 = 1)%R) by (rewrite uro_val; change (IZR (2 ^ 53)) with 9007199254740992%R; field).
  assert (E0 : (0 <= tri_phase_err s <= / 10000)%R) by (unfold tri_phase_err; nra).
  destruct (sk_near (TriangularLattice numF) [s; s] H ltac:(lia) delta fsin fcos Ht ltac:(lra) (tri_phase_err s) ltac:(lra) ltac:(lra) (tri_phase s H HN) occ sk mult
    ltac:(lia) ltac:(lia) Mo Mm Fs) as (L & sk' & cs & EL & Es & Vs & Ec & P).
  rewrite Ep in *. exists L, sk', cs. split; [exact EL|]. split; [exact Es|]. split; [exact Vs|]. split; [exact Ec|].
  intros i c Hi Ei. destruct (P i c Hi Ei) as [Fx Ex]. split; [exact Fx|].
  replace (triangular_error delta s) with (delta + tri_phase_err s + 2 * uro * (IZR (s * s) + 2))%R by (unfold triangular_error, tri_phase_err; ring). exact Ex.
Qed.
Print Assumptions C108_accumulate.
Example C108_accumulate_ex :
  lattice_ok (TriangularLattice numF) [4; 4] /\ 4 * 4 <= 2 ^ 26 /\ (exists fsin fcos, trig_close (2 * uro) fsin fcos) /\ (0 <= 2 * uro <= / 200)%R /\
  vsize (repeat f1 15 ++ [f0]) = 4 * 4 /\ Forall moderate (repeat f1 15 ++ [f0]) /\ moderate f1 /\
  triangular_error (2 * uro) 4 = (1638 * uro)%R.
Proof.
  split; [standard_lattice|]. split; [lia|]. split; [exact (ex_intro _ _ (ex_intro _ _ trig_close_ex))|].
  split; [pose proof uro_pos; pose proof uro_small; lra|]. split; [reflexivity|].
  split; [apply Forall_app; split; [apply Forall_forall; intros x Hx; apply repeat_spec in Hx; subst x; exact moderate_f1|constructor; [exact moderate_f0|constructor]]|].
  split; [exact moderate_f1|]. unfold triangular_error. change (4 * 4) with 16. ring.
Qed.

(** ComputeSk starts from zeros. *)
Theorem C108_compute : forall s delta fsin fcos occ mult, let size := [s; s] in
  lattice_ok (TriangularLattice numF) size -> s * s <= 2 ^ 26 -> trig_close delta fsin fcos -> (0 <= delta <= / 200)%R ->
  vsize occ = s * s -> Forall moderate occ -> moderate mult ->
  exists L sk cs, Lattice numF pi_d (TriangularLattice numF) size true = Ok L /\ ComputeSk numF fsin fcos L occ mult = Ok sk /\ vsize sk = s * s /\
  omapl (GetCoordinates (l_grid L)) (upto (s * s)) = Ok cs /\
  forall i c, valid_site size i -> GetCoordinates (l_grid L) i = Ok c ->
  let x := nth (Z.to_nat i) sk f0 in let nn := IZR (s * s * (s * s)) in
  fin x /\ (Rabs (RR x - RR mult * intensity (map RR occ) (allowed size c) (map (map IZR) cs) / nn) <=
    Rabs (RR mult) * (sum_abs (map RR occ) * sum_abs (map RR occ)) / nn * (3 * triangular_error delta s + 6 * uro))%R.
Proof.
  intros s delta fsin fcos occ mult size H HN Ht Hd Ho Mo Mm. pose proof (s_range s H HN) as Sr.
  assert (Ep : prodZ [s; s] = s * s) by (cbn; lia).
  pose proof H as (W & Hs & H40 & Hok & He & Hn). destruct (grid_sites size true Hok) as [En Pn].
  set (z := repeat f0 (Z.to_nat (s * s))).
  assert (Vz : vsize z = s * s) by (unfold vsize, z; rewrite repeat_length; lia).
  destruct (C108_accumulate s delta fsin fcos occ z mult H HN Ht Hd Ho Vz Mo Mm) as (L & sk & cs & EL & Es & Vs & Ec & P).
  { apply Forall_forall. intros x Hx. apply repeat_spec in Hx. subst x. split; [reflexivity|]. rewrite RR_f0, Rabs_R0. apply pow_le. lra. }
  exists L, sk, cs. split; [exact EL|]. split.
  { rewrite <- Es. rewrite lattice_built in EL by exact H. injection EL as <-. unfold ComputeSk.
    change (l_grid (built numF pi_d (TriangularLattice numF) [s; s] true)) with (HyperCubicGrid [s; s] true). fold size. rewrite En. unfold size. rewrite Ep. reflexivity. }
  split; [exact Vs|]. split; [exact Ec|]. intros i c Hi Ei. destruct (P i c Hi Ei) as [Fx Ex]. cbv zeta. split; [exact Fx|].
  assert (Ez : nth (Z.to_nat i) z f0 = f0) by (unfold z; apply nth_repeat). rewrite Ez, RR_f0, Rabs_R0, Rmult_0_r, !Rplus_0_l in Ex. exact Ex.
Qed.
Print Assumptions C108_compute.
Example C108_compute_ex : lattice_ok (TriangularLattice numF) [8192; 8192] /\ 8192 * 8192 <= 2 ^ 26 /\
  (3 * triangular_error (2 * uro) 8192 + 6 * uro <= / 10000000)%R.
Proof.
  split; [standard_lattice|]. split; [lia|]. unfold triangular_error. change (8192 * 8192) with 67108864. rewrite uro_val. change (IZR (2 ^ 53)) with 9007199254740992%R. lra.
Qed.

(** The lattices of the library whose momenta are dual to the positions. *)
Definition good_lattice (B : bravais f64) (size : list Z) (delta e : R) : Prop :=
  lattice_ok B size /\ prodZ size <= 2 ^ 26 /\
  ((B = ChainLattice numF \/ B = SquareLattice numF \/ B = CubicLattice numF) /\ 4 * sum_squares size <= 2 ^ 53 /\ e = amplitude_error delta size \/
   B = TriangularLattice numF /\ exists s, size = [s; s] /\ e = triangular_error delta s).

Lemma good_compute B size delta e fsin fcos occ mult : good_lattice B size delta e -> trig_close delta fsin fcos -> (0 <= delta <= / 200)%R ->
  vsize occ = prodZ size -> Forall moderate occ -> moderate mult ->
  exists BR L sk cs, dual_momenta BR size /\ lattice_ok BR size /\ Lattice numF pi_d B size true = Ok L /\ l_grid L = HyperCubicGrid size true /\
  ComputeSk numF fsin fcos L occ mult = Ok sk /\ vsize sk = prodZ size /\
  omapl (GetCoordinates (HyperCubicGrid size true)) (upto (prodZ size)) = Ok cs /\
  forall i c, valid_site size i -> GetCoordinates (HyperCubicGrid size true) i = Ok c ->
  fin (nth (Z.to_nat i) sk f0) /\ (Rabs (RR (nth (Z.to_nat i) sk f0) - RR mult * intensity (map RR occ) (allowed size c) (map (map IZR) cs) / IZR (prodZ size * prodZ size)) <=
    Rabs (RR mult) * (sum_abs (map RR occ) * sum_abs (map RR occ)) / IZR (prodZ size * prodZ size) * (3 * e + 6 * uro))%R.
Proof.
  intros (H & HN & G) Ht Hd Ho Mo Mm. destruct G as [(HB & Hb & ->)|(-> & s & -> & ->)].
  - assert (exists BR, dual_momenta BR size /\ lattice_ok BR size) as (BR & D & HR).
    { destruct (C83_built_in size 0) as (D1 & D2 & D3 & _). pose proof H as (W & R). destruct HB as [->|[->| ->]].
      - exists (ChainLattice numR). split; [exact D1|]. split; [apply (chain_wf numR)|exact R].
      - exists (SquareLattice numR). split; [exact D2|]. split; [apply (square_wf numR)|exact R].
      - exists (CubicLattice numR). split; [exact D3|]. split; [apply (cubic_wf numR)|exact R]. }
    destruct (C91_compute B size delta fsin fcos occ mult HB H Hb HN Ht Hd Ho Mo Mm) as (L & sk & cs & EL & Es & Vs & Ec & P).
    exists BR, L, sk, cs. rewrite lattice_built in EL by exact H. injection EL as <-. repeat (split; [assumption || (now apply lattice_built) || reflexivity|]). exact P.
  - destruct (C83_built_in [s; s] s) as (_ & _ & _ & D). pose proof H as (W & R). assert (Ep : prodZ [s; s] = s * s) by (cbn; lia). rewrite Ep in *.
    destruct (C108_compute s delta fsin fcos occ mult H HN Ht Hd Ho Mo Mm) as (L & sk & cs & EL & Es & Vs & Ec & P).
    exists (TriangularLattice numR), L, sk, cs. rewrite lattice_built in EL by exact H. injection EL as <-. split; [apply D; repeat constructor|].
    split; [split; [apply (triangular_wf numR)|exact R]|]. repeat (split; [assumption || (now apply lattice_built) || reflexivity|]). exact P.
Qed.

(** The entries add up to the mean of the squared occupations. *)
Theorem C108_sum_rule : forall B size delta e fsin fcos occ mult,
  good_lattice B size delta e -> trig_close delta fsin fcos -> (0 <= delta <= / 200)%R ->
  vsize occ = prodZ size -> Forall moderate occ -> moderate mult ->
  exists L sk, Lattice numF pi_d B size true = Ok L /\ ComputeSk numF fsin fcos L occ mult = Ok sk /\
  (Rabs (sumR (map RR sk) - RR mult * sumR (map (fun n => RR n * RR n) occ) / IZR (prodZ size)) <=
    Rabs (RR mult) * (sum_abs (map RR occ) * sum_abs (map RR occ)) / IZR (prodZ size) * (3 * e + 6 * uro))%R.
Proof.
  intros B size delta e fsin fcos occ mult G Ht Hd Ho Mo Mm.
  destruct (good_compute B size delta e fsin fcos occ mult G Ht Hd Ho Mo Mm) as (BR & L & sk & cs & D & HR & EL & _ & Es & Vs & Ec & P).
  exists L, sk. split; [exact EL|]. split; [exact Es|].
  pose proof (computed_sum size sk occ mult cs _ BR D HR Ho Vs Ec P) as Q. apply Rle_trans with (1 := Q). apply Req_le.
  assert (PR : (0 < IZR (prodZ size))%R) by (apply IZR_lt; apply (grid_sites size true); apply HR). rewrite mult_IZR. field. lra.
Qed.
Print Assumptions C108_sum_rule.

(** Constant occupations: a single peak at momentum zero. *)
Theorem C108_constant : forall B size delta e fsin fcos a mult,
  good_lattice B size delta e -> trig_close delta fsin fcos -> (0 <= delta <= / 200)%R -> moderate a -> moderate mult ->
  exists L sk, Lattice numF pi_d B size true = Ok L /\ ComputeSk numF fsin fcos L (repeat a (Z.to_nat (prodZ size))) mult = Ok sk /\
  forall i, valid_site size i ->
  (Rabs (RR (nth (Z.to_nat i) sk f0) - (if i =? middle size then RR mult * (RR a * RR a) else 0)) <=
    Rabs (RR mult) * (RR a * RR a) * (3 * e + 6 * uro))%R.
Proof.
  intros B size delta e fsin fcos a mult G Ht Hd Ma Mm. pose proof G as (H & _).
  assert (P0 : 0 < prodZ size) by (apply (grid_sites size true); apply H). assert (PR : (0 < IZR (prodZ size))%R) by (apply IZR_lt; exact P0).
  set (occ := repeat a (Z.to_nat (prodZ size))). assert (Ho : vsize occ = prodZ size) by (unfold vsize, occ; rewrite repeat_length; lia).
  assert (Mo : Forall moderate occ) by (apply Forall_forall; intros x Hx; apply repeat_spec in Hx; subst x; exact Ma).
  destruct (good_compute B size delta e fsin fcos occ mult G Ht Hd Ho Mo Mm) as (BR & L & sk & cs & D & HR & EL & _ & Es & Vs & Ec & P).
  exists L, sk. split; [exact EL|]. split; [exact Es|]. intros i Hi.
  pose proof (computed_constant size sk occ mult cs _ BR D HR Ec P a i eq_refl Hi) as Q. apply Rle_trans with (1 := Q). apply Req_le.
  assert (Sa : sum_abs (map RR occ) = (IZR (prodZ size) * Rabs (RR a))%R).
  { unfold occ. rewrite <- (Z2Nat.id (prodZ size)) at 2 by lia. rewrite <- INR_IZR_INZ. generalize (Z.to_nat (prodZ size)). intros n. induction n as [|n IH]; [cbn; unfold sum_abs, sumR; cbn; ring|].
    cbn [repeat map]. rewrite sum_abs_cons, IH, S_INR. ring. }
  assert (Sq : (Rabs (RR a) * Rabs (RR a) = RR a * RR a)%R) by (rewrite <- Rabs_mult; apply Rabs_pos_eq; nra).
  rewrite Sa, mult_IZR. rewrite <- Sq. field. lra.
Qed.
Print Assumptions C108_constant.
Example C108_good_ex : good_lattice (TriangularLattice numF) [4; 4] (2 * uro) (1638 * uro) /\ good_lattice (SquareLattice numF) [2; 2] (2 * uro) (78 * uro) /\
  middle [4; 4] = 10 /\ valid_site [4; 4] 10.
Proof.
  destruct C108_accumulate_ex as (H1 & _ & _ & _ & _ & _ & _ & E1). destruct C91_accumulate_ex as (H2 & H3 & H4 & _ & _ & _ & _ & _ & E2).
  split; [split; [exact H1|]; split; [cbn; lia|]; right; split; [reflexivity|]; exists 4; split; [reflexivity|now symmetry]|].
  split; [split; [exact H2|]; split; [exact H4|]; left; split; [auto|]; split; [exact H3|now symmetry]|].
  split; [reflexivity|unfold valid_site; cbn; lia].
Qed.
