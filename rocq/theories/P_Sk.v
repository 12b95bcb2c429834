(** Properties of structure factors computed in doubles.  [uro] is 2^-53, [RR x]
    the real value of the double x, [allowed size c] the exact momentum of the
    point c, [intensity n k xs] the squared modulus of sum_j n_j exp(i k.x_j). *)
From Coq Require Import ZArith Reals List Bool Lia Lra.
From Flocq Require Import IEEE754.BinarySingleNaN.
From Verif Require Import Base F64 Num S_Math S_Accum M_MathF M_Grid M_Bravais M_Lattice S_Grid S_Bravais S_Lattice S_Sk
  L_Grid L_MathF L_Bravais L_Lattice L_Sk P_Mom P_Lattice.
Import ListNotations.
Open Scope Z_scope.

(** * C91 *)
Theorem C91_accumulate : forall B size delta fsin fcos occ sk mult,
  B = ChainLattice numF \/ B = SquareLattice numF \/ B = CubicLattice numF -> lattice_ok B size ->
  4 * sum_squares size <= 2 ^ 53 -> prodZ size <= 2 ^ 26 -> trig_close delta fsin fcos -> (0 <= delta <= / 200)%R ->
  vsize occ = prodZ size -> vsize sk = prodZ size -> Forall moderate occ -> moderate mult ->
  Forall (fun s => fin s /\ (Rabs (RR s) <= 2 ^ 1000)%R) sk ->
  exists L sk' cs, Lattice numF pi_d B size true = Ok L /\ AccumulateSk numF fsin fcos L occ sk mult = Ok sk' /\ vsize sk' = prodZ size /\
  omapl (GetCoordinates (l_grid L)) (upto (prodZ size)) = Ok cs /\
  forall i c, valid_site size i -> GetCoordinates (l_grid L) i = Ok c ->
  let x := nth (Z.to_nat i) sk' f0 in let s := nth (Z.to_nat i) sk f0 in let nn := IZR (prodZ size * prodZ size) in
  fin x /\ (Rabs (RR x - (RR s + RR mult * intensity (map RR occ) (allowed size c) (map (map IZR) cs) / nn)) <=
    uro * Rabs (RR s) + Rabs (RR mult) * (sum_abs (map RR occ) * sum_abs (map RR occ)) / nn * (3 * amplitude_error delta size + 6 * uro))%R.
Proof. intros B size delta fsin fcos occ sk mult HB H Hb HN Ht Hd. apply sk_close; auto. now apply hypercubic_unit. Qed.
Print Assumptions C91_accumulate.
Lemma moderate_f1 : moderate f1.
Proof. split; [reflexivity|]. right. rewrite RR_f1, Rabs_R1. split; [rewrite <- Rinv_1; apply Rinv_le_contravar; [lra|]|]; apply pow_R1_Rle; lra. Qed.
Lemma moderate_f0 : moderate f0.
Proof. split; [reflexivity|left; reflexivity]. Qed.
Example C91_accumulate_ex :
  lattice_ok (SquareLattice numF) [2; 2] /\ 4 * sum_squares [2; 2] <= 2 ^ 53 /\ prodZ [2; 2] <= 2 ^ 26 /\
  (exists fsin fcos, trig_close (2 * uro) fsin fcos) /\ (0 <= 2 * uro <= / 200)%R /\
  vsize [f1; f0; f1; f1] = prodZ [2; 2] /\ Forall moderate [f1; f0; f1; f1] /\ moderate f1 /\
  amplitude_error (2 * uro) [2; 2] = (78 * uro)%R.
Proof.
  split; [standard_lattice|]. split; [cbn; lia|]. split; [cbn; lia|]. split; [exact (ex_intro _ _ (ex_intro _ _ trig_close_ex))|].
  split; [pose proof uro_pos; pose proof uro_small; lra|]. split; [reflexivity|].
  split; [repeat (apply Forall_cons; [exact moderate_f1 || exact moderate_f0|]); apply Forall_nil|]. split; [exact moderate_f1|].
  unfold amplitude_error. cbn [List.length INR]. change (sumZ [2; 2]) with 4. change (prodZ [2; 2]) with 4. ring.
Qed.

(** ComputeSk starts from zeros. *)
Theorem C91_compute : forall B size delta fsin fcos occ mult,
  B = ChainLattice numF \/ B = SquareLattice numF \/ B = CubicLattice numF -> lattice_ok B size ->
  4 * sum_squares size <= 2 ^ 53 -> prodZ size <= 2 ^ 26 -> trig_close delta fsin fcos -> (0 <= delta <= / 200)%R ->
  vsize occ = prodZ size -> Forall moderate occ -> moderate mult ->
  exists L sk cs, Lattice numF pi_d B size true = Ok L /\ ComputeSk numF fsin fcos L occ mult = Ok sk /\ vsize sk = prodZ size /\
  omapl (GetCoordinates (l_grid L)) (upto (prodZ size)) = Ok cs /\
  forall i c, valid_site size i -> GetCoordinates (l_grid L) i = Ok c ->
  let x := nth (Z.to_nat i) sk f0 in let nn := IZR (prodZ size * prodZ size) in
  fin x /\ (Rabs (RR x - RR mult * intensity (map RR occ) (allowed size c) (map (map IZR) cs) / nn) <=
    Rabs (RR mult) * (sum_abs (map RR occ) * sum_abs (map RR occ)) / nn * (3 * amplitude_error delta size + 6 * uro))%R.
Proof.
  intros B size delta fsin fcos occ mult HB H Hb HN Ht Hd Ho Mo Mm.
  pose proof H as (W & Hs & H40 & Hok & He & Hn). destruct (grid_sites size true Hok) as [En Pn].
  set (z := repeat f0 (Z.to_nat (prodZ size))).
  assert (Vz : vsize z = prodZ size) by (unfold vsize, z; rewrite repeat_length; lia).
  destruct (C91_accumulate B size delta fsin fcos occ z mult HB H Hb HN Ht Hd Ho Vz Mo Mm) as (L & sk & cs & EL & Es & Vs & Ec & P).
  { apply Forall_forall. intros x Hx. apply repeat_spec in Hx. subst x. split; [reflexivity|]. rewrite RR_f0, Rabs_R0. apply pow_le. lra. }
  exists L, sk, cs. split; [exact EL|]. split.
  { rewrite <- Es. rewrite lattice_built in EL by exact H. injection EL as <-. unfold ComputeSk.
    change (l_grid (built numF pi_d B size true)) with (HyperCubicGrid size true). rewrite En. reflexivity. }
  split; [exact Vs|]. split; [exact Ec|]. intros i c Hi Ei. destruct (P i c Hi Ei) as [Fx Ex]. cbv zeta. split; [exact Fx|].
  assert (Ez : nth (Z.to_nat i) z f0 = f0) by (unfold z; apply nth_repeat). rewrite Ez, RR_f0, Rabs_R0, Rmult_0_r, !Rplus_0_l in Ex. exact Ex.
Qed.
Print Assumptions C91_compute.
Example C91_compute_ex : lattice_ok (CubicLattice numF) [4; 4; 4] /\ 4 * sum_squares [4; 4; 4] <= 2 ^ 53 /\ prodZ [4; 4; 4] <= 2 ^ 26 /\
  vsize (repeat f1 64) = prodZ [4; 4; 4] /\ Forall moderate (repeat f1 64).
Proof.
  split; [standard_lattice|]. split; [cbn; lia|]. split; [cbn; lia|]. split; [reflexivity|].
  apply Forall_forall. intros x Hx. apply repeat_spec in Hx. subst x. exact moderate_f1.
Qed.

(** Whatever the sine returns, a non-negative multiplier never decreases an entry. *)
Theorem C91_grows : forall B size fsin fcos occ sk mult,
  lattice_ok B size -> vsize occ = prodZ size -> vsize sk = prodZ size -> prodZ size < 2 ^ 32 -> (0 <= RR mult)%R ->
  exists L sk', Lattice numF pi_d B size true = Ok L /\ AccumulateSk numF fsin fcos L occ sk mult = Ok sk' /\
  forall i, valid_site size i -> let x := nth (Z.to_nat i) sk' f0 in let s := nth (Z.to_nat i) sk f0 in
  fin x -> fin s /\ (RR s <= RR x)%R.
Proof. intros B size fsin fcos occ sk mult. apply sk_grows. Qed.
Print Assumptions C91_grows.
Example C91_grows_ex : lattice_ok (TriangularLattice numF) [2; 2] /\ vsize [f1; f0; f1; f1] = prodZ [2; 2] /\ prodZ [2; 2] < 2 ^ 32 /\ (0 <= RR f1)%R /\
  match L <- Lattice numF pi_d (TriangularLattice numF) [2; 2] true ;; AccumulateSk numF (fun x => x) (fun _ => f1) L [f1; f0; f1; f1] [f0; f1; f0; f0] f1 with
  | Ok [x; y; z; w] => flt f0 x && flt f1 y && flt f0 z && flt f0 w | _ => false end = true.
Proof. split; [standard_lattice|]. split; [reflexivity|]. split; [reflexivity|]. split; [rewrite RR_f1; lra|]. vm_compute. reflexivity. Qed.
