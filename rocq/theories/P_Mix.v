(** Property theorems C123 (walks spread evenly over the lattice).  [ends] and [reaching]
    are those of S_Count; [Un_cv] is the convergence of sequences of the standard library. *)
From Coq Require Import ZArith Reals List Bool Lia Lra.
From Verif Require Import Base F64 Num S_Math S_Accum M_MathInt L_MathInt M_Grid M_Bravais M_Lattice S_Grid L_Grid S_Bravais S_Lattice S_LatticeN S_Fourier
  L_Bravais L_Lattice L_LatticeN L_Sum L_LatticeK L_Fourier S_Route L_Route S_Diffuse L_Diffuse S_Count L_Count L_Mix P_Count.
Import ListNotations.
Open Scope Z_scope.

Ltac standard_lattice :=
  split; [lazymatch goal with
    | |- well_formed (ChainLattice ?N) => exact (chain_wf N) | |- well_formed (SquareLattice ?N) => exact (square_wf N)
    | |- well_formed (CubicLattice ?N) => exact (cubic_wf N) | |- well_formed (TriangularLattice ?N) => exact (triangular_wf N) end|
  split; [reflexivity|split; [cbn; lia|split; [split; [repeat constructor; lia|vm_compute; reflexivity]|
  split; [reflexivity|repeat constructor; lia]]]]].

(** * C123 *)
Theorem C123_spread : forall B size, lattice_ok B size ->
  (B = ChainLattice numR \/ B = SquareLattice numR \/ B = CubicLattice numR) /\ Forall (fun s => Z.odd s = true) size \/
  B = TriangularLattice numR ->
  exists L, Lattice numR PI B size true = Ok L /\ forall a b, valid_site size a -> valid_site size b ->
  exists es : nat -> list Z, (forall n, ends L (b_gamma B) a n = Ok (es n)) /\
  Un_cv (fun n => INR (reaching (es n) b) / IZR (b_gamma B) ^ n)%R (1 / IZR (prodZ size))%R.
Proof.
  intros B size H HB.
  assert (G : gap B size).
  { destruct HB as [[[->|[->| ->]] O]| ->]; [now apply chain_gap|now apply square_gap|now apply cubic_gap|now apply triangular_gap]. }
  assert (Hg : 0 < b_gamma B) by (destruct HB as [[[->|[->| ->]] _]| ->]; reflexivity).
  exists (built numR PI B size true). split; [now apply lattice_built|]. intros a b Ha Hb.
  exists (fun n => map (dest B size a) (sequences (b_gamma B) n)). split; [intros n; now apply ends_spec|]. now apply walks_spread.
Qed.
Print Assumptions C123_spread.
Example C123_spread_ex :
  lattice_ok (CubicLattice numR) [3; 1; 5] /\ Forall (fun s => Z.odd s = true) [3; 1; 5] /\
  lattice_ok (TriangularLattice numR) [4; 6] /\ valid_site [4; 6] 0 /\ valid_site [4; 6] 10.
Proof.
  split; [standard_lattice|]. split; [repeat constructor|]. split; [standard_lattice|]. unfold valid_site. cbn. lia.
Qed.
(** Eight hops on a ring of three sites: 256 walks, as evenly as can be. *)
Example C123_spread_counts_ex :
  (L <- Lattice numF pi_d (ChainLattice numF) [3] true ;; es <- ends L 2 0 8 ;; Ok (map (reaching es) [0; 1; 2])) = Ok [86; 85; 85]%nat.
Proof. vm_compute. reflexivity. Qed.

(** On a ring of four sites walks never spread: half of the sites are out of reach after
    any number of hops. *)
Theorem C123_even_refuted : exists L (es : nat -> list Z), Lattice numR PI (ChainLattice numR) [4] true = Ok L /\
  (forall n, ends L 2 0 n = Ok (es n)) /\ (forall n, reaching (es (2 * n + 1)%nat) 0 = 0%nat) /\
  ~ exists l, (l <> 0)%R /\ Un_cv (fun n => INR (reaching (es n) 0) / 2 ^ n)%R l.
Proof.
  assert (H : lattice_ok (ChainLattice numR) [4]) by standard_lattice.
  exists (built numR PI (ChainLattice numR) [4] true), (fun n => map (dest (ChainLattice numR) [4] 0) (sequences 2 n)).
  split; [now apply lattice_built|]. split; [intros n; apply (ends_spec numR PI (ChainLattice numR) [4] H); unfold valid_site; cbn; lia|].
  assert (Z0 : forall n, reaching (map (dest (ChainLattice numR) [4] 0) (sequences 2 (2 * n + 1))) 0 = 0%nat).
  { intros n. apply count_occ_not_In. intros I. apply in_map_iff in I as (js & E & Hj). pose proof (sequences_spec 2 (2 * n + 1)) as F. rewrite Forall_forall in F.
    destruct (F js Hj) as [Lj D]. destruct (dest_spec (ChainLattice numR) [4] H 0 js) as [V C]; [unfold valid_site; cbn; lia|exact D|]. rewrite E in C.
    assert (O : exists z, overall (ChainLattice numR) js = [z] /\ Z.odd z = Z.odd (Z.of_nat (length js))).
    { clear - D. induction D as [|j js Hj F IH]; [exists 0; split; reflexivity|]. destruct IH as (z & Ez & Oz).
      cbn [overall fold_right]. fold (overall (ChainLattice numR) js). rewrite Ez. assert (j = 0 \/ j = 1) as [-> | ->] by lia.
      - exists (1 + z). split; [reflexivity|]. cbn [length]. rewrite Nat2Z.inj_succ, Z.odd_succ, Z.odd_add, Oz, <- Z.negb_odd. reflexivity.
      - exists (-1 + z). split; [reflexivity|]. cbn [length]. rewrite Nat2Z.inj_succ, Z.odd_succ, Z.odd_add, Oz, <- Z.negb_odd. reflexivity. }
    destruct O as (z & Ez & Oz). rewrite Ez, Lj in *. change (coords_of [4] 0) with [0] in C. rewrite hop_cons in C. injection C as C. clear - C Oz.
    replace (Z.of_nat (2 * n + 1)) with (2 * Z.of_nat n + 1) in Oz by lia. rewrite Z.odd_add, Z.odd_mul in Oz. cbn in Oz.
    apply Z.odd_spec in Oz as [q ->]. Z.to_euclidean_division_equations. lia. }
  split; [exact Z0|]. intros (l & Nl & C). destruct (C (Rabs l)) as [n0 Q]; [now apply Rabs_pos_lt|]. specialize (Q (2 * n0 + 1)%nat ltac:(lia)). rewrite Z0 in Q.
  unfold R_dist in Q. cbn [INR] in Q. unfold Rdiv in Q. rewrite Rmult_0_l, Rminus_0_l, Rabs_Ropp in Q. lra.
Qed.
Print Assumptions C123_even_refuted.
