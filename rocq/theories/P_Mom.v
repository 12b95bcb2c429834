(** Properties of momenta computed in doubles.  [uro] is 2^-53, [RR x] the real
    value of the double x, [allowed size c] the exact momentum
    2 pi (c_n - size_n / 2) / size_n in every direction n. *)
From Coq Require Import ZArith Reals List Bool Lia Lra.
From Flocq Require Import IEEE754.BinarySingleNaN.
From Verif Require Import Base F64 Num S_Math M_MathF M_Grid M_Bravais M_Lattice S_Grid S_Bravais S_Lattice
  L_MathF L_Bravais L_Mom P_Lattice.
Import ListNotations.
Open Scope Z_scope.

(** * C90 *)
Lemma hypercubic_unit B : B = ChainLattice numF \/ B = SquareLattice numF \/ B = CubicLattice numF -> unit_lattice f0 f1 B.
Proof. intros [->|[->| ->]]; [apply (chain_unit numF)|apply (square_unit numF)|apply (cubic_unit numF)]. Qed.

Theorem C90_momenta : forall B size,
  B = ChainLattice numF \/ B = SquareLattice numF \/ B = CubicLattice numF -> lattice_ok B size -> Forall (fun s => s <= 2 ^ 53) size ->
  exists L, Lattice numF pi_d B size true = Ok L /\ forall a c, valid_site size a -> GetCoordinates (l_grid L) a = Ok c ->
  exists k, GetMomentum L a = Ok k /\ Forall2 (fun x y => fin x /\ (Rabs (RR x - y) <= 3 * uro * Rabs y)%R) k (allowed size c).
Proof. intros B size HB. apply unit_momenta_double, hypercubic_unit, HB. Qed.
Print Assumptions C90_momenta.
Example C90_momenta_ex : lattice_ok (SquareLattice numF) [4; 6] /\ Forall (fun s => s <= 2 ^ 53) [4; 6] /\ valid_site [4; 6] 23 /\
  match L <- Lattice numF pi_d (SquareLattice numF) [4; 6] true ;; GetMomentum L 15 with Ok [x; y] => feq x f0 && feq y f0 | _ => false end = true.
Proof. split; [standard_lattice|]. split; [repeat constructor; lia|]. split; [unfold valid_site; cbn; lia|]. vm_compute. reflexivity. Qed.

Theorem C90_order : forall B size,
  B = ChainLattice numF \/ B = SquareLattice numF \/ B = CubicLattice numF -> lattice_ok B size -> Forall (fun s => s <= 2 ^ 51) size ->
  exists L, Lattice numF pi_d B size true = Ok L /\ forall a b ca cb, valid_site size a -> valid_site size b ->
  GetCoordinates (l_grid L) a = Ok ca -> GetCoordinates (l_grid L) b = Ok cb ->
  exists ka kb, GetMomentum L a = Ok ka /\ GetMomentum L b = Ok kb /\
  forall n, (n < List.length size)%nat -> flt (nth n ka f0) (nth n kb f0) = (nth n ca 0 <? nth n cb 0).
Proof. intros B size HB. apply momenta_order_double, hypercubic_unit, HB. Qed.
Print Assumptions C90_order.
Example C90_order_ex : lattice_ok (ChainLattice numF) [5] /\ Forall (fun s => s <= 2 ^ 51) [5] /\ valid_site [5] 1 /\ valid_site [5] 4 /\
  match L <- Lattice numF pi_d (ChainLattice numF) [5] true ;; a <- GetMomentum L 1 ;; b <- GetMomentum L 4 ;; Ok (a, b) with
  | Ok ([x], [y]) => flt x y && flt x f0 && flt f0 y | _ => false end = true.
Proof. split; [standard_lattice|]. split; [repeat constructor; lia|]. split; [unfold valid_site; cbn; lia|]. split; [unfold valid_site; cbn; lia|]. vm_compute. reflexivity. Qed.

Theorem C90_distinct : forall B size,
  B = ChainLattice numF \/ B = SquareLattice numF \/ B = CubicLattice numF -> lattice_ok B size -> Forall (fun s => s <= 2 ^ 51) size ->
  exists L, Lattice numF pi_d B size true = Ok L /\ forall a b, valid_site size a -> valid_site size b -> a <> b ->
  exists ka kb n, GetMomentum L a = Ok ka /\ GetMomentum L b = Ok kb /\ (n < List.length size)%nat /\ feq (nth n ka f0) (nth n kb f0) = false.
Proof. intros B size HB. apply momenta_distinct_double, hypercubic_unit, HB. Qed.
Print Assumptions C90_distinct.
Example C90_distinct_ex : lattice_ok (CubicLattice numF) [2; 3; 2] /\ Forall (fun s => s <= 2 ^ 51) [2; 3; 2] /\ valid_site [2; 3; 2] 0 /\ valid_site [2; 3; 2] 11 /\ 0 <> 11.
Proof. split; [standard_lattice|]. split; [repeat constructor; lia|]. split; [unfold valid_site; cbn; lia|]. split; [unfold valid_site; cbn; lia|]. lia. Qed.
