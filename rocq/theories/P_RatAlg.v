(** Property theorems C75 (algebra of RationalNum, object for object). *)
From Coq Require Import ZArith QArith List Permutation Lia.
From Verif Require Import Base S_Rational M_MathInt M_Rational S_RationalObj S_RatAlg L_Rational L_RatAlg.
Import ListNotations.
Open Scope Z_scope.

(** * C75  one object per number *)

(** Constructed objects are the same (same numerator and denominator) exactly when they are equal numbers. *)
Theorem C75_canonical : forall w n d n' d' r r', 2 <= w <= 64 ->
  in_w w n -> in_w w d -> d <> 0 -> in_w w n' -> in_w w d' -> d' <> 0 ->
  RationalNum w n d = Ok r -> RationalNum w n' d' = Ok r' ->
  (r = r' <-> (frac n d == frac n' d')%Q).
Proof.
  intros w n d n' d' r r' Hw Hn Hd Nd Hn' Hd' Nd' H H'.
  destruct (built_value w n d r Hw Hn Hd Nd H) as [B V]. destruct (built_value w n' d' r' Hw Hn' Hd' Nd' H') as [B' V'].
  rewrite <- V, <- V'. now apply (built_eq w).
Qed.
Print Assumptions C75_canonical.

(** The results of the four operations are such objects. *)
Theorem C75_results_built : forall w a b r, 2 <= w <= 64 -> wf w a -> wf w b ->
  (radd w a b = Ok r -> built w r) /\ (rsub w a b = Ok r -> built w r) /\ (rmul w a b = Ok r -> built w r) /\
  (num b <> 0 -> rdiv w a b = Ok r -> built w r).
Proof.
  intros w a b r Hw Ha Hb. split; [|split; [|split]].
  - intros H. now apply radd_built in H.
  - intros H. now apply rsub_built in H.
  - intros H. now apply rmul_built in H.
  - intros N H. now apply rdiv_built in H.
Qed.
Print Assumptions C75_results_built.

(** Zero over anything is the default object. *)
Theorem C75_zero : forall w d, 2 <= w <= 64 -> in_w' w d -> d <> 0 -> RationalNum w 0 d = Ok rat_default.
Proof. exact RationalNum_zero. Qed.
Print Assumptions C75_zero.

(** Sum and product do not depend on the order of the operands, undefined cases included. *)
Theorem C75_commutative : forall w a b, radd w a b = radd w b a /\ rmul w a b = rmul w b a.
Proof. intros. split; [apply radd_comm|apply rmul_comm]. Qed.
Print Assumptions C75_commutative.

(** Laws between expressions that are defined. *)
Theorem C75_associative : forall w a b c, 2 <= w <= 64 -> wf w a -> wf w b -> wf w c ->
  (forall x y, bind (radd w a b) (fun s => radd w s c) = Ok x ->
     bind (radd w b c) (fun s => radd w a s) = Ok y -> x = y) /\
  (forall x y, bind (rmul w a b) (fun s => rmul w s c) = Ok x ->
     bind (rmul w b c) (fun s => rmul w a s) = Ok y -> x = y).
Proof. intros. split; intros x y; [now apply radd_assoc|now apply rmul_assoc]. Qed.
Print Assumptions C75_associative.

Theorem C75_distributive : forall w a b c, 2 <= w <= 64 -> wf w a -> wf w b -> wf w c ->
  forall x y, bind (radd w b c) (fun s => rmul w a s) = Ok x ->
    bind (rmul w a b) (fun s => bind (rmul w a c) (fun t => radd w s t)) = Ok y -> x = y.
Proof. exact rmul_distr. Qed.
Print Assumptions C75_distributive.

Theorem C75_neutral_and_inverse : forall w a x, 2 <= w <= 64 -> built w a ->
  (radd w a rat_default = Ok x -> x = a) /\ (rmul w a (mkRat 1 1) = Ok x -> x = a) /\
  (rsub w a a = Ok x -> x = rat_default) /\ (num a <> 0 -> rdiv w a a = Ok x -> x = mkRat 1 1) /\
  (forall b, wf w b -> bind (radd w a b) (fun s => rsub w s b) = Ok x -> x = a).
Proof.
  intros w a x Hw B. pose proof (built_wf w a Hw B) as W. repeat split; intros.
  - now apply (radd_zero w a x Hw B).
  - now apply (rmul_one w a x Hw B).
  - now apply (rsub_self w a Hw W x).
  - now apply (rdiv_self w a x Hw W).
  - now apply (radd_rsub w a b Hw W H x B).
Qed.
Print Assumptions C75_neutral_and_inverse.

(** Sums and products of a container in any order, whenever both orders are defined. *)
Theorem C75_any_order : forall w l l' z x y, 2 <= w <= 64 -> Forall (wf w) l -> Permutation l l' -> built w z ->
  (ofold (radd w) l z = Ok x -> ofold (radd w) l' z = Ok y -> x = y) /\
  (ofold (rmul w) l z = Ok x -> ofold (rmul w) l' z = Ok y -> x = y).
Proof. intros. split; [now apply sum_any_order|now apply prod_any_order]. Qed.
Print Assumptions C75_any_order.

(** An intermediate overflow can make one order undefined and not the other. *)
Theorem C75_order_defined_refuted : exists l l' z x, Forall (wf 32) l /\ Permutation l l' /\ built 32 z /\
  ofold (radd 32) l z = Ok x /\ ofold (radd 32) l' z = UB.
Proof.
  exists [mkRat (- 2 ^ 30) 1; mkRat (2 ^ 30) 1; mkRat (2 ^ 30) 1], [mkRat (2 ^ 30) 1; mkRat (2 ^ 30) 1; mkRat (- 2 ^ 30) 1],
    rat_default, (mkRat (2 ^ 30) 1).
  split; [repeat constructor; discriminate|]. split.
  - apply (Permutation_app_comm [mkRat (- 2 ^ 30) 1] [mkRat (2 ^ 30) 1; mkRat (2 ^ 30) 1]).
  - split; [now apply built_default|]. split; vm_compute; reflexivity.
Qed.
Print Assumptions C75_order_defined_refuted.

Example C75_ex :
  RationalNum 64 (-6) 4 = Ok (mkRat 3 (-2)) /\ RationalNum 64 3 (-2) = Ok (mkRat 3 (-2)) /\
  RationalNum 64 (-9) 6 = Ok (mkRat 3 (-2)) /\ RationalNum 64 0 (-5) = Ok rat_default /\
  ofold (radd 64) [mkRat 1 2; mkRat 1 3; mkRat 1 6] rat_default = Ok (mkRat 1 1) /\
  ofold (radd 64) [mkRat 1 6; mkRat 1 3; mkRat 1 2] rat_default = Ok (mkRat 1 1) /\
  built 64 (mkRat 1 6) /\ Forall (wf 64) [mkRat 1 2; mkRat 1 3; mkRat 1 6].
Proof.
  do 6 (split; [vm_compute; reflexivity|]). split.
  - exists 1, 6. split; [reflexivity|]. split; [reflexivity|]. split; [discriminate|vm_compute; reflexivity].
  - repeat (constructor; [split; [reflexivity|split; [reflexivity|discriminate]]|]). constructor.
Qed.
