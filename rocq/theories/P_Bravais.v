(** Properties of Bravais lattices. *)
From Coq Require Import ZArith Reals List Bool Lia Lra.
From Verif Require Import Base F64 Num S_Accum M_Bravais S_Bravais L_Bravais.
Import ListNotations.
Open Scope Z_scope.

(** * C29 *)
Theorem C29_neighbors_opposite : forall (T : Type) (B : bravais T) p k,
  well_formed B -> vsize p = b_dim B -> 0 <= k < b_gamma B / 2 ->
  Forall in_long p -> Forall in_long (direction B k) -> Forall in_long (map Z.opp (direction B k)) ->
  Forall in_long (shifted p (direction B k)) -> Forall in_long (shifted_back p (direction B k)) ->
  GetNeighbor B p (2 * k) = Ok (shifted p (direction B k)) /\
  GetNeighbor B p (2 * k + 1) = Ok (shifted_back p (direction B k)) /\
  GetNeighbor B (shifted p (direction B k)) (2 * k + 1) = Ok p /\
  GetNeighbor B (shifted_back p (direction B k)) (2 * k) = Ok p.
Proof. intros T B p k. exact (neighbors_opposite B p k). Qed.
Print Assumptions C29_neighbors_opposite.
Example C29_neighbors_opposite_ex :
  direction (TriangularLattice numF) 2 = [1; -1] /\
  GetNeighbor (TriangularLattice numF) [4; 7] 4 = Ok [5; 6] /\ GetNeighbor (TriangularLattice numF) [5; 6] 5 = Ok [4; 7].
Proof. repeat split; vm_compute; reflexivity. Qed.

Theorem C29_past_the_last_direction : forall (T : Type) (B : bravais T) p idx,
  well_formed B -> vsize p = b_dim B -> 2 * (b_gamma B / 2) <= idx -> idx / 2 * b_dim B < 2 ^ 64 ->
  GetNeighbor B p idx = UB.
Proof. intros T B p idx. exact (neighbor_oob B p idx). Qed.
Print Assumptions C29_past_the_last_direction.
(** An odd coordination number passes the constructor's checks, but its last
    direction does not exist. *)
Example C29_past_the_last_direction_ex :
  let B := mkBravais 1 3 [f1] [f1] [1] in well_formed B /\ GetNeighbor B [5] 2 = UB.
Proof. split; [unfold well_formed, vsize; cbn; lia|vm_compute; reflexivity]. Qed.

(** * C30 *)
Theorem C30_symmetric : forall B a b,
  well_formed B -> vsize a = b_dim B -> vsize b = b_dim B ->
  Forall in_long (zip_with Z.sub b a) -> Forall in_long (zip_with Z.sub a b) ->
  (exists u v, BGetVector numF B a b = Ok u /\ BGetVector numF B b a = Ok v /\ Forall2 negated u v) /\
  (exists x, BGetDistance numF B a b = Ok x /\ BGetDistance numF B b a = Ok x).
Proof. exact distance_sym. Qed.
Print Assumptions C30_symmetric.
Example C30_symmetric_ex :
  (x <- BGetDistance numF (TriangularLattice numF) [1; 2] [4; 4] ;; y <- BGetDistance numF (TriangularLattice numF) [4; 4] [1; 2] ;;
   Ok (feq x y && flt f1 x)) = Ok true.
Proof. vm_compute. reflexivity. Qed.

Theorem C30_translation_invariant : forall B a b t,
  well_formed B -> vsize a = b_dim B -> vsize b = b_dim B -> vsize t = b_dim B -> Forall in_long (zip_with Z.sub b a) ->
  BGetVector numF B (shifted a t) (shifted b t) = BGetVector numF B a b /\
  BGetDistance numF B (shifted a t) (shifted b t) = BGetDistance numF B a b.
Proof. intros B a b t. exact (distance_shift numF B a b t). Qed.
Print Assumptions C30_translation_invariant.
Example C30_translation_invariant_ex : shifted [1; 2] [10; 20] = [11; 22] /\ Forall in_long (zip_with Z.sub [4; 4] [1; 2]).
Proof. split; [reflexivity|]. repeat constructor; unfold in_long; lia. Qed.

Theorem C30_distance_and_vector : forall B a b,
  well_formed B -> vsize a = b_dim B -> vsize b = b_dim B -> Forall in_long (zip_with Z.sub b a) ->
  exists d v, BGetDistance numF B a b = Ok d /\ BGetVector numF B a b = Ok v /\ vsize v = b_dim B /\
  GetDistanceVector numF B a b = Ok (d, v).
Proof.
  intros B a b W Ha Hb D. destruct (distance_pure numF B a b W Ha Hb D) as (V & L & P).
  do 2 eexists. repeat split; eauto. apply vsize_map_upto. destruct W; lia.
Qed.
Print Assumptions C30_distance_and_vector.
Example C30_distance_and_vector_ex : well_formed (CubicLattice numF) /\ Forall in_long (zip_with Z.sub [0; 3; 4] [1; 1; 1]).
Proof. split; [apply cubic_wf|]. repeat constructor; unfold in_long; lia. Qed.

Theorem C30_distance_to_itself : forall B a,
  well_formed B -> vsize a = b_dim B -> Forall fin (b_p B) -> BGetDistance numF B a a = Ok f0.
Proof. exact distance_self. Qed.
Print Assumptions C30_distance_to_itself.
Example C30_distance_to_itself_ex : Forall fin (b_p (TriangularLattice numF)).
Proof. repeat constructor; vm_compute; reflexivity. Qed.

(** * C31 *)
Theorem C31_embeds_integers : forall B c,
  B = ChainLattice numF \/ B = SquareLattice numF \/ B = CubicLattice numF ->
  vsize c = b_dim B -> Forall (fun z => Z.abs z <= 2 ^ 53) c ->
  exists x, GetRealSpace numF B c = Ok x /\ Forall2 (fun d z => fin d /\ RR d = IZR z) x c.
Proof.
  intros B c HB Hc F. exists (map of_Z c). split.
  - apply unit_real_space; auto. destruct HB as [->|[->| ->]]; [apply (chain_unit numF)|apply (square_unit numF)|apply (cubic_unit numF)].
  - clear Hc. induction F as [|z c Hz F IH]; [constructor|]. cbn [map]. constructor; [|exact IH]. now destruct (of_Z_exact z Hz).
Qed.
Print Assumptions C31_embeds_integers.
Example C31_embeds_integers_ex :
  (x <- GetRealSpace numF (CubicLattice numF) [-7; 0; 2 ^ 53] ;; Ok (map (fun p => feq (fst p) (snd p)) (combine x [of_Z (-7); f0; of_Z (2 ^ 53)]))) =
  Ok [true; true; true].
Proof. vm_compute. reflexivity. Qed.

Theorem C31_distance_rounded : forall B a b,
  B = ChainLattice numF \/ B = SquareLattice numF \/ B = CubicLattice numF ->
  vsize a = b_dim B -> vsize b = b_dim B -> sum_squares (zip_with Z.sub b a) <= 2 ^ 53 ->
  exists x, BGetDistance numF B a b = Ok x /\ fin x /\ RR x = rnd (sqrt (IZR (sum_squares (zip_with Z.sub b a)))).
Proof.
  intros B a b HB. apply unit_distance.
  destruct HB as [->|[->| ->]]; [apply (chain_unit numF)|apply (square_unit numF)|apply (cubic_unit numF)].
Qed.
Print Assumptions C31_distance_rounded.
Example C31_distance_rounded_ex :
  sum_squares (zip_with Z.sub [5; 1] [1; 4]) = 25 /\
  (x <- BGetDistance numF (SquareLattice numF) [1; 4] [5; 1] ;; Ok (feq x (of_Z 5))) = Ok true.
Proof. split; vm_compute; reflexivity. Qed.

(** * C32 *)
Theorem C32_dual : forall B k c,
  well_formed B -> inverse_matrices B -> vsize k = b_dim B -> vsize c = b_dim B ->
  Forall (fun x => - 2 ^ 62 <= x < 2 ^ 62) k ->
  exists r x, GetReciprocalSpace numR PI B k = Ok r /\ GetRealSpace numR B c = Ok x /\
  dot r x = (2 * PI * sum_upto (b_dim B) (fun j => IZR (nth (Z.to_nat j) k 0%Z) * IZR (nth (Z.to_nat j) c 0%Z)))%R.
Proof. exact duality. Qed.
Print Assumptions C32_dual.
Example C32_dual_ex : well_formed (TriangularLattice numR) /\ inverse_matrices (TriangularLattice numR).
Proof. split; [apply triangular_wf|apply triangular_inverse]. Qed.

Theorem C32_builtin_lattices :
  inverse_matrices (ChainLattice numR) /\ inverse_matrices (SquareLattice numR) /\
  inverse_matrices (CubicLattice numR) /\ inverse_matrices (TriangularLattice numR).
Proof. exact (conj chain_inverse (conj square_inverse (conj cubic_inverse triangular_inverse))). Qed.
Print Assumptions C32_builtin_lattices.
Example C32_builtin_lattices_ex : ~ inverse_matrices (mkBravais 1 2 [2%R] [2%R] [1]).
Proof. intros H. specialize (H 0 0 ltac:(cbn; lia) ltac:(cbn; lia)). cbv in H. lra. Qed.

(** * C33 *)
Theorem C33_inverse_hypercubic : forall B c,
  B = ChainLattice numR \/ B = SquareLattice numR \/ B = CubicLattice numR -> vsize c = b_dim B ->
  exists x, GetRealSpace numR B c = Ok x /\ GetInverseVector numR B x = Ok (map IZR c).
Proof.
  intros B c HB Hc. exists (map IZR c).
  assert (U : unit_lattice 0%R 1%R B) by (destruct HB as [->|[->| ->]]; [apply (chain_unit numR)|apply (square_unit numR)|apply (cubic_unit numR)]).
  split; [now apply unit_R_real|now apply unit_R_inverse].
Qed.
Print Assumptions C33_inverse_hypercubic.
Example C33_inverse_hypercubic_ex : vsize [3; -4] = b_dim (SquareLattice numR).
Proof. reflexivity. Qed.

Theorem C33_inverse_hypercubic_doubles : forall B c,
  B = ChainLattice numF \/ B = SquareLattice numF \/ B = CubicLattice numF ->
  vsize c = b_dim B -> Forall (fun z => Z.abs z <= 2 ^ 53) c ->
  exists x, GetRealSpace numF B c = Ok x /\ GetInverseVector numF B x = Ok (map of_Z c).
Proof.
  intros B c HB Hc F. exists (map of_Z c).
  assert (U : unit_lattice f0 f1 B) by (destruct HB as [->|[->| ->]]; [apply (chain_unit numF)|apply (square_unit numF)|apply (cubic_unit numF)]).
  split; [now apply unit_real_space|now apply unit_inverse].
Qed.
Print Assumptions C33_inverse_hypercubic_doubles.
Example C33_inverse_hypercubic_doubles_ex : Forall (fun z => Z.abs z <= 2 ^ 53) [3; -4].
Proof. repeat constructor; lia. Qed.

(** What the code computes for every lattice: component i times row sum i. *)
Theorem C33_inverse_is_a_row_scaling : forall B x,
  well_formed B -> vsize x = b_dim B ->
  GetInverseVector numR B x =
  Ok (map (fun i => (nth (Z.to_nat i) x 0 * sum_upto (b_dim B) (fun j => entry 0 (b_pi B) (b_dim B) j i))%R) (upto (b_dim B))).
Proof. exact inverse_exact. Qed.
Print Assumptions C33_inverse_is_a_row_scaling.
Example C33_inverse_is_a_row_scaling_ex : well_formed (TriangularLattice numR).
Proof. apply triangular_wf. Qed.

Theorem C33_triangular_refuted :
  exists c x y, vsize c = b_dim (TriangularLattice numR) /\ GetRealSpace numR (TriangularLattice numR) c = Ok x /\
  GetInverseVector numR (TriangularLattice numR) x = Ok y /\ y <> map IZR c.
Proof.
  exists [0; 1].
  do 2 eexists. split; [reflexivity|]. split; [apply real_space_pure; [apply triangular_wf|reflexivity]|].
  split; [apply inverse_exact; [apply triangular_wf|reflexivity]|].
  intros H. injection H as H _. pose proof sqrt3_pos as P. revert H. rewrite row_R. cbn [TriangularLattice b_dim b_p b_pi]. eval_sum.
  intros H. assert (S3 : (sqrt 3 * sqrt 3 = 3)%R) by (apply sqrt_sqrt; lra).
  assert (H' : (1 + -1 / sqrt 3 = 0)%R) by lra.
  assert (E : (sqrt 3 = 1)%R) by (apply (f_equal (fun z => (z * sqrt 3)%R)) in H'; field_simplify in H'; lra). rewrite E in S3. lra.
Qed.
Print Assumptions C33_triangular_refuted.
(** In doubles as well: (0,1) comes back with first component 0.211... *)
Example C33_triangular_refuted_ex :
  (x <- GetRealSpace numF (TriangularLattice numF) [0; 1] ;; y <- GetInverseVector numF (TriangularLattice numF) x ;;
   Ok (map (fun d => flt (fdiv f1 (of_Z 5)) d) y)) = Ok [true; true].
Proof. vm_compute. reflexivity. Qed.
