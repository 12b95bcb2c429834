(** Property theorems C121 (averages over all walks of n hops: no drift, and squared
    distances that grow as n).  [route], [overall] and [short_steps] are those of S_Route,
    [sequences], [average] and [travelled] those of S_Diffuse. *)
From Coq Require Import ZArith Reals List Bool Lia Lra.
From Verif Require Import Base F64 Num S_Math S_Accum M_MathInt L_MathInt M_Grid M_Bravais M_Lattice S_Grid L_Grid S_Bravais S_Lattice S_LatticeN
  L_Bravais L_Lattice L_LatticeN L_Sum L_LatticeK L_Fourier S_Route L_Route S_Diffuse L_Diffuse P_Route.
Import ListNotations.
Open Scope Z_scope.

Ltac standard_lattice :=
  split; [lazymatch goal with
    | |- well_formed (ChainLattice ?N) => exact (chain_wf N) | |- well_formed (SquareLattice ?N) => exact (square_wf N)
    | |- well_formed (CubicLattice ?N) => exact (cubic_wf N) | |- well_formed (TriangularLattice ?N) => exact (triangular_wf N) end|
  split; [reflexivity|split; [cbn; lia|split; [split; [repeat constructor; lia|vm_compute; reflexivity]|
  split; [reflexivity|repeat constructor; lia]]]]].

(** Closed lattices of any kind with short steps. *)
Theorem C121_mean_square : forall B size, lattice_ok B size -> small_sizes size -> short_steps B size -> 0 < b_gamma B ->
  exists L ds, Lattice numR PI B size true = Ok L /\ omapl (fun j => GetRealSpace numR B (displacement B j)) (upto (b_gamma B)) = Ok ds /\
  forall a n, valid_site size a -> Z.of_nat n <= 2 ^ 32 ->
  exists ps, omapl (travelled numR B L size a) (sequences (b_gamma B) n) = Ok ps /\ INR (length ps) = (IZR (b_gamma B) ^ n)%R /\
  average (map (fun p => dot p p) ps) = (INR n * average (map (fun d => dot d d) ds))%R /\
  forall i, 0 <= i < b_dim B -> average (map (fun p => nth (Z.to_nat i) p 0%R) ps) = 0%R.
Proof.
  intros B size H S Sh Hg. destruct (C118_route R numR PI B size H S Sh) as (L & EL & Q). destruct (ok_dims _ _ H) as [Dm DS].
  exists L, (map (fun j => pv numR B (displacement B j)) (upto (b_gamma B))). split; [exact EL|]. split.
  { apply omapl_pure. intros j Hj. apply upto_In in Hj. pose proof (disp_length B size H j Hj). rewrite real_space_pure; [reflexivity|apply H|unfold vsize; lia]. }
  intros a n Ha Hn. exists (map (fun js => pv numR B (overall B js)) (sequences (b_gamma B) n)).
  pose proof (sequences_spec (b_gamma B) n) as F. rewrite Forall_forall in F. split.
  { apply omapl_pure. intros js Hjs. destruct (F js Hjs) as [Lj Fj]. destruct (Q a js Ha Fj ltac:(lia)) as (w & ca & cb & Ew & _ & _ & Ej & _).
    unfold travelled. rewrite Ew. cbn [bind]. rewrite Ej. cbn [bind]. pose proof (overall_length B size H js Fj).
    rewrite real_space_pure; [reflexivity|apply H|unfold vsize; lia]. }
  assert (G0 : IZR (b_gamma B) <> 0%R) by (apply IZR_neq; lia). assert (Gn : (IZR (b_gamma B) ^ n)%R <> 0%R) by (now apply pow_nonzero).
  split; [rewrite map_length; apply sequences_length; lia|]. split.
  - unfold average. rewrite !map_length, !map_map, sequences_length, upto_length, (INR_IZR_INZ (Z.to_nat (b_gamma B))), Z2Nat.id by lia.
    apply (Rmult_eq_reg_l (IZR (b_gamma B) * IZR (b_gamma B) ^ n)); [|now apply Rmult_integral_contrapositive_currified].
    pose proof (mean_square B size H n) as M. field_simplify; [|exact G0|exact Gn]. rewrite M. ring.
  - intros i Hi. unfold average. rewrite map_map.
    rewrite (sumR_ext _ (fun js => row numR B (overall B js) i)); [rewrite (mean_vector B size H); unfold Rdiv; ring|].
    intros js _. unfold pv. now apply nth_map_upto.
Qed.
Print Assumptions C121_mean_square.

(** The built-in lattices: hops have length one, so n hops lead sqrt n far. *)
Theorem C121_built_in : forall B size,
  B = ChainLattice numR \/ B = SquareLattice numR \/ B = CubicLattice numR \/ B = TriangularLattice numR ->
  lattice_ok B size -> small_sizes size -> Forall (fun s => 3 <= s) size ->
  exists L, Lattice numR PI B size true = Ok L /\
  forall a n, valid_site size a -> Z.of_nat n <= 2 ^ 32 ->
  exists ps, omapl (travelled numR B L size a) (sequences (b_gamma B) n) = Ok ps /\ average (map (fun p => dot p p) ps) = INR n.
Proof.
  intros B size HB H S F. assert (Sh : short_steps B size) by (apply (C118_standard R numR B size HB); [apply H|exact F]).
  assert (Hg : 0 < b_gamma B) by (destruct HB as [->|[->|[->| ->]]]; reflexivity).
  destruct (C121_mean_square B size H S Sh Hg) as (L & ds & EL & Ed & Q). exists L. split; [exact EL|].
  assert (D1 : average (map (fun d => dot d d) ds) = 1%R).
  { assert (E : ds = map (fun j => pv numR B (displacement B j)) (upto (b_gamma B))).
    { rewrite (omapl_pure _ (fun j => pv numR B (displacement B j))) in Ed; [now injection Ed|]. intros j Hj. apply upto_In in Hj. destruct (ok_dims _ _ H) as [Dm DS].
      pose proof (disp_length B size H j Hj). rewrite real_space_pure; [reflexivity|apply H|unfold vsize; lia]. }
    rewrite E, map_map. unfold average. rewrite map_length, upto_length.
    rewrite (sumR_ext _ (fun _ => 1%R)).
    - rewrite const_sum, upto_length. rewrite INR_IZR_INZ, Z2Nat.id by lia. field. apply IZR_neq. lia.
    - clear - HB. intros j Hj. apply upto_In in Hj. rewrite dot_rows.
      pose proof sqrt3_pos as S3. assert (S : (sqrt 3 * sqrt 3 = 3)%R) by (apply sqrt_sqrt; lra).
      rewrite (sumR_ext _ (fun i => sum_upto (b_dim B) (fun k => IZR (nth (Z.to_nat k) (displacement B j) 0%Z) * entry 0 (b_p B) (b_dim B) i k)%R * sum_upto (b_dim B) (fun k => IZR (nth (Z.to_nat k) (displacement B j) 0%Z) * entry 0 (b_p B) (b_dim B) i k)%R)%R)
        by (intros i _; now rewrite row_R).
      destruct HB as [->|[->|[->| ->]]]; cbn [b_gamma ChainLattice SquareLattice CubicLattice TriangularLattice] in Hj;
      assert (C : j = 0 \/ j = 1 \/ j = 2 \/ j = 3 \/ j = 4 \/ j = 5) by lia;
      destruct C as [-> | [-> | [-> | [-> | [-> | ->]]]]]; try lia;
      match goal with |- context [displacement ?B ?j] => let d := eval cbv in (displacement B j) in change (displacement B j) with d end;
      eval_sum; try lra.
      all: set (q := sqrt 3) in *; clearbody q; nra. }
  intros a n Ha Hn. destruct (Q a n Ha Hn) as (ps & Ep & _ & M & _). exists ps. split; [exact Ep|]. rewrite M, D1. ring.
Qed.
Print Assumptions C121_built_in.
Example C121_built_in_ex :
  lattice_ok (TriangularLattice numR) [3; 5] /\ small_sizes [3; 5] /\ Forall (fun s => 3 <= s) [3; 5] /\ valid_site [3; 5] 7 /\
  length (sequences 6 2) = 36%nat /\ nth 7 (sequences 6 2) [] = [1; 1].
Proof.
  split; [standard_lattice|]. split; [split; [repeat constructor; lia|reflexivity]|]. split; [repeat constructor; lia|].
  split; [unfold valid_site; cbn; lia|]. split; reflexivity.
Qed.

(** With an extent of two jumps forget the directions of hops: on a closed chain of two
    sites both hops from site 0 jump by +1, so that there is a drift. *)
Theorem C121_extent_two_refuted :
  (L <- Lattice numF pi_d (ChainLattice numF) [2] true ;;
   omapl (fun js => w <- route L 0 js ;; walk_jumps (l_grid L) 0 w [0]) (sequences 2 1)) = Ok [[1]; [1]].
Proof. vm_compute. reflexivity. Qed.
Print Assumptions C121_extent_two_refuted.
Example C121_mean_square_ex :
  lattice_ok (SquareLattice numR) [4; 3] /\ small_sizes [4; 3] /\ (short_steps (SquareLattice numR) [4; 3])%type.
Proof.
  split; [standard_lattice|]. split; [split; [repeat constructor; lia|reflexivity]|].
  apply (C118_standard R numR); [tauto|reflexivity|repeat constructor; lia].
Qed.
Example C121_mean_square_jumps_ex :
  (L <- Lattice numF pi_d (SquareLattice numF) [4; 3] true ;;
   omapl (fun js => w <- route L 5 js ;; walk_jumps (l_grid L) 5 w [0; 0]) (sequences 4 2)) =
  Ok [[2; 0]; [0; 0]; [1; 1]; [1; -1]; [0; 0]; [-2; 0]; [-1; 1]; [-1; -1]; [1; 1]; [-1; 1]; [0; 2]; [0; 0]; [1; -1]; [-1; -1]; [0; 0]; [0; -2]].
Proof. vm_compute. reflexivity. Qed.
