(** Property theorems C118 (walks along the directions of closed lattices, their ends and
    winding numbers).  [route], [overall], [short_steps] and [opposite] are those of S_Route. *)
From Coq Require Import ZArith List Bool Lia Permutation.
From Verif Require Import Base F64 Num S_Math S_Accum M_MathInt L_MathInt M_Grid M_Bravais M_Lattice S_Grid L_Grid S_Bravais S_Lattice S_LatticeN
  L_Bravais L_Lattice L_LatticeN S_Jump L_Jump S_Colour L_Colour S_Route L_Route.
Import ListNotations.
Open Scope Z_scope.

(** The built-in lattices have short steps if every extent is at least three. *)
Theorem C118_standard : forall (T : Type) (N : num T) (B : bravais T) size,
  B = ChainLattice N \/ B = SquareLattice N \/ B = CubicLattice N \/ B = TriangularLattice N ->
  vsize size = b_dim B -> (short_steps B size <-> Forall (fun s => 3 <= s) size).
Proof.
  intros T N B size HB E. unfold short_steps. destruct HB as [-> | [-> | [-> | ->]]]; cbn [b_dim b_gamma ChainLattice SquareLattice CubicLattice TriangularLattice] in *;
    destruct size as [|s1 [|s2 [|s3 [|s4 size]]]]; unfold vsize in E; cbn [length] in E; try lia; split.
  all: try (intros Q; assert (Q0 := Q 0 ltac:(lia)); cbn in Q0; inversion Q0; subst;
      try (assert (Q2 := Q 2 ltac:(lia)); cbn in Q2; inversion Q2 as [|? ? ? ? ? Q2']; subst; inversion Q2'; subst);
      try (assert (Q4 := Q 4 ltac:(lia)); cbn in Q4; inversion Q4 as [|? ? ? ? ? Q4']; subst; inversion Q4' as [|? ? ? ? ? Q4'']; subst; inversion Q4''; subst);
      repeat constructor; cbn in *; lia).
  all: intros Q j Hj; repeat match goal with X : Forall _ (_ :: _) |- _ => inversion X; clear X; subst end;
    assert (C : j = 0 \/ j = 1 \/ j = 2 \/ j = 3 \/ j = 4 \/ j = 5) by lia;
    destruct C as [-> | [-> | [-> | [-> | [-> | ->]]]]]; try lia; cbn; repeat constructor; cbn; lia.
Qed.
Print Assumptions C118_standard.
Example C118_standard_ex : overall (TriangularLattice numF) [0; 0; 2; 4; 5] = [2; 1].
Proof. reflexivity. Qed.

(** The jumps from site to site add up to the sum of the displacements, and the walk
    ends at the start moved by that sum. *)
Theorem C118_route : forall (T : Type) (N : num T) (pi : T) (B : bravais T) size, lattice_ok B size -> small_sizes size -> short_steps B size ->
  exists L, Lattice N pi B size true = Ok L /\ forall a js, valid_site size a -> directions B js -> Z.of_nat (length js) <= 2 ^ 32 ->
  exists w ca cb, route L a js = Ok w /\ length w = length js /\ Forall (valid_site size) w /\
  walk_jumps (l_grid L) a w (map (fun _ => 0) size) = Ok (overall B js) /\
  GetCoordinates (l_grid L) a = Ok ca /\ GetCoordinates (l_grid L) (last w a) = Ok cb /\ cb = moved_by size ca (overall B js).
Proof.
  intros T N pi B size H S Sh. exists (built N pi B size true). split; [now apply lattice_built|]. intros a js Ha D Hl.
  pose proof H as (_ & _ & _ & ok & _).
  destruct (route_spec N pi B size H S Sh js D a Ha) as (w & Ew & Fw & Lw & Cw & Jw).
  assert (Vl : valid_site size (last w a)).
  { clear - Fw Ha. revert a Ha. induction Fw as [|x w Hx F IH]; intros a Ha; [exact Ha|]. rewrite last_cons. now apply IH. }
  exists w, (coords_of size a), (coords_of size (last w a)). split; [exact Ew|]. split; [exact Lw|]. split; [exact Fw|].
  change (l_grid (built N pi B size true)) with (HyperCubicGrid size true).
  destruct (walk_any (HyperCubicGrid size true) a w eq_refl S Ha Fw ltac:(lia)) as (t & ca & cb & Et & _). cbn [gsize] in Et. change (gsize (HyperCubicGrid size true)) with size in Et.
  rewrite Et. rewrite (Jw _ t (map_length _ _) Et). pose proof (overall_length B size H js D) as Lo.
  assert (Z0 : shifted (map (fun _ => 0) size) (overall B js) = overall B js).
  { clear - Lo. rewrite zip_add_comm. replace (map (fun _ => 0) size) with (repeat 0 (length size)).
    - now apply shifted_zeros.
    - clear. induction size; [reflexivity|]. cbn [length repeat map]. now f_equal. }
  split; [now rewrite Z0|]. split; [now apply grid_coords|]. split; [now apply grid_coords|]. rewrite Cw.
  destruct (coords_of_spec size a ok Ha) as (_ & G & _). clear - G Lo. revert Lo. generalize (overall B js).
  induction G as [|s x size c Hx G IH]; intros [|y v] Lo; try discriminate Lo; [reflexivity|].
  change (moved_by (s :: size) (x :: c) (y :: v)) with ((x + y) mod s :: moved_by size c v). change (reduced_mod (s :: size) (shifted (x :: c) (y :: v))) with ((x + y) mod s :: reduced_mod size (shifted c v)).
  f_equal. apply IH. now injection Lo.
Qed.
Print Assumptions C118_route.
(** Triangular 3 x 4: along (1,0), (1,-1), (1,-1) and (0,1), around in one direction. *)
Example C118_route_ex :
  (L <- Lattice numF pi_d (TriangularLattice numF) [3; 4] true ;; w <- route L 0 [0; 4; 4; 2] ;; t <- walk_jumps (l_grid L) 0 w [0; 0] ;;
   k <- GetWinding (l_grid L) t ;; Ok (w, t, k)) = Ok ([4; 11; 2; 3], [3; -1], [1; 0]).
Proof. vm_compute. reflexivity. Qed.

(** Only how often each direction is taken matters for the end and the sum of the jumps,
    and so for the winding number. *)
Theorem C118_order : forall (T : Type) (N : num T) (pi : T) (B : bravais T) size, lattice_ok B size -> small_sizes size -> short_steps B size ->
  exists L, Lattice N pi B size true = Ok L /\ forall a js ks, valid_site size a -> directions B js -> Z.of_nat (length js) <= 2 ^ 32 -> Permutation js ks ->
  exists v w t, route L a js = Ok v /\ route L a ks = Ok w /\ last v a = last w a /\
  walk_jumps (l_grid L) a v (map (fun _ => 0) size) = Ok t /\ walk_jumps (l_grid L) a w (map (fun _ => 0) size) = Ok t.
Proof.
  intros T N pi B size H S Sh. destruct (C118_route T N pi B size H S Sh) as (L & EL & R). exists L. split; [exact EL|]. intros a js ks Ha D Hl P.
  assert (D' : directions B ks) by (unfold directions in *; now rewrite <- P).
  destruct (R a js Ha D Hl) as (v & ca & cb & Ev & _ & Fv & Jv & Ca & Cv & Gv).
  destruct (R a ks Ha D' ltac:(rewrite <- (Permutation_length P); exact Hl)) as (w & ca' & cb' & Ew & _ & Fw & Jw & Ca' & Cw & Gw).
  exists v, w, (overall B js). split; [exact Ev|]. split; [exact Ew|]. rewrite (overall_perm B js ks P) at 2.
  split; [|split; [exact Jv|exact Jw]].
  assert (cb = cb') by (rewrite Gv, Gw, (overall_perm B js ks P); congruence). subst cb'.
  rewrite lattice_built in EL by exact H. injection EL as <-. change (l_grid (built N pi B size true)) with (HyperCubicGrid size true) in *.
  pose proof H as (_ & _ & _ & ok & _).
  assert (V : forall u, Forall (valid_site size) u -> valid_site size (last u a)).
  { clear - Ha. intros u F. revert a Ha. induction F as [|x u Hx F IH]; intros a Ha; [exact Ha|]. rewrite last_cons. now apply IH. }
  rewrite grid_coords in Cv, Cw by auto.
  destruct (coords_of_spec size _ ok (V v Fv)) as (_ & _ & <-). destruct (coords_of_spec size _ ok (V w Fw)) as (_ & _ & <-). congruence.
Qed.
Print Assumptions C118_order.
Example C118_order_ex :
  (L <- Lattice numF pi_d (SquareLattice numF) [3; 3] true ;; v <- route L 4 [0; 2; 0; 3; 0] ;; w <- route L 4 [3; 2; 0; 0; 0] ;; Ok (v, w)) =
  Ok ([7; 8; 2; 1; 4], [3; 4; 7; 1; 4]).
Proof. vm_compute. reflexivity. Qed.

(** Going somewhere and straight back on the way changes neither. *)
Theorem C118_detour : forall (T : Type) (N : num T) (pi : T) (B : bravais T) size, lattice_ok B size -> small_sizes size -> short_steps B size ->
  exists L, Lattice N pi B size true = Ok L /\ forall a js ks j, valid_site size a -> directions B js -> directions B ks -> 0 <= j < b_gamma B ->
  Z.of_nat (length js) + Z.of_nat (length ks) + 2 <= 2 ^ 32 ->
  exists v w t, route L a (js ++ ks) = Ok v /\ route L a (js ++ j :: opposite j :: ks) = Ok w /\ last v a = last w a /\
  walk_jumps (l_grid L) a v (map (fun _ => 0) size) = Ok t /\ walk_jumps (l_grid L) a w (map (fun _ => 0) size) = Ok t.
Proof.
  intros T N pi B size H S Sh. destruct (C118_route T N pi B size H S Sh) as (L & EL & R). exists L. split; [exact EL|]. intros a js ks j Ha D Dk Hj Hl.
  destruct (opposite_ok B size H j Hj) as [Ho Z0].
  assert (D1 : directions B (js ++ ks)) by (apply Forall_app; now split).
  assert (D2 : directions B (js ++ j :: opposite j :: ks)) by (apply Forall_app; split; [exact D|constructor; [exact Hj|constructor; [exact Ho|exact Dk]]]).
  assert (E : overall B (js ++ ks) = overall B (js ++ j :: opposite j :: ks)).
  { rewrite !(overall_app B size H) by (assumption || (constructor; [exact Hj|constructor; [exact Ho|exact Dk]])). f_equal. cbn [overall fold_right]. fold (overall B ks).
    rewrite zip_add_assoc, Z0, zip_add_comm. symmetry. apply shifted_zeros. now apply (overall_length B size H). }
  destruct (R a _ Ha D1 ltac:(rewrite app_length; lia)) as (v & ca & cb & Ev & _ & Fv & Jv & Ca & Cv & Gv).
  destruct (R a _ Ha D2 ltac:(rewrite app_length; cbn [length]; lia)) as (w & ca' & cb' & Ew & _ & Fw & Jw & Ca' & Cw & Gw).
  exists v, w, (overall B (js ++ ks)). split; [exact Ev|]. split; [exact Ew|]. rewrite E at 2.
  split; [|split; [exact Jv|exact Jw]].
  assert (cb = cb') by (rewrite Gv, Gw, E; congruence). subst cb'.
  rewrite lattice_built in EL by exact H. injection EL as <-. change (l_grid (built N pi B size true)) with (HyperCubicGrid size true) in *.
  pose proof H as (_ & _ & _ & ok & _).
  assert (V : forall u, Forall (valid_site size) u -> valid_site size (last u a)).
  { clear - Ha. intros u F. revert a Ha. induction F as [|x u Hx F IH]; intros a Ha; [exact Ha|]. rewrite last_cons. now apply IH. }
  rewrite grid_coords in Cv, Cw by auto.
  destruct (coords_of_spec size _ ok (V v Fv)) as (_ & _ & <-). destruct (coords_of_spec size _ ok (V w Fw)) as (_ & _ & <-). congruence.
Qed.
Print Assumptions C118_detour.
Example C118_detour_ex :
  (L <- Lattice numF pi_d (SquareLattice numF) [3; 3] true ;; w <- route L 0 [0; 3; 2; 0] ;; t <- walk_jumps (l_grid L) 0 w [0; 0] ;; Ok (w, t)) =
  Ok ([3; 5; 3; 6], [2; 0]).
Proof. vm_compute. reflexivity. Qed.

(** With an extent of two it can change the winding number. *)
Theorem C118_extent_two_refuted :
  (L <- Lattice numF pi_d (SquareLattice numF) [2; 3] true ;; w <- route L 0 [0; opposite 0] ;; t <- walk_jumps (l_grid L) 0 w [0; 0] ;;
   k <- GetWinding (l_grid L) t ;; Ok (w, k)) = Ok ([3; 0], [1; 0]).
Proof. vm_compute. reflexivity. Qed.
Print Assumptions C118_extent_two_refuted.

(** Closed walks on chain, square and cubic lattices: winding k times takes at least as
    many hops as the extents times k, and an even number more. *)
Theorem C118_hops : forall (T : Type) (N : num T) (pi : T) (B : bravais T) size,
  B = ChainLattice N \/ B = SquareLattice N \/ B = CubicLattice N -> lattice_ok B size -> small_sizes size -> Forall (fun s => 3 <= s) size ->
  exists L, Lattice N pi B size true = Ok L /\ forall a js w, valid_site size a -> directions B js -> Z.of_nat (length js) <= 2 ^ 32 ->
  route L a js = Ok w -> last w a = a ->
  exists t k, walk_jumps (l_grid L) a w (map (fun _ => 0) size) = Ok t /\ GetWinding (l_grid L) t = Ok k /\ length k = length size /\
  steps_of (zip_with Z.mul k size) <= Z.of_nat (length js) /\ Z.even (Z.of_nat (length js) - total (zip_with Z.mul k size)) = true.
Proof.
  intros T N pi B size HB H S F3.
  assert (A : axis_lattice B) by (destruct HB as [-> | [-> | ->]]; [apply chain_axis|apply square_axis|apply cubic_axis]).
  assert (Sh : short_steps B size) by (apply (C118_standard T N B size); [tauto|apply H|exact F3]).
  destruct (C118_route T N pi B size H S Sh) as (L & EL & R). exists L. split; [exact EL|]. intros a js w Ha D Hl Ew Hc.
  destruct (R a js Ha D Hl) as (w' & ca & cb & Ew' & Lw & Fw & Jw & _). rewrite Ew in Ew'. injection Ew' as <-.
  rewrite lattice_built in EL by exact H. injection EL as <-. change (l_grid (built N pi B size true)) with (HyperCubicGrid size true) in *.
  destruct (closed_walk_winding (HyperCubicGrid size true) a w eq_refl S Ha Fw Hc ltac:(lia)) as (k & t & Et & Fk & Wk).
  change (gsize (HyperCubicGrid size true)) with size in *. rewrite Jw in Et. injection Et as <-. exists (overall B js), k. split; [exact Jw|]. split; [exact Wk|].
  assert (E : length k = length size /\ zip_with Z.mul k size = overall B js).
  { clear - Fk. induction Fk as [|s x y size k t [E _] F IH]; [split; reflexivity|]. destruct IH as [I1 I2]. cbn [length zip_with]. split; [now rewrite I1|]. rewrite I2, E. reflexivity. }
  destruct E as [E1 E2]. split; [exact E1|]. rewrite E2.
  destruct (overall_l1 B size js H A D) as [Q1 (q & Q2)]. split; [exact Q1|]. rewrite Q2. apply Z.even_spec. exists (- q). lia.
Qed.
Print Assumptions C118_hops.
(** Around the chain of five sites and one detour: seven hops. *)
Example C118_hops_ex :
  (L <- Lattice numF pi_d (ChainLattice numF) [5] true ;; w <- route L 2 [0; 0; 0; 1; 0; 0; 0] ;; t <- walk_jumps (l_grid L) 2 w [0] ;;
   k <- GetWinding (l_grid L) t ;; Ok (w, k)) = Ok ([3; 4; 0; 4; 0; 1; 2], [1]).
Proof. vm_compute. reflexivity. Qed.
