(** Lemmas about the neighbour graph of finite lattices. *)
From Coq Require Import ZArith Reals List Bool Lia Lra.
From Flocq Require Import Core.
From Verif Require Import Base F64 Num S_Math S_Accum M_MathInt M_Pairs M_Grid M_Bravais M_Lattice S_Grid S_Bravais S_Lattice S_LatticeN
  L_MathInt L_Grid L_MathF L_Bravais L_Lattice L_LatticeD.
Import ListNotations.
Open Scope Z_scope.

(** ** Rings *)

Lemma ring_range s d : 0 < s -> 0 <= ring s d /\ 2 * ring s d <= s.
Proof. intros Hs. unfold ring. pose proof (Z.mod_pos_bound d s Hs). lia. Qed.

Lemma ring_mod s d e : 0 < s -> (s | d - e) -> ring s d = ring s e.
Proof. intros Hs H. unfold ring. now rewrite (proj2 (mod_eq_divide s d e Hs) H). Qed.

Lemma ring_zero s d : 0 < s -> (ring s d = 0 <-> (s | d)).
Proof.
  intros Hs. unfold ring. pose proof (Z.mod_pos_bound d s Hs). rewrite <- Z.mod_divide by lia. lia.
Qed.

(** One step changes the distance by at most one. *)
Lemma ring_step s d e : 0 < s -> ring s d <= ring s (d - e) + Z.abs e.
Proof.
  intros Hs. unfold ring. pose proof (Z.mod_pos_bound d s Hs) as Md. pose proof (Z.mod_pos_bound (d - e) s Hs) as Me.
  pose proof (Z.div_mod d s ltac:(lia)) as D. pose proof (Z.div_mod (d - e) s ltac:(lia)) as E.
  set (m := d mod s) in *. set (q := d / s) in *. set (m' := (d - e) mod s) in *. set (q' := (d - e) / s) in *. clearbody m q m' q'.
  assert (X : e = m - m' + (q - q') * s) by nia. clear D E. subst e. set (t := q - q') in *. clearbody t.
  assert (t = 0 \/ t = 1 \/ t = -1 \/ 2 <= t \/ t <= -2) as [->|[->|[->|[Ht|Ht]]]] by lia; try lia; nia.
Qed.

(** From a point at distance r > 0 one of the two steps leads closer. *)
Lemma ring_closer s d : 0 < s -> 0 < ring s d -> exists e, (e = 1 \/ e = -1) /\ ring s (d - e) = ring s d - 1.
Proof.
  intros Hs Hr. unfold ring in *. pose proof (Z.mod_pos_bound d s Hs) as Md.
  destruct (Z_le_gt_dec (2 * (d mod s)) s) as [H|H].
  - exists 1. split; [now left|]. rewrite <- (Z.mod_unique (d - 1) s (d / s) (d mod s - 1)); [lia|lia|].
    pose proof (Z.div_mod d s ltac:(lia)). lia.
  - exists (-1). split; [now right|]. replace (d - -1) with (d + 1) by lia. destruct (Z.eq_dec (d mod s) (s - 1)) as [E|E].
    + rewrite <- (Z.mod_unique (d + 1) s (d / s + 1) 0); [lia|lia|]. pose proof (Z.div_mod d s ltac:(lia)). lia.
    + rewrite <- (Z.mod_unique (d + 1) s (d / s) (d mod s + 1)); [lia|lia|]. pose proof (Z.div_mod d s ltac:(lia)). lia.
Qed.

(** ** Steps of length one *)

Definition l1 (d : list Z) : Z := fold_right (fun x r => Z.abs x + r) 0 d.
Lemma l1_nonneg d : 0 <= l1 d.
Proof. induction d; unfold l1 in *; cbn [fold_right]; lia. Qed.
Lemma l1_zero d : l1 d = 0 -> Forall (eq 0) d.
Proof.
  induction d as [|x d IH]; intros H; constructor; unfold l1 in *; cbn [fold_right] in H; pose proof (l1_nonneg d) as P; unfold l1 in P; [lia|].
  apply IH. lia.
Qed.
Lemma l1_cons x d : l1 (x :: d) = Z.abs x + l1 d. Proof. reflexivity. Qed.
Lemma l1_repeat0 n : l1 (repeat 0 n) = 0.
Proof. induction n; [reflexivity|]. cbn [repeat]. rewrite l1_cons, IHn. reflexivity. Qed.

(** The point reached from a by the displacement d on a torus. *)
Definition hop (size a d : list Z) : list Z := reduced_mod size (shifted a d).

Lemma hop_cons s size x a y d : hop (s :: size) (x :: a) (y :: d) = (x + y) mod s :: hop size a d.
Proof. reflexivity. Qed.

Lemma hop_on_grid size a d : Forall (fun s => 0 < s) size -> length a = length size -> length d = length size -> on_grid size (hop size a d).
Proof.
  intros F. revert a d. induction F as [|s size Hs F IH]; intros [|x a] [|y d] Ha Hd; try discriminate Ha; try discriminate Hd; [constructor|].
  rewrite hop_cons. constructor; [apply Z.mod_pos_bound; lia|]. apply IH; [now injection Ha|now injection Hd].
Qed.

Lemma hop_zero size a : on_grid size a -> hop size a (repeat 0 (length size)) = a.
Proof.
  induction 1 as [|s x size a Hx G IH]; [reflexivity|]. cbn [length repeat]. rewrite hop_cons, IH, Z.add_0_r, Z.mod_small by exact Hx. reflexivity.
Qed.

Lemma ring_shift s x y e : 0 < s -> ring s (y - (x + e) mod s) = ring s (y - x - e).
Proof.
  intros Hs. apply ring_mod; [exact Hs|]. exists ((x + e) / s). pose proof (Z.div_mod (x + e) s ltac:(lia)). lia.
Qed.

Lemma ring_hops_nonneg size : Forall (fun s => 0 < s) size -> forall a b, 0 <= ring_hops size a b.
Proof.
  induction 1 as [|s size Hs F IH]; intros [|x a] [|y b]; cbn [ring_hops]; try lia. specialize (IH a b). pose proof (ring_range s (y - x) Hs). lia.
Qed.

Lemma ring_hops_zero size : forall a b, on_grid size a -> on_grid size b -> ring_hops size a b = 0 -> a = b.
Proof.
  intros a b Ga. revert b. induction Ga as [|s x size a Hx G IH]; intros b Gb; inversion Gb as [|? y ? b' Hy Gb']; subst; [reflexivity|].
  cbn [ring_hops]. intros E. assert (P : 0 <= ring_hops size a b').
  { apply ring_hops_nonneg. clear - G. induction G; constructor; auto; lia. }
  pose proof (ring_range s (y - x) ltac:(lia)) as R. f_equal; [|apply IH; [assumption|lia]].
  assert (Z0 : ring s (y - x) = 0) by lia. apply ring_zero in Z0; [|lia]. destruct Z0 as [k Hk]. assert (k = 0) by nia. lia.
Qed.

Lemma ring_hops_refl size : forall a, on_grid size a -> ring_hops size a a = 0.
Proof.
  induction 1 as [|s x size a Hx G IH]; [reflexivity|]. cbn [ring_hops]. rewrite IH, Z.sub_diag.
  rewrite (proj2 (ring_zero s 0 ltac:(lia)) (Z.divide_0_r s)). reflexivity.
Qed.

Lemma ring_hops_step size : Forall (fun s => 0 < s) size -> forall a b d, length a = length size -> length b = length size -> length d = length size ->
  ring_hops size a b <= ring_hops size (hop size a d) b + l1 d.
Proof.
  induction 1 as [|s size Hs F IH]; intros [|x a] [|y b] [|e d] Ha Hb Hd; try discriminate Ha; try discriminate Hb; try discriminate Hd; [cbn; lia|].
  rewrite hop_cons, l1_cons. cbn [ring_hops]. rewrite ring_shift by exact Hs.
  specialize (IH a b d ltac:(now injection Ha) ltac:(now injection Hb) ltac:(now injection Hd)). pose proof (ring_step s (y - x) e Hs). lia.
Qed.

Lemma ring_hops_closer size : forall a b, on_grid size a -> on_grid size b -> 0 < ring_hops size a b ->
  exists d, length d = length size /\ l1 d = 1 /\ ring_hops size (hop size a d) b = ring_hops size a b - 1.
Proof.
  intros a b Ga. revert b. induction Ga as [|s x size a Hx G IH]; intros b Gb; inversion Gb as [|? y ? b' Hy Gb']; subst; [cbn; lia|].
  cbn [ring_hops]. intros P. destruct (Z_lt_le_dec 0 (ring s (y - x))) as [R|R].
  - destruct (ring_closer s (y - x) ltac:(lia) R) as (e & He & E). exists (e :: repeat 0 (length size)).
    split; [cbn [length]; now rewrite repeat_length|]. rewrite l1_cons, l1_repeat0, hop_cons, hop_zero by exact G. cbn [ring_hops].
    rewrite ring_shift by lia. destruct He; subst e; lia.
  - pose proof (ring_range s (y - x) ltac:(lia)) as R0. destruct (IH b' Gb') as (d & Ld & L1 & E); [lia|].
    exists (0 :: d). split; [cbn [length]; congruence|]. rewrite l1_cons, hop_cons. cbn [ring_hops]. rewrite ring_shift, Z.sub_0_r by lia. lia.
Qed.

(** ** Open grids *)
Lemma axis_hops_nonneg : forall a b, 0 <= axis_hops a b.
Proof. induction a as [|x a IH]; intros [|y b]; cbn [axis_hops]; try lia. specialize (IH b). lia. Qed.
Lemma axis_hops_zero : forall a b, length a = length b -> axis_hops a b = 0 -> a = b.
Proof.
  induction a as [|x a IH]; intros [|y b] L H; try discriminate L; [reflexivity|]. cbn [axis_hops] in H. pose proof (axis_hops_nonneg a b).
  f_equal; [lia|]. apply IH; [now injection L|lia].
Qed.
Lemma axis_hops_refl a : axis_hops a a = 0.
Proof. induction a; cbn [axis_hops]; lia. Qed.
Lemma axis_hops_step : forall a b d, length a = length b -> length d = length b -> axis_hops a b <= axis_hops (shifted a d) b + l1 d.
Proof.
  induction a as [|x a IH]; intros [|y b] [|e d] Ha Hd; try discriminate Ha; try discriminate Hd; [cbn; lia|].
  rewrite l1_cons. cbn [shifted zip_with axis_hops]. specialize (IH b d ltac:(now injection Ha) ltac:(now injection Hd)). unfold shifted in IH. lia.
Qed.
Lemma shifted_zero : forall a, shifted a (repeat 0 (length a)) = a.
Proof. unfold shifted. induction a as [|x a IH]; [reflexivity|]. cbn [length repeat zip_with]. rewrite IH, Z.add_0_r. reflexivity. Qed.
Lemma axis_hops_closer size : forall a b, on_grid size a -> on_grid size b -> 0 < axis_hops a b ->
  exists d, length d = length size /\ l1 d = 1 /\ axis_hops (shifted a d) b = axis_hops a b - 1 /\ on_grid size (shifted a d).
Proof.
  intros a b Ga. revert b. induction Ga as [|s x size a Hx G IH]; intros b Gb; inversion Gb as [|? y ? b' Hy Gb']; subst; [cbn; lia|].
  cbn [axis_hops]. intros P. destruct (Z.eq_dec x y) as [E|N].
  - destruct (IH b' Gb') as (d & Ld & L1 & E' & Gd); [lia|]. exists (0 :: d). split; [cbn [length]; congruence|]. rewrite l1_cons.
    cbn [shifted zip_with axis_hops]. unfold shifted in *. split; [lia|]. split; [lia|]. constructor; [lia|exact Gd].
  - exists ((if x <? y then 1 else -1) :: repeat 0 (length a)). split; [cbn [length]; rewrite repeat_length; now rewrite (on_grid_length _ _ G)|].
    rewrite l1_cons, l1_repeat0. cbn [shifted zip_with axis_hops]. fold (shifted a (repeat 0 (length a))). rewrite shifted_zero.
    destruct (Z.ltb_spec x y); (split; [lia|split; [lia|constructor; [lia|exact G]]]).
Qed.

(** ** The displacements of the standard lattices *)
Definition steps {T} (B : bravais T) : list (list Z) := map (displacement B) (upto (b_gamma B)).
Definition axis_lattice {T} (B : bravais T) : Prop := forall d, In d (steps B) <-> length d = Z.to_nat (b_dim B) /\ l1 d = 1.

Section Standard.
Context {T : Type} (N : num T).

Lemma chain_steps : steps (ChainLattice N) = [[1]; [-1]]. Proof. reflexivity. Qed.
Lemma square_steps : steps (SquareLattice N) = [[1; 0]; [-1; 0]; [0; 1]; [0; -1]]. Proof. reflexivity. Qed.
Lemma cubic_steps : steps (CubicLattice N) = [[1; 0; 0]; [-1; 0; 0]; [0; 1; 0]; [0; -1; 0]; [0; 0; 1]; [0; 0; -1]]. Proof. reflexivity. Qed.
Lemma triangular_steps : steps (TriangularLattice N) = [[1; 0]; [-1; 0]; [0; 1]; [0; -1]; [1; -1]; [-1; 1]]. Proof. reflexivity. Qed.

Ltac pick := repeat lazymatch goal with
  | |- In ?a (?a :: _) => left; reflexivity | |- In _ (_ :: _) => right end.
Lemma abs1 x : Z.abs x = 1 -> x = 1 \/ x = -1. Proof. lia. Qed.
Lemma abs0 x : Z.abs x = 0 -> x = 0. Proof. lia. Qed.

Lemma chain_axis : axis_lattice (ChainLattice N).
Proof.
  intros d. rewrite chain_steps. change (Z.to_nat (b_dim (ChainLattice N))) with 1%nat. split.
  - intros H. repeat (destruct H as [<-|H]; [split; reflexivity|]). destruct H.
  - intros [L H]. destruct d as [|x [|]]; try discriminate L. unfold l1 in H. cbn [fold_right] in H.
    destruct (abs1 x ltac:(lia)) as [->| ->]; [pick|pick].
Qed.
Lemma square_axis : axis_lattice (SquareLattice N).
Proof.
  intros d. rewrite square_steps. change (Z.to_nat (b_dim (SquareLattice N))) with 2%nat. split.
  - intros H. repeat (destruct H as [<-|H]; [split; reflexivity|]). destruct H.
  - intros [L H]. destruct d as [|x [|y [|]]]; try discriminate L. unfold l1 in H. cbn [fold_right] in H.
    assert (Z.abs x = 1 /\ Z.abs y = 0 \/ Z.abs x = 0 /\ Z.abs y = 1) as [[Hx Hy]|[Hx Hy]] by lia.
    + destruct (abs1 x Hx) as [->| ->]; rewrite (abs0 y Hy); pick.
    + destruct (abs1 y Hy) as [->| ->]; rewrite (abs0 x Hx); pick.
Qed.
Lemma cubic_axis : axis_lattice (CubicLattice N).
Proof.
  intros d. rewrite cubic_steps. change (Z.to_nat (b_dim (CubicLattice N))) with 3%nat. split.
  - intros H. repeat (destruct H as [<-|H]; [split; reflexivity|]). destruct H.
  - intros [L H]. destruct d as [|x [|y [|z [|]]]]; try discriminate L. unfold l1 in H. cbn [fold_right] in H.
    assert ((Z.abs x = 1 /\ Z.abs y = 0 /\ Z.abs z = 0) \/ (Z.abs x = 0 /\ Z.abs y = 1 /\ Z.abs z = 0) \/ (Z.abs x = 0 /\ Z.abs y = 0 /\ Z.abs z = 1))
      as [(Hx & Hy & Hz)|[(Hx & Hy & Hz)|(Hx & Hy & Hz)]] by lia.
    + destruct (abs1 x Hx) as [->| ->]; rewrite (abs0 y Hy), (abs0 z Hz); pick.
    + destruct (abs1 y Hy) as [->| ->]; rewrite (abs0 x Hx), (abs0 z Hz); pick.
    + destruct (abs1 z Hz) as [->| ->]; rewrite (abs0 x Hx), (abs0 y Hy); pick.
Qed.
(** The triangular lattice has these and two more. *)
Lemma triangular_axis d : length d = Z.to_nat (b_dim (TriangularLattice N)) -> l1 d = 1 -> In d (steps (TriangularLattice N)).
Proof.
  intros L H. change (Z.to_nat (b_dim (TriangularLattice N))) with (Z.to_nat (b_dim (SquareLattice N))) in L.
  pose proof (proj2 (square_axis d) (conj L H)) as I. rewrite square_steps in I. rewrite triangular_steps.
  repeat (destruct I as [<-|I]; [pick|]). destruct I.
Qed.
End Standard.

(** ** Neighbour lists in terms of steps *)
Section Graph.
Context {T : Type} (N : num T) (pi : T) (B : bravais T) (size : list Z).
Hypothesis H : lattice_ok B size.

Lemma steps_length d : In d (steps B) -> length d = length size.
Proof.
  unfold steps. rewrite in_map_iff. intros (j & <- & Hj). apply upto_In in Hj. destruct (ok_dims _ _ H) as [_ D].
  destruct (displacement_bounds B size j H Hj) as [L _]. unfold vsize in L. lia.
Qed.

Lemma get_neighbors cl a : valid_site size a ->
  GetNeighbors (built N pi B size cl) a = Ok (nbrs B size cl (coords_of size a) (upto (b_gamma B))).
Proof. intros Ha. unfold GetNeighbors, built. cbn [l_nn]. now apply (vget_sites (fun i => nbrs B size cl (coords_of size i) (upto (b_gamma B)))). Qed.

Lemma nbrs_closed a b : valid_site size a ->
  (In b (nbrs B size true (coords_of size a) (upto (b_gamma B))) <-> exists d, In d (steps B) /\ b = row_major size (hop size (coords_of size a) d)).
Proof.
  intros Ha. unfold nbrs, steps. rewrite map_map. rewrite in_map_iff. split.
  - intros (j & <- & Hj). exists (displacement B j). split; [now apply in_map|reflexivity].
  - intros (d & Hd & ->). apply in_map_iff in Hd as (j & <- & Hj). exists j. split; [reflexivity|exact Hj].
Qed.

Lemma nbrs_open a b : valid_site size a ->
  (In b (nbrs B size false (coords_of size a) (upto (b_gamma B))) <->
   exists d, In d (steps B) /\ on_grid size (shifted (coords_of size a) d) /\ b = row_major size (shifted (coords_of size a) d)).
Proof.
  intros Ha. unfold nbrs, steps. rewrite in_map_iff. split.
  - intros (p & <- & Hp). apply filter_In in Hp as [Hp Hi]. apply in_map_iff in Hp as (j & <- & Hj). apply inside_spec in Hi.
    exists (displacement B j). split; [now apply in_map|]. split; [exact Hi|reflexivity].
  - intros (d & Hd & Gd & ->). apply in_map_iff in Hd as (j & <- & Hj). eexists. split; [reflexivity|]. apply filter_In.
    split; [|now apply inside_spec]. now apply in_map_iff; exists j.
Qed.

Let ok : sizes_ok size. Proof. apply H. Qed.
Let pos : Forall (fun s => 0 < s) size. Proof. apply sizes_pos. apply H. Qed.

(** A walk along axis steps as long as the distance. *)
Lemma walk_closed : (forall d, length d = Z.to_nat (b_dim B) -> l1 d = 1 -> In d (steps B)) ->
  forall n a b, valid_site size a -> valid_site size b -> ring_hops size (coords_of size a) (coords_of size b) = Z.of_nat n ->
  walk (built N pi B size true) n a b.
Proof.
  intros A. destruct (ok_dims _ _ H) as [_ D]. induction n as [|n IH]; intros a b Ha Hb E;
    destruct (coords_of_spec size a ok Ha) as (_ & Ga & Ra); destruct (coords_of_spec size b ok Hb) as (_ & Gb & Rb).
  - apply ring_hops_zero in E; [|assumption|assumption]. assert (a = b) by congruence. subst b. constructor.
  - destruct (ring_hops_closer size _ _ Ga Gb ltac:(lia)) as (d & Ld & L1 & Ed).
    assert (Gd : on_grid size (hop size (coords_of size a) d)) by (apply hop_on_grid; [exact pos|now apply on_grid_length|exact Ld]).
    eapply walk_hop; [now apply get_neighbors|apply nbrs_closed; [exact Ha|exists d; split; [apply A; [lia|exact L1]|reflexivity]]|].
    apply IH; [now apply row_major_valid|exact Hb|]. rewrite coords_of_row_major by assumption. lia.
Qed.

Lemma walk_valid cl n a b : valid_site size a -> walk (built N pi B size cl) n a b -> valid_site size b.
Proof.
  intros Ha W. induction W as [a|n a b c nn En Hb W IH]; [exact Ha|]. apply IH. rewrite get_neighbors in En by exact Ha. injection En as <-.
  destruct (coords_of_spec size a ok Ha) as (_ & Ga & _). destruct cl.
  - apply nbrs_closed in Hb as (d & Hd & ->); [|exact Ha]. apply row_major_valid, hop_on_grid; [exact pos|now apply on_grid_length|now apply steps_length].
  - apply nbrs_open in Hb as (d & Hd & Gd & ->); [|exact Ha]. now apply row_major_valid.
Qed.

Lemma walk_closed_least : (forall d, In d (steps B) -> l1 d = 1) ->
  forall n a b, valid_site size a -> walk (built N pi B size true) n a b ->
  ring_hops size (coords_of size a) (coords_of size b) <= Z.of_nat n.
Proof.
  intros A n a b Ha W. pose proof (walk_valid _ _ _ _ Ha W) as Vb. induction W as [a|n a b c nn En Hb W IH].
  - destruct (coords_of_spec size a ok Ha) as (_ & Ga & _). rewrite ring_hops_refl by exact Ga. lia.
  - rewrite get_neighbors in En by exact Ha. injection En as <-. apply nbrs_closed in Hb as (d & Hd & Eb); [|exact Ha].
    destruct (coords_of_spec size a ok Ha) as (_ & Ga & _). destruct (coords_of_spec size c ok Vb) as (_ & Gc & _).
    pose proof (steps_length d Hd) as Ld.
    assert (Gd : on_grid size (hop size (coords_of size a) d)) by (apply hop_on_grid; [exact pos|now apply on_grid_length|exact Ld]).
    assert (V : valid_site size b) by (subst b; now apply row_major_valid).
    specialize (IH V Vb). rewrite Eb, coords_of_row_major in IH by assumption.
    pose proof (ring_hops_step size pos (coords_of size a) (coords_of size c) d (on_grid_length _ _ Ga) (on_grid_length _ _ Gc) Ld) as S.
    rewrite (A d Hd) in S. lia.
Qed.

Lemma walk_open : (forall d, length d = Z.to_nat (b_dim B) -> l1 d = 1 -> In d (steps B)) ->
  forall n a b, valid_site size a -> valid_site size b -> axis_hops (coords_of size a) (coords_of size b) = Z.of_nat n ->
  walk (built N pi B size false) n a b.
Proof.
  intros A. destruct (ok_dims _ _ H) as [_ D]. induction n as [|n IH]; intros a b Ha Hb E;
    destruct (coords_of_spec size a ok Ha) as (_ & Ga & Ra); destruct (coords_of_spec size b ok Hb) as (_ & Gb & Rb).
  - apply axis_hops_zero in E; [|rewrite (on_grid_length _ _ Ga), (on_grid_length _ _ Gb); reflexivity]. assert (a = b) by congruence. subst b. constructor.
  - destruct (axis_hops_closer size _ _ Ga Gb ltac:(lia)) as (d & Ld & L1 & Ed & Gd).
    eapply walk_hop; [now apply get_neighbors|apply nbrs_open; [exact Ha|exists d; split; [apply A; [lia|exact L1]|split; [exact Gd|reflexivity]]]|].
    apply IH; [now apply row_major_valid|exact Hb|]. rewrite coords_of_row_major by assumption. lia.
Qed.

Lemma walk_open_least : (forall d, In d (steps B) -> l1 d = 1) ->
  forall n a b, valid_site size a -> walk (built N pi B size false) n a b ->
  axis_hops (coords_of size a) (coords_of size b) <= Z.of_nat n.
Proof.
  intros A n a b Ha W. pose proof (walk_valid _ _ _ _ Ha W) as Vb. induction W as [a|n a b c nn En Hb W IH].
  - rewrite axis_hops_refl. lia.
  - rewrite get_neighbors in En by exact Ha. injection En as <-. apply nbrs_open in Hb as (d & Hd & Gd & Eb); [|exact Ha].
    destruct (coords_of_spec size a ok Ha) as (_ & Ga & _). destruct (coords_of_spec size c ok Vb) as (_ & Gc & _).
    pose proof (steps_length d Hd) as Ld.
    assert (V : valid_site size b) by (subst b; now apply row_major_valid).
    specialize (IH V Vb). rewrite Eb, coords_of_row_major in IH by assumption.
    pose proof (axis_hops_step (coords_of size a) (coords_of size c) d) as S. rewrite (on_grid_length _ _ Ga), (on_grid_length _ _ Gc) in S.
    specialize (S eq_refl Ld). rewrite (A d Hd) in S. lia.
Qed.

(** ** Repeated neighbours *)
Lemma NoDup_map_inj {A C} (f : A -> C) l x y : NoDup (map f l) -> In x l -> In y l -> f x = f y -> x = y.
Proof.
  induction l as [|z l IH]; intros ND Hx Hy E; [destruct Hx|]. cbn [map] in ND. inversion ND as [|? ? Hn ND']; subst.
  destruct Hx as [->|Hx], Hy as [->|Hy]; auto.
  - elim Hn. rewrite E. now apply in_map.
  - elim Hn. rewrite <- E. now apply in_map.
Qed.
Lemma NoDup_map_on {A C} (f : A -> C) l : NoDup l -> (forall x y, In x l -> In y l -> f x = f y -> x = y) -> NoDup (map f l).
Proof.
  induction 1 as [|x l Hn ND IH]; intros I; cbn [map]; [constructor|]. constructor.
  - intros Hx. apply in_map_iff in Hx as (y & E & Hy). apply Hn. rewrite (I x y); auto; [now left|now right].
  - apply IH. intros a b Ha Hb. apply I; now right.
Qed.

Lemma row_major_inj a b : on_grid size a -> on_grid size b -> row_major size a = row_major size b -> a = b.
Proof. intros Ga Gb E. rewrite <- (coords_of_row_major size a ok Ga), <- (coords_of_row_major size b ok Gb). now rewrite E. Qed.

Lemma hop_eq sz : forall a d e, Forall (fun s => 3 <= s) sz -> length a = length sz -> length d = length sz -> length e = length sz ->
  Forall (fun x => -1 <= x <= 1) d -> Forall (fun x => -1 <= x <= 1) e -> hop sz a d = hop sz a e -> d = e.
Proof.
  induction sz as [|s sz IH]; intros [|x a] [|y d] [|z e] F La Ld Le Fd Fe E; try discriminate La; try discriminate Ld; try discriminate Le; [reflexivity|].
  rewrite !hop_cons in E. injection E as E1 E2. inversion F; subst. inversion Fd; subst. inversion Fe; subst. f_equal.
  - apply mod_eq_divide in E1; [|lia]. destruct E1 as [k Hk]. assert (k = 0) by nia. lia.
  - apply (IH a); auto.
Qed.

Lemma hop_self sz : forall a d, Forall (fun s => 2 <= s) sz -> on_grid sz a -> length d = length sz ->
  Forall (fun x => -1 <= x <= 1) d -> hop sz a d = a -> d = repeat 0 (length sz).
Proof.
  induction sz as [|s sz IH]; intros a [|y d] F G Ld Fd E; try discriminate Ld; [reflexivity|]. inversion G as [|? x ? a' Hx G']; subst.
  rewrite hop_cons in E. injection E as E1 E2. inversion F; subst. inversion Fd; subst. cbn [length repeat]. f_equal.
  - pose proof (Z.div_mod (x + y) s ltac:(lia)). rewrite E1 in *. assert ((x + y) / s = 0) by nia. nia.
  - apply (IH a'); auto.
Qed.

(** Steps with entries -1, 0, 1 that contain the axis steps. *)
Definition small_steps : Prop := NoDup (steps B) /\ (forall d, In d (steps B) -> Forall (fun x => -1 <= x <= 1) d /\ 1 <= l1 d) /\
  (forall d, length d = Z.to_nat (b_dim B) -> l1 d = 1 -> In d (steps B)).

Lemma nbrs_closed_map a : nbrs B size true (coords_of size a) (upto (b_gamma B)) =
  map (fun d => row_major size (hop size (coords_of size a) d)) (steps B).
Proof. unfold nbrs, steps. rewrite !map_map. reflexivity. Qed.
Lemma nbrs_open_map a : nbrs B size false (coords_of size a) (upto (b_gamma B)) =
  map (row_major size) (filter (inside size) (map (shifted (coords_of size a)) (steps B))).
Proof. unfold nbrs, steps. rewrite map_map. reflexivity. Qed.

(** A step of +-1 along the axis k. *)
Fixpoint axis (d k : nat) (e : Z) : list Z :=
  match d with O => [] | S d' => match k with O => e :: repeat 0 d' | S k' => 0 :: axis d' k' e end end.
Lemma axis_length d k e : length (axis d k e) = d.
Proof. revert k; induction d as [|d IH]; intros [|k]; cbn; auto. now rewrite repeat_length. Qed.
Lemma axis_l1 d k e : (k < d)%nat -> Z.abs e = 1 -> l1 (axis d k e) = 1.
Proof.
  revert k; induction d as [|d IH]; intros [|k] Hk He; try lia; cbn [axis]; rewrite l1_cons; [rewrite l1_repeat0; lia|]. rewrite IH by lia. reflexivity.
Qed.
Lemma axis_neq d k : (k < d)%nat -> axis d k 1 <> axis d k (-1).
Proof. revert k; induction d as [|d IH]; intros [|k] Hk E; try lia; cbn [axis] in E; injection E as E; [discriminate E|]. apply (IH k); [lia|exact E]. Qed.
Lemma axis_hop sz : forall a k, length a = length sz -> (k < length sz)%nat -> Forall (fun s => 0 < s) sz -> nth k sz 0 <= 2 ->
  hop sz a (axis (length sz) k 1) = hop sz a (axis (length sz) k (-1)).
Proof.
  induction sz as [|s sz IH]; intros [|x a] [|k] La Hk F S; cbn [length] in *; try lia; cbn [axis nth] in *; inversion F; subst; rewrite !hop_cons; f_equal.
  - apply mod_eq_divide; [lia|]. assert (s = 1 \/ s = 2) as [->| ->] by lia; [exists 2|exists 1]; lia.
  - apply IH; auto; lia.
Qed.
Lemma axis_hop_one sz : forall a k, on_grid sz a -> (k < length sz)%nat -> nth k sz 0 = 1 -> hop sz a (axis (length sz) k 1) = a.
Proof.
  induction sz as [|s sz IH]; intros a [|k] G Hk S; inversion G as [|? x ? a' Hx G']; subst; cbn [length] in *; try lia; cbn [axis nth] in *; rewrite !hop_cons; f_equal.
  - subst s. rewrite Z.mod_1_r. lia.
  - now apply hop_zero.
  - rewrite Z.add_0_r. now apply Z.mod_small.
  - apply IH; auto; lia.
Qed.

Lemma distinct_closed a : small_steps -> valid_site size a ->
  let nn := nbrs B size true (coords_of size a) (upto (b_gamma B)) in
  (NoDup nn <-> Forall (fun s => 3 <= s) size) /\ (In a nn <-> Exists (eq 1) size).
Proof.
  intros (ND & Sm & Ax) Ha nn. destruct (coords_of_spec size a ok Ha) as (_ & Ga & Ra). pose proof (on_grid_length _ _ Ga) as La.
  destruct (ok_dims _ _ H) as [_ D].
  assert (GH : forall d, length d = length size -> on_grid size (hop size (coords_of size a) d)) by (intros; now apply hop_on_grid).
  unfold nn. rewrite nbrs_closed_map. split; split.
  - intros ND'. apply Forall_forall. intros s Hs. destruct (Z_le_gt_dec 3 s) as [|G]; [assumption|exfalso].
    apply In_nth with (d := 0) in Hs as (k & Hk & Ek).
    apply (axis_neq (length size) k Hk). apply (NoDup_map_inj _ _ _ _ ND').
    + apply Ax; [rewrite axis_length; lia|now apply axis_l1].
    + apply Ax; [rewrite axis_length; lia|now apply axis_l1].
    + f_equal. apply axis_hop; auto. lia.
  - intros F. apply NoDup_map_on; [exact ND|]. intros d e Hd He E. apply row_major_inj in E; [|apply GH; now apply steps_length|apply GH; now apply steps_length].
    apply (hop_eq size (coords_of size a)); auto; try (now apply steps_length); now apply Sm.
  - intros I. apply in_map_iff in I as (d & E & Hd). apply Exists_exists.
    destruct (Forall_dec (fun s => 2 <= s) (fun s => Z_le_dec 2 s) size) as [F|NF].
    + exfalso. rewrite <- Ra in E at 2. apply row_major_inj in E; [|apply GH; now apply steps_length|exact Ga].
      apply hop_self in E; auto; [|now apply steps_length|now apply Sm]. destruct (Sm d Hd) as [_ L1]. rewrite E, l1_repeat0 in L1. lia.
    + apply neg_Forall_Exists_neg in NF; [|intros s; apply Z_le_dec]. apply Exists_exists in NF as (s & Hs & Ns). exists s. split; [exact Hs|].
      rewrite Forall_forall in pos. specialize (pos s Hs). lia.
  - intros E. apply Exists_exists in E as (s & Hs & <-). apply In_nth with (d := 0) in Hs as (k & Hk & Ek).
    apply in_map_iff. exists (axis (length size) k 1). split; [|apply Ax; [rewrite axis_length; lia|now apply axis_l1]].
    rewrite axis_hop_one; auto.
Qed.

Lemma shifted_inj : forall (a d e : list Z), length d = length a -> length e = length a -> shifted a d = shifted a e -> d = e.
Proof.
  unfold shifted. induction a as [|x a IH]; intros [|y d] [|z e] Hd He E; try discriminate Hd; try discriminate He; [reflexivity|].
  cbn [zip_with] in E. injection E as E1 E2. f_equal; [lia|]. apply IH; [now injection Hd|now injection He|exact E2].
Qed.

Lemma distinct_open a : small_steps -> valid_site size a ->
  let nn := nbrs B size false (coords_of size a) (upto (b_gamma B)) in NoDup nn /\ ~ In a nn.
Proof.
  intros (ND & Sm & Ax) Ha nn. destruct (coords_of_spec size a ok Ha) as (_ & Ga & Ra). pose proof (on_grid_length _ _ Ga) as La.
  unfold nn. rewrite nbrs_open_map. split.
  - apply NoDup_map_on.
    + apply NoDup_filter, NoDup_map_on; [exact ND|]. intros d e Hd He E. apply shifted_inj in E; [exact E| |]; rewrite La; now apply steps_length.
    + intros p q Hp Hq E. apply filter_In in Hp as [_ Hp]. apply filter_In in Hq as [_ Hq]. apply inside_spec in Hp, Hq. now apply row_major_inj.
  - intros I. apply in_map_iff in I as (p & E & Hp). apply filter_In in Hp as [Hp Hi]. apply inside_spec in Hi. rewrite <- Ra in E at 1.
    apply row_major_inj in E; [|exact Hi|exact Ga]. subst p. apply in_map_iff in Hp as (d & E & Hd).
    rewrite <- (shifted_zero (coords_of size a)) in E at 2. pose proof (steps_length d Hd) as Ld.
    apply shifted_inj in E; [|congruence|now rewrite repeat_length]. destruct (Sm d Hd) as [_ L1]. rewrite E, l1_repeat0 in L1. lia.
Qed.
End Graph.

Section StandardSteps.
Context {T : Type} (N : num T).
Lemma steps_small l : forallb (fun d => forallb (fun x => (-1 <=? x) && (x <=? 1)) d && (1 <=? l1 d)) l = true ->
  forall d, In d l -> Forall (fun x => -1 <= x <= 1) d /\ 1 <= l1 d.
Proof.
  intros F d Hd. rewrite forallb_forall in F. specialize (F d Hd). apply andb_true_iff in F as [F1 F2]. apply Z.leb_le in F2. split; [|exact F2].
  apply Forall_forall. intros x Hx. rewrite forallb_forall in F1. specialize (F1 x Hx). apply andb_true_iff in F1 as [A B]. apply Z.leb_le in A, B. lia.
Qed.
Ltac nodup := repeat (constructor; [cbn [In]; intuition discriminate|]); constructor.
Lemma chain_small : small_steps (ChainLattice N).
Proof. split; [rewrite chain_steps; nodup|]. split; [rewrite chain_steps; now apply steps_small|]. intros d L H. now apply chain_axis. Qed.
Lemma square_small : small_steps (SquareLattice N).
Proof. split; [rewrite square_steps; nodup|]. split; [rewrite square_steps; now apply steps_small|]. intros d L H. now apply square_axis. Qed.
Lemma cubic_small : small_steps (CubicLattice N).
Proof. split; [rewrite cubic_steps; nodup|]. split; [rewrite cubic_steps; now apply steps_small|]. intros d L H. now apply cubic_axis. Qed.
Lemma triangular_small : small_steps (TriangularLattice N).
Proof. split; [rewrite triangular_steps; nodup|]. split; [rewrite triangular_steps; now apply steps_small|]. exact (triangular_axis N). Qed.
End StandardSteps.

(** ** Distance one *)
Lemma nearest_ring s d : nearest_square s d = ring s d * ring s d. Proof. reflexivity. Qed.

Lemma nearest_hops size : Forall (fun s => 0 < s) size -> forall a b, length a = length size -> length b = length size ->
  (nearest_squares size (zip_with Z.sub b a) = 0 <-> ring_hops size a b = 0) /\
  (nearest_squares size (zip_with Z.sub b a) = 1 <-> ring_hops size a b = 1).
Proof.
  induction 1 as [|s size Hs F IH]; intros [|x a] [|y b] La Lb; try discriminate La; try discriminate Lb; [cbn; lia|].
  cbn [zip_with nearest_squares ring_hops]. rewrite nearest_ring. destruct (IH a b ltac:(now injection La) ltac:(now injection Lb)) as [I0 I1].
  pose proof (nearest_nonneg size (zip_with Z.sub b a)) as P1. pose proof (ring_hops_nonneg size F a b) as P2.
  pose proof (ring_range s (y - x) Hs) as [R _]. set (r := ring s (y - x)) in *. clearbody r.
  set (m := nearest_squares size (zip_with Z.sub b a)) in *. set (h := ring_hops size a b) in *. clearbody m h.
  assert (r = 0 \/ r = 1 \/ 2 <= r) as [->|[->|Hr]] by lia; [lia|lia|]. assert (4 <= r * r) by nia. lia.
Qed.

Lemma rnd_sqrt_one n : 0 <= n -> (rnd (sqrt (IZR n)) = 1%R <-> n = 1).
Proof.
  intros Hn. split; [|intros ->; rewrite sqrt_1; apply rnd_fmt, (fmt_IZR 1); cbn; lia].
  intros E. assert (n = 0 \/ n = 1 \/ 2 <= n) as [->|[->|H]] by lia; [|reflexivity|].
  - rewrite sqrt_0, rnd_0 in E. lra.
  - exfalso. assert (F : fmt (5 / 4)%R).
    { replace (5 / 4)%R with (F2R (Float radix2 5 (-2))); [apply fmt_F2R; cbn; lia|]. unfold F2R. cbn. lra. }
    assert (G : (5 / 4 <= rnd (sqrt (IZR n)))%R).
    { apply rnd_ge_fmt; [exact F|]. apply Rle_trans with (sqrt (IZR 2)); [|now apply sqrt_IZR_le].
      apply Rsqr_incr_0_var; [|apply sqrt_pos]. rewrite Rsqr_sqrt by lra. unfold Rsqr. lra. }
    lra.
Qed.

(** ** Closed walks lift to the infinite lattice *)
Section Lift.
Context {T : Type} (N : num T) (pi : T) (B : bravais T) (size : list Z).
Hypothesis H : lattice_ok B size.
Let ok : sizes_ok size. Proof. apply H. Qed.
Let pos : Forall (fun s => 0 < s) size. Proof. apply sizes_pos. apply H. Qed.

Inductive path : nat -> list Z -> list Z -> Prop :=
| path_here x : path 0 x x
| path_step n x d y : In d (steps B) -> path n (shifted x d) y -> path (S n) x y.

Lemma reduced_shift sz : forall x d, Forall (fun s => 0 < s) sz -> length x = length sz -> length d = length sz ->
  reduced_mod sz (shifted x d) = hop sz (reduced_mod sz x) d.
Proof.
  induction sz as [|s sz IH]; intros [|x xs] [|y d] F Lx Ld; try discriminate Lx; try discriminate Ld; [reflexivity|]. inversion F; subst.
  change (reduced_mod (s :: sz) (shifted (x :: xs) (y :: d))) with ((x + y) mod s :: reduced_mod sz (shifted xs d)).
  change (reduced_mod (s :: sz) (x :: xs)) with (x mod s :: reduced_mod sz xs). rewrite hop_cons. rewrite Zplus_mod_idemp_l. f_equal.
  apply IH; [assumption|now injection Lx|now injection Ld].
Qed.

Lemma shifted_length x d : length x = length size -> length d = length size -> length (shifted x d) = length size.
Proof. intros Lx Ld. unfold shifted. rewrite zip_length. lia. Qed.

Lemma path_length n x y : length x = length size -> path n x y -> length y = length size.
Proof. intros L P. induction P as [x|n x d y Hd P IH]; [exact L|]. apply IH, shifted_length; [exact L|now apply (steps_length B size H)]. Qed.

Lemma path_project n x y : length x = length size -> path n x y ->
  walk (built N pi B size true) n (row_major size (reduced_mod size x)) (row_major size (reduced_mod size y)).
Proof.
  intros L P. induction P as [x|n x d y Hd P IH]; [constructor|]. pose proof (steps_length B size H d Hd) as Ld.
  pose proof (reduced_on_grid size x pos (eq_sym L)) as G. pose proof (row_major_valid _ _ G) as V.
  eapply walk_hop; [now apply get_neighbors|apply nbrs_closed; [exact V|exists d; split; [exact Hd|reflexivity]]|].
  rewrite coords_of_row_major by assumption. rewrite <- reduced_shift by assumption. apply IH. now apply shifted_length.
Qed.

Lemma walk_lift n a b x : valid_site size a -> walk (built N pi B size true) n a b -> length x = length size -> reduced_mod size x = coords_of size a ->
  exists y, path n x y /\ reduced_mod size y = coords_of size b.
Proof.
  intros Ha W. revert x Ha. induction W as [a|n a b c nn En Hb W IH]; intros x Ha Lx E; [exists x; split; [constructor|exact E]|].
  rewrite get_neighbors in En by assumption. injection En as <-. apply nbrs_closed in Hb as (d & Hd & Eb); [|exact Ha].
  pose proof (steps_length B size H d Hd) as Ld. destruct (coords_of_spec size a ok Ha) as (_ & Ga & _).
  assert (Gd : on_grid size (hop size (coords_of size a) d)) by (apply hop_on_grid; [exact pos|now apply on_grid_length|exact Ld]).
  destruct (IH (shifted x d)) as (y & P & Ey).
  - subst b. now apply row_major_valid.
  - now apply shifted_length.
  - rewrite reduced_shift, E by assumption. subst b. now rewrite coords_of_row_major.
  - exists y. split; [econstructor; eassumption|exact Ey].
Qed.

Lemma reduced_image sz : forall y, Forall (fun s => 0 < s) sz -> length y = length sz ->
  exists e, length e = length sz /\ y = image sz (reduced_mod sz y) e.
Proof.
  induction sz as [|s sz IH]; intros [|y ys] F L; try discriminate L; [exists []; split; reflexivity|].
  inversion F; subst. destruct (IH ys) as (e & Le & Ee); [assumption|now injection L|]. exists (y / s :: e). split; [cbn [length]; congruence|].
  change (image (s :: sz) (reduced_mod (s :: sz) (y :: ys)) (y / s :: e)) with (y mod s + y / s * s :: image sz (reduced_mod sz ys) e).
  rewrite <- Ee. f_equal. pose proof (Z.div_mod y s ltac:(lia)). nia.
Qed.
Lemma image_reduced sz : forall c e, on_grid sz c -> length e = length sz -> reduced_mod sz (image sz c e) = c.
Proof.
  induction sz as [|s sz IH]; intros c [|y e] G L; try discriminate L; inversion G as [|? x ? c' Hx G']; subst; [reflexivity|].
  unfold image. cbn [zip_with]. change (zip_with Z.add c' (zip_with Z.mul e sz)) with (image sz c' e).
  change (reduced_mod (s :: sz) (x + y * s :: image sz c' e)) with ((x + y * s) mod s :: reduced_mod sz (image sz c' e)).
  rewrite Z.mod_add, Z.mod_small, IH by (assumption || lia || now injection L). reflexivity.
Qed.
End Lift.

(** ** The triangular lattice *)
Section Triangular.
Context {T : Type} (N : num T) (pi : T).
Let Tri := TriangularLattice N.

Lemma hex_step a b d : length a = 2%nat -> length b = 2%nat -> In d (steps Tri) -> hex_hops a b <= hex_hops (shifted a d) b + 1.
Proof.
  intros La Lb Hd. destruct a as [|x [|x' [|]]]; try discriminate La. destruct b as [|y [|y' [|]]]; try discriminate Lb.
  unfold Tri in Hd. rewrite triangular_steps in Hd.
  repeat (destruct Hd as [<-|Hd]; [unfold hex_hops, shifted; cbn [zip_with]; lia|]). destruct Hd.
Qed.

Lemma hex_refl a : length a = 2%nat -> hex_hops a a = 0.
Proof. intros La. destruct a as [|x [|x' [|]]]; try discriminate La. unfold hex_hops. cbn [zip_with]. rewrite !Z.sub_diag. reflexivity. Qed.

Lemma hex_closer x x' y y' : 0 < hex_hops [x; x'] [y; y'] ->
  exists e e', In [e; e'] (steps Tri) /\ hex_hops [x + e; x' + e'] [y; y'] = hex_hops [x; x'] [y; y'] - 1 /\
  (Z.min x y <= x + e <= Z.max x y) /\ (Z.min x' y' <= x' + e' <= Z.max x' y').
Proof.
  unfold Tri. rewrite triangular_steps. unfold hex_hops. cbn [zip_with]. intros P.
  assert ((x < y /\ y' < x') \/ (y < x /\ x' < y') \/ (x < y /\ x' <= y') \/ (x = y /\ x' < y') \/ (y < x /\ y' <= x') \/ (x = y /\ y' < x'))
    as [C|[C|[C|[C|[C|C]]]]] by lia.
  - exists 1, (-1). split; [do 4 right; now left|lia].
  - exists (-1), 1. split; [do 5 right; now left|lia].
  - exists 1, 0. split; [now left|lia].
  - exists 0, 1. split; [do 2 right; now left|lia].
  - exists (-1), 0. split; [do 1 right; now left|lia].
  - exists 0, (-1). split; [do 3 right; now left|lia].
Qed.

Lemma hex_zero x x' y y' : hex_hops [x; x'] [y; y'] = 0 -> x = y /\ x' = y'.
Proof. unfold hex_hops. cbn [zip_with]. lia. Qed.

Lemma hex_path n : forall x x' y y', hex_hops [x; x'] [y; y'] = Z.of_nat n -> path Tri n [x; x'] [y; y'].
Proof.
  induction n as [|n IH]; intros x x' y y' E.
  - apply hex_zero in E as [-> ->]. constructor.
  - destruct (hex_closer x x' y y' ltac:(lia)) as (e & e' & I & E' & _). apply path_step with (d := [e; e']); [exact I|].
    apply IH. lia.
Qed.

Lemma hex_path_least n a b : path Tri n a b -> length a = 2%nat -> length b = 2%nat -> hex_hops a b <= Z.of_nat n.
Proof.
  intros P. induction P as [x|n x d y Hd P IH]; intros La Lb; [rewrite hex_refl by exact La; lia|].
  pose proof (hex_step x y d La Lb Hd) as S. assert (Ld : length d = 2%nat).
  { unfold Tri in Hd. rewrite triangular_steps in Hd. repeat (destruct Hd as [<-|Hd]; [reflexivity|]). destruct Hd. }
  assert (L : length (shifted x d) = 2%nat) by (unfold shifted; rewrite zip_length; lia). specialize (IH L Lb). lia.
Qed.

Lemma tri_size size : lattice_ok Tri size -> length size = 2%nat.
Proof. intros H. destruct (ok_dims _ _ H) as [_ D]. change (b_dim Tri) with 2 in D. lia. Qed.

Lemma tri_closed size a b e : lattice_ok Tri size -> valid_site size a -> valid_site size b -> length e = length size ->
  walk (built N pi Tri size true) (Z.to_nat (hex_hops (coords_of size a) (image size (coords_of size b) e))) a b.
Proof.
  intros H Ha Hb Le. pose proof H as (_ & _ & _ & Hok & _). pose proof (tri_size size H) as Ls.
  destruct (coords_of_spec size a Hok Ha) as (_ & Ga & Ra). destruct (coords_of_spec size b Hok Hb) as (_ & Gb & Rb).
  pose proof (on_grid_length _ _ Ga) as La. pose proof (on_grid_length _ _ Gb) as Lb. pose proof (image_length size _ e Lb Le) as Li.
  rewrite <- Ra at 2. rewrite <- Rb at 2.
  rewrite <- (reduced_fixed size (coords_of size a)) at 2 by exact Ga.
  rewrite <- (image_reduced size (coords_of size b) e) at 2 by assumption.
  apply path_project; [exact H|exact La|].
  destruct (coords_of size a) as [|x [|x' [|]]]; try (rewrite Ls in La; discriminate La).
  destruct (image size (coords_of size b) e) as [|y [|y' [|]]]; try (rewrite Ls in Li; discriminate Li).
  apply hex_path. unfold hex_hops. cbn [zip_with]. lia.
Qed.

Lemma tri_closed_least size n a b : lattice_ok Tri size -> valid_site size a -> valid_site size b -> walk (built N pi Tri size true) n a b ->
  exists e, length e = length size /\ hex_hops (coords_of size a) (image size (coords_of size b) e) <= Z.of_nat n.
Proof.
  intros H Ha Hb W. pose proof H as (_ & _ & _ & Hok & _). pose proof (tri_size size H) as Ls.
  destruct (coords_of_spec size a Hok Ha) as (_ & Ga & Ra). destruct (coords_of_spec size b Hok Hb) as (_ & Gb & Rb).
  pose proof (on_grid_length _ _ Ga) as La.
  destruct (walk_lift N pi Tri size H n a b (coords_of size a) Ha W La) as (y & P & Ey); [now apply reduced_fixed|].
  pose proof (path_length Tri size H n _ _ La P) as Ly.
  destruct (reduced_image size y) as (e & Le & Ee); [now apply sizes_pos|assumption|]. rewrite Ey in Ee.
  exists e. split; [exact Le|]. rewrite <- Ee. apply hex_path_least; [exact P|congruence|congruence].
Qed.

Lemma tri_open size : lattice_ok Tri size -> forall n a b, valid_site size a -> valid_site size b ->
  hex_hops (coords_of size a) (coords_of size b) = Z.of_nat n -> walk (built N pi Tri size false) n a b.
Proof.
  intros H. pose proof H as (_ & _ & _ & Hok & _). pose proof (tri_size size H) as Ls.
  induction n as [|n IH]; intros a b Ha Hb E; destruct (coords_of_spec size a Hok Ha) as (_ & Ga & Ra); destruct (coords_of_spec size b Hok Hb) as (_ & Gb & Rb).
  - assert (a = b); [|subst b; constructor]. rewrite <- Ra, <- Rb. f_equal.
    pose proof (on_grid_length _ _ Ga) as La. pose proof (on_grid_length _ _ Gb) as Lb. rewrite Ls in La, Lb.
    destruct (coords_of size a) as [|x [|x' [|]]]; try discriminate La. destruct (coords_of size b) as [|y [|y' [|]]]; try discriminate Lb.
    apply hex_zero in E as [-> ->]. reflexivity.
  - pose proof (on_grid_length _ _ Ga) as La. pose proof (on_grid_length _ _ Gb) as Lb. rewrite Ls in La, Lb.
    remember (coords_of size a) as ca eqn:Eca. remember (coords_of size b) as cb eqn:Ecb.
    destruct ca as [|x [|x' [|]]]; try discriminate La. destruct cb as [|y [|y' [|]]]; try discriminate Lb.
    destruct (hex_closer x x' y y' ltac:(lia)) as (e & e' & I & E' & M & M').
    assert (G : on_grid size (shifted [x; x'] [e; e'])).
    { inversion Ga as [|s ? sz ? Hx Ga']; subst. inversion Ga' as [|s' ? sz' ? Hx' Ga'']; subst. inversion Ga''; subst.
      inversion Gb as [|? ? ? ? Hy Gb']; subst. inversion Gb' as [|? ? ? ? Hy' Gb'']; subst.
      unfold shifted. cbn [zip_with]. constructor; [lia|]. constructor; [lia|constructor]. }
    eapply walk_hop; [now apply get_neighbors|apply nbrs_open; [exact Ha|exists [e; e']; rewrite <- Eca; split; [exact I|split; [exact G|reflexivity]]]|].
    apply IH; [now apply row_major_valid|exact Hb|]. rewrite coords_of_row_major by assumption. rewrite <- Ecb.
    change (shifted [x; x'] [e; e']) with [x + e; x' + e']. lia.
Qed.

Lemma tri_open_least size : lattice_ok Tri size -> forall n a b, valid_site size a -> walk (built N pi Tri size false) n a b ->
  hex_hops (coords_of size a) (coords_of size b) <= Z.of_nat n.
Proof.
  intros H n a b Ha W. pose proof H as (_ & _ & _ & ok & _). pose proof (tri_size size H) as Ls.
  pose proof (walk_valid N pi Tri size H _ _ _ _ Ha W) as Vb. induction W as [a|n a b c nn En Hb W IH].
  - destruct (coords_of_spec size a ok Ha) as (_ & Ga & _). rewrite hex_refl; [lia|]. rewrite (on_grid_length _ _ Ga). exact Ls.
  - rewrite get_neighbors in En by assumption. injection En as <-. apply nbrs_open in Hb as (d & Hd & Gd & Eb); [|exact Ha].
    destruct (coords_of_spec size a ok Ha) as (_ & Ga & _). destruct (coords_of_spec size c ok Vb) as (_ & Gc & _).
    assert (V : valid_site size b) by (subst b; now apply row_major_valid).
    specialize (IH V Vb). rewrite Eb, coords_of_row_major in IH by assumption.
    pose proof (hex_step (coords_of size a) (coords_of size c) d) as S. rewrite (on_grid_length _ _ Ga), (on_grid_length _ _ Gc) in S.
    specialize (S Ls Ls Hd). lia.
Qed.
End Triangular.

(** ** Statements through the interface *)
Section Interface.
Context {T : Type} (N : num T) (pi : T) (B : bravais T) (size : list Z).
Hypothesis H : lattice_ok B size.
Let ok : sizes_ok size. Proof. apply H. Qed.
Let pos : Forall (fun s => 0 < s) size. Proof. apply sizes_pos. apply H. Qed.

Lemma one_hop : axis_lattice B -> Forall (fun s => 2 <= s) size -> forall a b, valid_site size a -> valid_site size b ->
  (In b (nbrs B size true (coords_of size a) (upto (b_gamma B))) <-> ring_hops size (coords_of size a) (coords_of size b) = 1).
Proof.
  intros A F2 a b Ha Hb. destruct (ok_dims _ _ H) as [_ D].
  destruct (coords_of_spec size a ok Ha) as (_ & Ga & Ra). destruct (coords_of_spec size b ok Hb) as (_ & Gb & Rb).
  pose proof (on_grid_length _ _ Ga) as La. pose proof (on_grid_length _ _ Gb) as Lb.
  rewrite nbrs_closed by assumption. split.
  - intros (d & Hd & E). apply A in Hd as [Ld L1]. assert (Ld' : length d = length size) by lia.
    assert (Eb : coords_of size b = hop size (coords_of size a) d).
    { rewrite E. apply coords_of_row_major; [exact ok|now apply hop_on_grid]. }
    pose proof (ring_hops_step size pos (coords_of size a) (coords_of size b) d La Lb Ld') as S.
    rewrite <- Eb, ring_hops_refl, L1 in S by exact Gb. pose proof (ring_hops_nonneg size pos (coords_of size a) (coords_of size b)).
    assert (ring_hops size (coords_of size a) (coords_of size b) <> 0); [|lia]. intros Z0.
    apply ring_hops_zero in Z0; [|assumption|assumption]. rewrite <- Z0 in Eb. symmetry in Eb. apply hop_self in Eb; auto.
    + rewrite Eb, l1_repeat0 in L1. lia.
    + clear - L1. assert (G : forall d, l1 d <= 1 -> Forall (fun x => -1 <= x <= 1) d).
      { clear. induction d as [|x d IH]; intros L; [constructor|]. rewrite l1_cons in L. pose proof (l1_nonneg d). constructor; [lia|]. apply IH. lia. }
      apply G. lia.
  - intros E. destruct (ring_hops_closer size _ _ Ga Gb ltac:(lia)) as (d & Ld & L1 & Ed). exists d. split; [apply A; split; [lia|exact L1]|].
    rewrite E in Ed. apply ring_hops_zero in Ed; [|now apply hop_on_grid|assumption]. congruence.
Qed.

Lemma neighbor_lists_distinct : small_steps B -> forall cl, exists L, Lattice N pi B size cl = Ok L /\ forall a, valid_site size a ->
  exists nn, GetNeighbors L a = Ok nn /\
  if cl then (NoDup nn <-> Forall (fun s => 3 <= s) size) /\ (In a nn <-> Exists (eq 1) size) else NoDup nn /\ ~ In a nn.
Proof.
  intros S cl. exists (built N pi B size cl). split; [now apply lattice_built|]. intros a Ha.
  eexists. split; [now apply get_neighbors|]. destruct cl; [now apply distinct_closed|now apply distinct_open].
Qed.

Lemma shortest_closed : axis_lattice B -> exists L, Lattice N pi B size true = Ok L /\ forall a b ca cb, valid_site size a -> valid_site size b ->
  GetCoordinates (l_grid L) a = Ok ca -> GetCoordinates (l_grid L) b = Ok cb ->
  walk L (Z.to_nat (ring_hops size ca cb)) a b /\ forall n, walk L n a b -> ring_hops size ca cb <= Z.of_nat n.
Proof.
  intros A. exists (built N pi B size true). split; [now apply lattice_built|]. intros a b ca cb Ha Hb Ea Eb.
  unfold built in Ea, Eb. cbn [l_grid] in Ea, Eb. rewrite grid_coords in Ea, Eb by assumption. injection Ea as <-. injection Eb as <-.
  pose proof (ring_hops_nonneg size pos (coords_of size a) (coords_of size b)) as P. split.
  - apply walk_closed; auto. + intros d Ld L1. apply A. auto. + lia.
  - intros n W. apply (walk_closed_least N pi B size H); auto. intros d Hd. now apply A.
Qed.
Lemma shortest_open : axis_lattice B -> exists L, Lattice N pi B size false = Ok L /\ forall a b ca cb, valid_site size a -> valid_site size b ->
  GetCoordinates (l_grid L) a = Ok ca -> GetCoordinates (l_grid L) b = Ok cb ->
  walk L (Z.to_nat (axis_hops ca cb)) a b /\ forall n, walk L n a b -> axis_hops ca cb <= Z.of_nat n.
Proof.
  intros A. exists (built N pi B size false). split; [now apply lattice_built|]. intros a b ca cb Ha Hb Ea Eb.
  unfold built in Ea, Eb. cbn [l_grid] in Ea, Eb. rewrite grid_coords in Ea, Eb by assumption. injection Ea as <-. injection Eb as <-.
  pose proof (axis_hops_nonneg (coords_of size a) (coords_of size b)) as P. split.
  - apply walk_open; auto. + intros d Ld L1. apply A. auto. + lia.
  - intros n W. apply (walk_open_least N pi B size H); auto. intros d Hd. now apply A.
Qed.

Lemma coordination cl : exists L, Lattice N pi B size cl = Ok L /\
  exists nn, GetNeighbors L 0 = Ok nn /\ GetCoordination0 L = Ok (vsize nn) /\ GetCoordination0 L = GetCoordination L 0 /\
  if cl then vsize nn = b_gamma B else Z.of_nat (length (filter (inside size) (around B (zeros size)))) = vsize nn.
Proof.
  assert (V : valid_site size 0) by (split; [lia|now apply prodZ_pos]).
  destruct (neighbor_lists N pi B size cl H) as (L & EL & Q). exists L. split; [exact EL|].
  destruct (Q 0 V) as (c & nn & Ec & En & Ek & _ & C). exists nn. split; [exact En|].
  change (GetCoordination0 L) with (GetCoordination L 0). split; [exact Ek|]. split; [reflexivity|].
  destruct cl; [apply C|]. rewrite lattice_built in EL by exact H. injection EL as <-. unfold built in Ec. cbn [l_grid] in Ec.
  rewrite grid_coords in Ec by assumption. injection Ec as <-.
  assert (Z0 : coords_of size 0 = zeros size).
  { replace 0 with (row_major size (zeros size)) at 1.
    - apply coords_of_row_major; [exact ok|]. clear -pos. unfold zeros. induction pos as [|s sz Hs F IH]; cbn [map]; [constructor|]. constructor; [lia|exact (IH F)].
    - clear. induction size as [|s sz IH]; [reflexivity|]. unfold zeros. cbn [map row_major]. unfold zeros in IH. rewrite IH. lia. }
  rewrite Z0 in C. rewrite C. unfold vsize. now rewrite map_length.
Qed.
End Interface.

Lemma tri_shortest_closed {T} (N : num T) (pi : T) size : lattice_ok (TriangularLattice N) size ->
  exists L, Lattice N pi (TriangularLattice N) size true = Ok L /\ forall a b ca cb, valid_site size a -> valid_site size b ->
  GetCoordinates (l_grid L) a = Ok ca -> GetCoordinates (l_grid L) b = Ok cb ->
  (forall e, length e = length size -> walk L (Z.to_nat (hex_hops ca (image size cb e))) a b) /\
  forall n, walk L n a b -> exists e, length e = length size /\ hex_hops ca (image size cb e) <= Z.of_nat n.
Proof.
  intros H. exists (built N pi (TriangularLattice N) size true). split; [now apply lattice_built|]. intros a b ca cb Ha Hb Ea Eb.
  pose proof H as (_ & _ & _ & ok & _).
  unfold built in Ea, Eb. cbn [l_grid] in Ea, Eb. rewrite grid_coords in Ea, Eb by assumption. injection Ea as <-. injection Eb as <-. split.
  - intros e Le. now apply tri_closed.
  - intros n W. now apply (tri_closed_least N pi).
Qed.
Lemma tri_shortest_open {T} (N : num T) (pi : T) size : lattice_ok (TriangularLattice N) size ->
  exists L, Lattice N pi (TriangularLattice N) size false = Ok L /\ forall a b ca cb, valid_site size a -> valid_site size b ->
  GetCoordinates (l_grid L) a = Ok ca -> GetCoordinates (l_grid L) b = Ok cb ->
  walk L (Z.to_nat (hex_hops ca cb)) a b /\ forall n, walk L n a b -> hex_hops ca cb <= Z.of_nat n.
Proof.
  intros H. exists (built N pi (TriangularLattice N) size false). split; [now apply lattice_built|]. intros a b ca cb Ha Hb Ea Eb.
  pose proof H as (_ & _ & _ & ok & _). pose proof (tri_size N size H) as Ls.
  unfold built in Ea, Eb. cbn [l_grid] in Ea, Eb. rewrite grid_coords in Ea, Eb by assumption. injection Ea as <-. injection Eb as <-. split.
  - apply tri_open; auto. destruct (coords_of_spec size a ok Ha) as (_ & Ga & _). destruct (coords_of_spec size b ok Hb) as (_ & Gb & _).
    pose proof (on_grid_length _ _ Ga) as La. pose proof (on_grid_length _ _ Gb) as Lb. rewrite Ls in La, Lb.
    destruct (coords_of size a) as [|x [|x' [|]]]; try discriminate La. destruct (coords_of size b) as [|y [|y' [|]]]; try discriminate Lb.
    unfold hex_hops. cbn [zip_with]. lia.
  - intros n W. now apply (tri_open_least N pi).
Qed.

Lemma neighbors_at_one B size : unit_lattice f0 f1 B -> axis_lattice B -> lattice_ok B size -> 4 * sum_squares size <= 2 ^ 53 ->
  Forall (fun s => 2 <= s) size ->
  exists L, Lattice numF pi_d B size true = Ok L /\ forall a b, valid_site size a -> valid_site size b ->
  exists x r, GetDistance L a b = Ok x /\ AreNeighbors L a b = Ok r /\ (r = true <-> RR x = 1%R).
Proof.
  intros U A H Hb F2. destruct (hypercubic_distance B size U H Hb) as (L & EL & P). exists L. split; [exact EL|]. intros a b Ha Hb'.
  destruct (are_neighbors_sym numF pi_d B size true H) as (L' & EL' & Q). rewrite EL in EL'. injection EL' as <-.
  destruct (Q a b Ha Hb') as (r & nn & Er & _ & En & Ir). pose proof H as (_ & _ & _ & ok & _).
  rewrite lattice_built in EL by exact H. injection EL as <-. unfold built in P. cbn [l_grid] in P. fold (built numF pi_d B size true) in P.
  destruct (P a b _ _ Ha Hb' (grid_coords size true a ok Ha) (grid_coords size true b ok Hb')) as (x & Ex & Fx & Rx).
  exists x, r. split; [exact Ex|]. split; [exact Er|]. rewrite Ir, Rx.
  rewrite get_neighbors in En by assumption. injection En as <-. rewrite one_hop by assumption.
  destruct (coords_of_spec size a ok Ha) as (_ & Ga & _). destruct (coords_of_spec size b ok Hb') as (_ & Gb & _).
  rewrite rnd_sqrt_one by apply nearest_nonneg. symmetry.
  apply nearest_hops; [now apply sizes_pos|now apply on_grid_length|now apply on_grid_length].
Qed.
