(** Lemmas about distances, momenta and structure factors of lattices. *)
From Coq Require Import ZArith Reals List Bool Lia Lra.
From Flocq Require Import Core.Core IEEE754.BinarySingleNaN.
From Verif Require Import Base F64 Num S_Math S_Accum M_MathInt M_MathF M_Pairs M_Grid M_Bravais M_Lattice S_Grid S_Bravais S_Lattice
  L_MathInt L_Grid L_Hist L_MathF L_Approx L_Space L_Bravais L_Lattice.
Import ListNotations.
Open Scope Z_scope.

(** * C36: hyper-cubic lattices *)

Lemma pv_unit B z : unit_lattice f0 f1 B -> vsize z = b_dim B -> Forall (fun x => Z.abs x <= 2 ^ 53) z -> pv numF B z = map of_Z z.
Proof.
  intros U Hz F. pose proof (unit_real_space B z U Hz F) as E. rewrite real_space_pure in E; [|apply U|exact Hz]. now injection E.
Qed.

Lemma image_squares size : forall c e, on_grid size c -> shell size e -> sum_squares (image size c e) <= 4 * sum_squares size.
Proof.
  unfold image. intros c e G. revert e. induction G as [|s x size c Hx G IH]; intros [|y e] [L S]; try discriminate L; [cbn; lia|].
  inversion S; subst. cbn [zip_with sum_squares fold_right]. fold (sum_squares (zip_with Z.add c (zip_with Z.mul e size))). fold (sum_squares size).
  assert (Se : shell size e) by (split; [cbn [length] in L; now apply eq_add_S|assumption]). specialize (IH e Se).
  assert (Q : Z.abs (x + y * s) <= 2 * s) by (assert (y = -1 \/ y = 0 \/ y = 1) as [->|[->| ->]] by lia; lia).
  assert (R : (x + y * s) * (x + y * s) <= 4 * (s * s)) by (set (w := x + y * s) in *; clearbody w; nia).
  lia.
Qed.

Lemma unit_norm B size c e : unit_lattice f0 f1 B -> lattice_ok B size -> 4 * sum_squares size <= 2 ^ 53 -> on_grid size c -> shell size e ->
  fin (norm numF (pv numF B (image size c e))) /\
  RR (norm numF (pv numF B (image size c e))) = rnd (sqrt (IZR (sum_squares (image size c e)))).
Proof.
  intros U H Hb G S. pose proof (image_squares size c e G S) as I. destruct (ok_dims _ _ H) as [Dm DS].
  rewrite pv_unit; [apply norm_of_Z; lia|exact U| |].
  - unfold vsize. rewrite image_length; [lia|now apply on_grid_length|apply S].
  - pose proof (sum_squares_bound (image size c e) (2 ^ 53) ltac:(lia)) as F.
    eapply Forall_impl; [|exact F]. cbn beta. intros z Hz. destruct (Z.eq_dec z 0) as [->|Nz]; [lia|]. pose proof (Z.abs_mul z z). nia.
Qed.

Lemma nearest_le s d e : 0 < s -> nearest_square s d <= (d + e * s) * (d + e * s).
Proof.
  intros Hs. unfold nearest_square. pose proof (Z.mod_pos_bound d s Hs) as M. pose proof (Z.div_mod d s ltac:(lia)) as D.
  set (m := d mod s) in *. set (q := d / s) in *. clearbody m q.
  assert (E : d + e * s = m + (q + e) * s) by lia. rewrite E. set (t := q + e). clearbody t.
  assert (K : 0 <= Z.min m (s - m) <= Z.abs (m + t * s)) by (assert (t = 0 \/ 1 <= t \/ t <= -1) as [->|[Ht|Ht]] by lia; [lia|nia|nia]).
  set (k := Z.min m (s - m)) in *. set (w := m + t * s) in *. clearbody k w. nia.
Qed.

Lemma nearest_nonneg size d : 0 <= nearest_squares size d.
Proof.
  revert d. induction size as [|s size IH]; intros [|x d]; cbn [nearest_squares]; try lia. specialize (IH d). unfold nearest_square. nia.
Qed.

Lemma nearest_minimal size : Forall (fun s => 0 < s) size -> forall d e, length d = length size -> length e = length size ->
  nearest_squares size d <= sum_squares (image size d e).
Proof.
  unfold image. induction 1 as [|s size Hs F IH]; intros [|x d] [|y e] Hd He; try discriminate Hd; try discriminate He; [cbn; lia|].
  cbn [nearest_squares zip_with sum_squares fold_right]. fold (sum_squares (zip_with Z.add d (zip_with Z.mul e size))).
  specialize (IH d e ltac:(now injection Hd) ltac:(now injection He)). pose proof (nearest_le s x y Hs). lia.
Qed.

Lemma nearest_attained size c : on_grid size c -> exists e, shell size e /\ sum_squares (image size c e) = nearest_squares size c.
Proof.
  unfold image, shell. induction 1 as [|s x size c Hx G (e & [L S] & E)]; [exists []; cbn; auto|].
  assert (P : exists y, -1 <= y <= 1 /\ (x + y * s) * (x + y * s) = nearest_square s x).
  { unfold nearest_square. rewrite Z.mod_small by exact Hx. destruct (Z.min_spec x (s - x)) as [[? ->]|[? ->]]; [exists 0|exists (-1)]; split; lia. }
  destruct P as (y & Hy & Ey). exists (y :: e). split; [split; [cbn [length]; now f_equal|now constructor]|].
  cbn [zip_with sum_squares fold_right nearest_squares]. fold (sum_squares (zip_with Z.add c (zip_with Z.mul e size))). lia.
Qed.

Lemma nearest_seen size : forall a b, on_grid size a -> on_grid size b ->
  nearest_squares size (seen_from size a b) = nearest_squares size (zip_with Z.sub b a).
Proof.
  unfold seen_from. intros a b Ga. revert b. induction Ga as [|s x size a Hx G IH]; intros b Gb; inversion Gb; subst; [reflexivity|].
  cbn [map3 zip_with nearest_squares]. rewrite IH by assumption. f_equal. unfold nearest_square. rewrite Z.mod_mod by lia. reflexivity.
Qed.

Lemma nearest_sym size : forall a b, on_grid size a -> on_grid size b ->
  nearest_squares size (zip_with Z.sub a b) = nearest_squares size (zip_with Z.sub b a).
Proof.
  intros a b Ga. revert b. induction Ga as [|s x size a Hx G IH]; intros b Gb; inversion Gb as [|? y ? b' Hy Gb']; subst; [reflexivity|].
  cbn [zip_with nearest_squares]. rewrite IH by assumption. f_equal. unfold nearest_square.
  assert (E : (x - y) mod s = (s - (y - x) mod s) mod s).
  { rewrite Zminus_mod_idemp_r. replace (s - (y - x)) with (x - y + 1 * s) by lia. now rewrite Z.mod_add by lia. }
  rewrite E. pose proof (Z.mod_pos_bound (y - x) s ltac:(lia)) as M. set (m := (y - x) mod s) in *. clearbody m.
  destruct (Z.eq_dec m 0) as [->|Nz].
  - rewrite Z.sub_0_r, Z_mod_same_full. now rewrite Z.sub_0_r.
  - rewrite (Z.mod_small (s - m)) by lia. replace (s - (s - m)) with m by lia. now rewrite (Z.min_comm (s - m) m).
Qed.

Lemma nearest_zero size : forall a b, on_grid size a -> on_grid size b -> nearest_squares size (zip_with Z.sub b a) = 0 -> a = b.
Proof.
  intros a b Ga. revert b. induction Ga as [|s x size a Hx G IH]; intros b Gb; inversion Gb as [|? y ? b' Hy Gb']; subst; [reflexivity|].
  cbn [zip_with nearest_squares]. intros E. pose proof (nearest_nonneg size (zip_with Z.sub b' a)) as P.
  assert (Q : nearest_square s (y - x) = 0) by (unfold nearest_square in *; nia).
  f_equal; [|apply IH; [assumption|unfold nearest_square in *; nia]]. unfold nearest_square in Q.
  pose proof (Z.mod_pos_bound (y - x) s ltac:(lia)) as M.
  assert (Z0 : (y - x) mod s = 0) by (destruct (Z.min_spec ((y - x) mod s) (s - (y - x) mod s)) as [[? R]|[? R]]; rewrite R in Q; nia).
  pose proof (Z.div_mod (y - x) s ltac:(lia)) as D. rewrite Z0 in D. assert ((y - x) / s = 0) by nia. nia.
Qed.

Lemma nearest_self size a : on_grid size a -> nearest_squares size (zip_with Z.sub a a) = 0.
Proof.
  induction 1 as [|s x size a Hx G IH]; [reflexivity|]. cbn [zip_with nearest_squares]. rewrite IH, Z.sub_diag. unfold nearest_square.
  rewrite Z.mod_0_l by lia. rewrite Z.min_l by lia. reflexivity.
Qed.

Lemma sqrt_IZR_le m n : m <= n -> (sqrt (IZR m) <= sqrt (IZR n))%R.
Proof. intros H. apply sqrt_le_1_alt. now apply IZR_le. Qed.

Lemma hypercubic_distance B size : unit_lattice f0 f1 B -> lattice_ok B size -> 4 * sum_squares size <= 2 ^ 53 ->
  exists L, Lattice numF pi_d B size true = Ok L /\ forall a b ca cb, valid_site size a -> valid_site size b ->
  GetCoordinates (l_grid L) a = Ok ca -> GetCoordinates (l_grid L) b = Ok cb ->
  exists x, GetDistance L a b = Ok x /\ fin x /\ RR x = rnd (sqrt (IZR (nearest_squares size (zip_with Z.sub cb ca)))).
Proof.
  intros U H Hb. exists (built numF pi_d B size true). split; [now apply lattice_built|]. intros a b ca cb Ha Hb' Ea Eb.
  pose proof H as (W & Hs & H40 & Hok & He & Hn). destruct (ok_dims _ _ H) as [Dm DS].
  change (l_grid (built numF pi_d B size true)) with (HyperCubicGrid size true) in Ea, Eb.
  rewrite grid_coords in Ea, Eb by assumption. injection Ea as <-. injection Eb as <-.
  destruct (coords_of_spec size a Hok Ha) as (_ & Ga & _). destruct (coords_of_spec size b Hok Hb') as (_ & Gb & _).
  destruct (closed_distance numF pi_d B size a b H Ha Hb') as (Gc & _ & D). rewrite <- nearest_seen by assumption.
  set (c := seen_from size (coords_of size a) (coords_of size b)) in *. clearbody c.
  destruct (best_spec numF flt_trans flt_irrefl B size c (on_grid_length _ _ Gc) ltac:(lia)) as (E1 & (e0 & S0 & E0) & F).
  eexists. split; [exact D|]. rewrite E0. destruct (unit_norm B size c e0 U H Hb Gc S0) as [F0 R0]. split; [exact F0|].
  destruct (nearest_attained size c Gc) as (e & Se & Ee). destruct (unit_norm B size c e U H Hb Gc Se) as [F1 R1].
  specialize (F e Se). cbn [numF n_lt] in F. fold numF in F. rewrite E1, E0 in F. apply flt_R_false in F; [|exact F1|exact F0].
  apply Rle_antisym.
  - rewrite R1, Ee in F. exact F.
  - rewrite R0. apply rnd_le, sqrt_IZR_le. apply nearest_minimal; [now apply sizes_pos|now apply on_grid_length|apply S0].
Qed.

(** Translation invariance of every closed lattice. *)
Lemma distance_translation {T} (N : num T) pi (B : bravais T) size : lattice_ok B size ->
  exists L, Lattice N pi B size true = Ok L /\ forall t a b a' b', valid_site size t -> valid_site size a -> valid_site size b ->
  GetUnMappedSite (l_grid L) t a = Ok a' -> GetUnMappedSite (l_grid L) t b = Ok b' ->
  GetDistance L a' b' = GetDistance L a b /\ GetVector L a' b' = GetVector L a b.
Proof.
  intros H. exists (built N pi B size true). split; [now apply lattice_built|]. intros t a b a' b' Ht Ha Hb Ea Eb.
  pose proof H as (W & Hs & H40 & Hok & He & Hn).
  pose proof (mapped_translation (HyperCubicGrid size true) t a b eq_refl Hok Ht Ha Hb) as M.
  change (l_grid (built N pi B size true)) with (HyperCubicGrid size true) in *.
  rewrite Ea, Eb in M. cbn [bind] in M. unfold GetDistance, GetVector.
  change (l_grid (built N pi B size true)) with (HyperCubicGrid size true). rewrite M. auto.
Qed.

Lemma rnd_sqrt_pos n : 1 <= n -> (1 <= rnd (sqrt (IZR n)))%R.
Proof.
  intros H. apply rnd_ge_fmt; [apply (fmt_IZR 1); cbn; lia|]. rewrite <- sqrt_1. now apply (sqrt_IZR_le 1).
Qed.

Lemma hypercubic_metric B size : unit_lattice f0 f1 B -> lattice_ok B size -> 4 * sum_squares size <= 2 ^ 53 ->
  exists L, Lattice numF pi_d B size true = Ok L /\ forall a b, valid_site size a -> valid_site size b ->
  exists x, GetDistance L a b = Ok x /\ GetDistance L b a = Ok x /\ (RR x = 0%R <-> a = b).
Proof.
  intros U H Hb. pose proof H as (W & Hs & H40 & Hok & He & Hn).
  destruct (hypercubic_distance B size U H Hb) as (L & EL & P). exists L. split; [exact EL|]. intros a b Ha Hb'.
  rewrite lattice_built in EL by exact H. injection EL as <-.
  change (l_grid (built numF pi_d B size true)) with (HyperCubicGrid size true) in P.
  destruct (P a b _ _ Ha Hb' (grid_coords size true a Hok Ha) (grid_coords size true b Hok Hb')) as (x & Ex & Fx & Rx).
  destruct (P b a _ _ Hb' Ha (grid_coords size true b Hok Hb') (grid_coords size true a Hok Ha)) as (y & Ey & Fy & Ry).
  destruct (coords_of_spec size a Hok Ha) as (_ & Ga & Ra). destruct (coords_of_spec size b Hok Hb') as (_ & Gb & Rb).
  rewrite nearest_sym in Ry by assumption.
  exists x. split; [exact Ex|].
  assert (Z0 : RR x = 0%R <-> a = b).
  { split.
    - intros Z. rewrite Rx in Z. pose proof (nearest_nonneg size (zip_with Z.sub (coords_of size b) (coords_of size a))) as Pn.
      destruct (Z.eq_dec (nearest_squares size (zip_with Z.sub (coords_of size b) (coords_of size a))) 0) as [E|Nz].
      + apply nearest_zero in E; [|assumption|assumption]. congruence.
      + pose proof (rnd_sqrt_pos (nearest_squares size (zip_with Z.sub (coords_of size b) (coords_of size a))) ltac:(lia)). lra.
    - intros <-. rewrite Rx, nearest_self by assumption. rewrite sqrt_0. apply rnd_0. }
  split; [|exact Z0]. destruct (Z.eq_dec a b) as [->|Ne]; [exact Ex|].
  rewrite Ey. f_equal. apply RR_inj; [congruence|]. rewrite Ry, <- Rx. tauto.
Qed.

(** * C38: open lattices *)
Section Open.
Context {T : Type} (N : num T) (pi : T).

Lemma map3_sub_zip size : forall a b, length a = length size -> length b = length size ->
  map3 (fun _ x y => y - x) size a b = zip_with Z.sub b a.
Proof.
  induction size as [|s size IH]; intros [|x a] [|y b] Ha Hb; try discriminate; [reflexivity|]. cbn [map3 zip_with]. f_equal.
  apply IH; [now injection Ha|now injection Hb].
Qed.

Lemma open_distance (B : bravais T) size : lattice_ok B size ->
  exists L, Lattice N pi B size false = Ok L /\ forall a b ca cb, valid_site size a -> valid_site size b ->
  GetCoordinates (l_grid L) a = Ok ca -> GetCoordinates (l_grid L) b = Ok cb ->
  (Forall2 Z.le ca cb -> exists d v, GetDistanceVector N B ca cb = Ok (d, v) /\ GetDistance L a b = Ok d /\ GetVector L a b = Ok v) /\
  (prodZ size <= 2 ^ 63 -> b < a -> GetDistance L a b = UB /\ GetVector L a b = UB).
Proof.
  intros H. exists (built N pi B size false). split; [now apply lattice_built|]. intros a b ca cb Ha Hb Ea Eb.
  pose proof H as (W & Hs & H40 & Hok & He & Hn). destruct (ok_dims _ _ H) as [Dm DS].
  change (l_grid (built N pi B size false)) with (HyperCubicGrid size false) in Ea, Eb.
  rewrite grid_coords in Ea, Eb by assumption. injection Ea as <-. injection Eb as <-.
  destruct (coords_of_spec size a Hok Ha) as (_ & Ga & Ra). destruct (coords_of_spec size b Hok Hb) as (_ & Gb & Rb).
  pose proof (mapped_open (HyperCubicGrid size false) a b eq_refl Hok Ha Hb) as M.
  unfold GetDistance, GetVector. change (l_grid (built N pi B size false)) with (HyperCubicGrid size false).
  rewrite M. cbn [bind]. split.
  - intros Dom. set (ca := coords_of size a) in *. set (cb := coords_of size b) in *.
    pose proof (on_grid_length _ _ Ga) as La. pose proof (on_grid_length _ _ Gb) as Lb.
    assert (Gd : on_grid size (zip_with Z.sub cb ca)).
    { rewrite <- (map3_sub_zip size) by assumption. now apply dominated_on_grid. }
    assert (Rd : row_major size (zip_with Z.sub cb ca) = b - a).
    { rewrite <- (map3_sub_zip size) by assumption. rewrite row_major_sub by assumption. congruence. }
    pose proof (row_major_valid _ _ Gd) as Vd. rewrite Rd in Vd. unfold valid_site in Vd.
    rewrite u64_small by (destruct Hok as [_ Hp]; lia).
    destruct (distance_built N pi B size false (b - a) H Vd) as [V D]. cbv zeta iota in V, D.
    assert (Cd : coords_of size (b - a) = zip_with Z.sub cb ca) by (rewrite <- Rd; now apply coords_of_row_major).
    rewrite Cd in V, D.
    do 2 eexists. split; [|split; [exact D|exact V]].
    assert (Dk : diff_ok ca cb) by (unfold diff_ok; now apply (on_grid_long size)).
    destruct (distance_pure N B ca cb W) as (_ & _ & E); [unfold vsize; lia|unfold vsize; lia|exact Dk|].
    rewrite (diff_zip (b_dim B)) in E by (unfold vsize; lia). exact E.
  - intros Hp Hlt. unfold valid_site in Ha, Hb.
    assert (Eu : u64 (b - a) = b - a + two64) by (unfold u64; rewrite <- (Z.mod_add _ 1) by (rewrite two64_eq; lia); rewrite Z.mul_1_l; apply Z.mod_small; rewrite two64_eq; lia).
    rewrite Eu. unfold built. cbn [l_dist l_vec].
    rewrite !vget_oob; auto; unfold vsize; rewrite ?map_length, upto_length; rewrite two64_eq; lia.
Qed.
End Open.

(** * Witnesses *)
Lemma bind_inv {A B} (x : out A) (f : A -> out B) r : bind x f = Ok r -> exists a, x = Ok a /\ f a = Ok r.
Proof. destruct x; cbn [bind]; try discriminate. eauto. Qed.

Lemma beyond_the_shell :
  exists L d d', Lattice numF pi_d (TriangularLattice numF) [1; 10] true = Ok L /\
  GetCoordinates (l_grid L) 5 = Ok [0; 5] /\ GetDistance L 0 5 = Ok d /\
  BGetDistance numF (TriangularLattice numF) (zeros [1; 10]) (image [1; 10] [0; 5] [-2; 0]) = Ok d' /\ flt d' d = true.
Proof.
  assert (E : (L <- Lattice numF pi_d (TriangularLattice numF) [1; 10] true ;; d <- GetDistance L 0 5 ;;
    d' <- BGetDistance numF (TriangularLattice numF) (zeros [1; 10]) (image [1; 10] [0; 5] [-2; 0]) ;; Ok (flt d' d)) = Ok true) by (vm_compute; reflexivity).
  apply bind_inv in E as (L & EL & E). apply bind_inv in E as (d & Ed & E). apply bind_inv in E as (d' & Ed' & E). injection E as E.
  exists L, d, d'. split; [exact EL|]. split; [|split; [exact Ed|split; [exact Ed'|exact E]]]. clear Ed Ed' E.
  rewrite lattice_built in EL; [injection EL as <-; unfold built; cbn [l_grid]; vm_compute; reflexivity|].
  split; [apply triangular_wf|]. repeat split; try reflexivity; try (repeat constructor; lia). cbn. lia.
Qed.

Lemma not_symmetric :
  exists L x y, Lattice numF pi_d (TriangularLattice numF) [2; 11] true = Ok L /\
  GetDistance L 0 16 = Ok x /\ GetDistance L 16 0 = Ok y /\ flt y x = true.
Proof.
  assert (E : (L <- Lattice numF pi_d (TriangularLattice numF) [2; 11] true ;; x <- GetDistance L 0 16 ;; y <- GetDistance L 16 0 ;; Ok (flt y x)) = Ok true)
    by (vm_compute; reflexivity).
  apply bind_inv in E as (L & EL & E). apply bind_inv in E as (x & Ex & E). apply bind_inv in E as (y & Ey & E). injection E as E.
  exists L, x, y. split; [exact EL|]. split; [exact Ex|]. split; [exact Ey|exact E].
Qed.

Lemma open_unrelated :
  exists L d d', Lattice numF pi_d (SquareLattice numF) [2; 2] false = Ok L /\
  GetCoordinates (l_grid L) 1 = Ok [0; 1] /\ GetCoordinates (l_grid L) 2 = Ok [1; 0] /\
  GetDistance L 1 2 = Ok d /\ BGetDistance numF (SquareLattice numF) [0; 1] [1; 0] = Ok d' /\ flt d d' = true.
Proof.
  assert (E : (L <- Lattice numF pi_d (SquareLattice numF) [2; 2] false ;; d <- GetDistance L 1 2 ;;
    d' <- BGetDistance numF (SquareLattice numF) [0; 1] [1; 0] ;; Ok (flt d d')) = Ok true) by (vm_compute; reflexivity).
  apply bind_inv in E as (L & EL & E). apply bind_inv in E as (d & Ed & E). apply bind_inv in E as (d' & Ed' & E). injection E as E.
  exists L, d, d'. split; [exact EL|]. rewrite <- !and_assoc. split; [|exact E]. split; [|exact Ed']. split; [|exact Ed]. clear Ed Ed' E.
  rewrite lattice_built in EL; [injection EL as <-; unfold built; cbn [l_grid]; split; vm_compute; reflexivity|].
  split; [apply square_wf|]. repeat split; try reflexivity; try (repeat constructor; lia). cbn. lia.
Qed.
