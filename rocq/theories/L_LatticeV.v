(** Lemmas about vectors and the triangle inequality on closed hyper-cubic lattices. *)
From Coq Require Import ZArith Reals List Bool Lia Lra.
From Flocq Require Import Core.
From Verif Require Import Base F64 Num S_Math S_Accum M_MathInt M_Grid M_Bravais M_Lattice S_Grid S_Bravais S_Lattice S_LatticeN S_Norm
  L_Grid L_MathF L_Approx L_Space L_Bravais L_Lattice L_LatticeD L_LatticeN L_Norm.
Import ListNotations.
Open Scope Z_scope.

(** Rounded square roots tell integers up to 2^50 from larger ones. *)
Lemma rnd_sqrt_lt m n : 0 <= m <= 2 ^ 50 -> m < n -> (rnd (sqrt (IZR m)) < rnd (sqrt (IZR n)))%R.
Proof.
  intros Hm Hn. apply Rlt_le_trans with (rnd (sqrt (IZR (m + 1)))); [|apply rnd_le, sqrt_IZR_le; lia].
  destruct (Z.eq_dec m 0) as [->|Nz].
  - rewrite sqrt_0, rnd_0. pose proof (rnd_sqrt_pos (0 + 1) ltac:(lia)). lra.
  - assert (R : forall k, 1 <= k -> (Rabs (rnd (sqrt (IZR k)) - sqrt (IZR k)) <= uro * sqrt (IZR k))%R).
    { intros k Hk. assert (1 <= sqrt (IZR k))%R by (rewrite <- sqrt_1; now apply (sqrt_IZR_le 1)).
      rewrite <- (Rabs_pos_eq (sqrt (IZR k))) at 3 by lra. apply rnd_rel. rewrite Rabs_pos_eq by lra.
      apply Rle_trans with 1%R; [|lra]. change 1%R with (bpow radix2 0). apply bpow_le. lia. }
    pose proof (R m ltac:(lia)) as A. pose proof (R (m + 1) ltac:(lia)) as B. apply Rabs_le_inv in A, B.
    assert (Q : (sqrt (IZR m) * (1 + uro) < sqrt (IZR (m + 1)) * (1 - uro))%R); [|lra].
    pose proof uro_pos as U0. pose proof uro_val as U1.
    assert (U2 : (uro <= / 9007199254740992)%R) by (rewrite U1; right; f_equal; now apply IZR_eq).
    assert (M0 : (0 < IZR m)%R) by (apply IZR_lt; lia). assert (M1 : (IZR m <= 1125899906842624)%R) by (apply IZR_le; lia).
    apply Rsqr_incrst_0; [|apply Rmult_le_pos; [apply sqrt_pos|lra]|apply Rmult_le_pos; [apply sqrt_pos|lra]].
    rewrite !Rsqr_mult, !Rsqr_sqrt; [|rewrite plus_IZR; lra|lra]. unfold Rsqr. rewrite plus_IZR.
    set (M := IZR m) in *. assert (M * uro <= / 8)%R by nra. nra.
Qed.

Lemma sum_squares_cons x l : sum_squares (x :: l) = x * x + sum_squares l. Proof. reflexivity. Qed.
Lemma nearest_half s d : 0 < s -> 4 * nearest_square s d <= s * s.
Proof. intros Hs. rewrite nearest_ring. pose proof (ring_range s d Hs). nia. Qed.
Lemma nearest_quarter size : Forall (fun s => 0 < s) size -> forall d, 4 * nearest_squares size d <= sum_squares size.
Proof.
  induction 1 as [|s size Hs F IH]; intros [|x d]; cbn [nearest_squares]; [cbn; lia|cbn; lia| |].
  - rewrite sum_squares_cons. specialize (IH []). destruct size; cbn [nearest_squares] in IH; nia.
  - rewrite sum_squares_cons. specialize (IH d). pose proof (nearest_half s x Hs). lia.
Qed.

(** The image with the least sum of squares is the least one in each component. *)
Lemma least_components size : Forall (fun s => 0 < s) size -> forall d e, length d = length size -> length e = length size ->
  sum_squares (image size d e) = nearest_squares size d -> Forall3 (fun s x z => (s | z - x) /\ Z.abs z = ring s x) size d (image size d e).
Proof.
  unfold image. induction 1 as [|s size Hs F IH]; intros [|x d] [|y e] Hd He; try discriminate Hd; try discriminate He; [constructor|].
  cbn [nearest_squares zip_with]. rewrite sum_squares_cons. intros E.
  pose proof (nearest_minimal size F d e ltac:(now injection Hd) ltac:(now injection He)) as M. unfold image in M.
  pose proof (nearest_le s x y Hs) as M1. constructor.
  - split; [exists y; lia|]. rewrite nearest_ring in *. pose proof (ring_range s x Hs) as [R _].
    assert (Q : (x + y * s) * (x + y * s) = ring s x * ring s x) by lia. set (w := x + y * s) in *. set (r := ring s x) in *. clearbody w r.
    destruct (Z.le_gt_cases 0 w); nia.
  - apply IH; [now injection Hd|now injection He|]. rewrite nearest_ring in *. lia.
Qed.

Lemma ring_mod_id s x : 0 < s -> ring s (x mod s) = ring s x.
Proof. intros H. unfold ring. now rewrite Z.mod_mod by lia. Qed.

Lemma seen_components (R : Z -> Z -> Z -> Prop) size : (forall s x z, 0 < s -> R s (x mod s) z -> R s x z) ->
  forall a b z, on_grid size a -> on_grid size b -> Forall3 R size (seen_from size a b) z -> Forall3 R size (zip_with Z.sub b a) z.
Proof.
  intros HR a b z Ga. revert b z. unfold seen_from. induction Ga as [|s x size a Hx G IH]; intros b z Gb F; inversion Gb as [|? y ? b' Hy Gb']; subst.
  - exact F.
  - cbn [map3 zip_with] in *. inversion F; subst. constructor; [apply HR; [lia|assumption]|now apply IH].
Qed.

Lemma Forall3_impl {A B C} (P Q : A -> B -> C -> Prop) la lb lc : (forall a b c, In a la -> P a b c -> Q a b c) -> Forall3 P la lb lc -> Forall3 Q la lb lc.
Proof. intros H F. induction F; constructor; [apply H; [now left|assumption]|apply IHF; intros; apply H; [now right|assumption]]. Qed.

Lemma hypercubic_vector B size : unit_lattice f0 f1 B -> lattice_ok B size -> 4 * sum_squares size <= 2 ^ 53 ->
  exists L, Lattice numF pi_d B size true = Ok L /\ forall a b ca cb, valid_site size a -> valid_site size b ->
  GetCoordinates (l_grid L) a = Ok ca -> GetCoordinates (l_grid L) b = Ok cb ->
  exists v z x, GetVector L a b = Ok v /\ Forall2 (fun y k => fin y /\ RR y = IZR k) v z /\
  Forall3 (fun s d k => (s | k - d) /\ 2 * Z.abs k <= s) size (zip_with Z.sub cb ca) z /\
  GetDistance L a b = Ok x /\ RR x = rnd (sqrt (IZR (sum_squares z))).
Proof.
  intros U H Hb. exists (built numF pi_d B size true). split; [now apply lattice_built|]. intros a b ca cb Ha Hb' Ea Eb.
  pose proof H as (W & Hs & H40 & Hok & He & Hn). destruct (ok_dims _ _ H) as [Dm DS]. pose proof (sizes_pos _ Hok) as pos.
  change (l_grid (built numF pi_d B size true)) with (HyperCubicGrid size true) in Ea, Eb.
  rewrite grid_coords in Ea, Eb by assumption. injection Ea as <-. injection Eb as <-.
  destruct (coords_of_spec size a Hok Ha) as (_ & Ga & _). destruct (coords_of_spec size b Hok Hb') as (_ & Gb & _).
  destruct (closed_distance numF pi_d B size a b H Ha Hb') as (Gc & V & D).
  set (c := seen_from size (coords_of size a) (coords_of size b)) in *.
  destruct (best_spec numF flt_trans flt_irrefl B size c (on_grid_length _ _ Gc) ltac:(lia)) as (E1 & (e0 & S0 & E0) & F).
  destruct (unit_norm B size c e0 U H Hb Gc S0) as [F0 R0].
  destruct (nearest_attained size c Gc) as (e & Se & Ee). destruct (unit_norm B size c e U H Hb Gc Se) as [F1 R1].
  specialize (F e Se). cbn [numF n_lt] in F. fold numF in F. rewrite E1, E0 in F. apply flt_R_false in F; [|exact F1|exact F0].
  rewrite R0, R1, Ee in F.
  assert (M : sum_squares (image size c e0) = nearest_squares size c).
  { pose proof (nearest_minimal size pos c e0 (on_grid_length _ _ Gc) (proj1 S0)) as Mi. pose proof (nearest_quarter size pos c) as Mq.
    pose proof (nearest_nonneg size c) as Mn. destruct (Z.eq_dec (sum_squares (image size c e0)) (nearest_squares size c)) as [|Ne]; [assumption|exfalso].
    pose proof (rnd_sqrt_lt (nearest_squares size c) (sum_squares (image size c e0)) ltac:(lia) ltac:(lia)). lra. }
  pose proof (image_length size c e0 (on_grid_length _ _ Gc) (proj1 S0)) as Li.
  pose proof (image_squares size c e0 Gc S0) as I.
  assert (B53 : Forall (fun x => Z.abs x <= 2 ^ 53) (image size c e0)).
  { pose proof (sum_squares_bound (image size c e0) (2 ^ 53) ltac:(lia)) as FB.
    eapply Forall_impl; [|exact FB]. cbn beta. intros z Hz. destruct (Z.eq_dec z 0) as [->|Nz]; [lia|]. pose proof (Z.abs_mul z z). nia. }
  assert (Ev : pv numF B (image size c e0) = map of_Z (image size c e0)) by (apply pv_unit; [exact U|unfold vsize; lia|exact B53]).
  rewrite E0 in V, D. exists (map of_Z (image size c e0)), (image size c e0), (norm numF (pv numF B (image size c e0))).
  split; [rewrite <- Ev; exact V|]. split; [|split; [|split; [exact D|exact R0]]].
  - clear -B53. induction B53 as [|z l Hz F IH]; cbn [map]; constructor; [|exact IH]. destruct (of_Z_exact z Hz). auto.
  - pose proof (least_components size pos c e0 (on_grid_length _ _ Gc) (proj1 S0) M) as LC.
    apply (seen_components (fun s d k => (s | k - d) /\ 2 * Z.abs k <= s)); [|exact Ga|exact Gb|].
    + intros s x z Hs0 [Dv A]. split; [|exact A]. pose proof (Z.div_mod x s ltac:(lia)).
      replace (z - x) with ((z - x mod s) - s * (x / s)) by lia. apply Z.divide_sub_r; [exact Dv|apply Z.divide_factor_l].
    + eapply Forall3_impl; [|exact LC]. cbn beta. intros s x z Is [Dv A]. split; [exact Dv|].
      rewrite Forall_forall in pos. pose proof (ring_range s x (pos s Is)). lia.
Qed.

Lemma hypercubic_vector_back B size : unit_lattice f0 f1 B -> lattice_ok B size -> 4 * sum_squares size <= 2 ^ 53 ->
  exists L, Lattice numF pi_d B size true = Ok L /\ forall a b, valid_site size a -> valid_site size b ->
  exists v w, GetVector L a b = Ok v /\ GetVector L b a = Ok w /\
  Forall3 (fun s y y' => (2 * Rabs (RR y) < IZR s)%R /\ RR y' = (- RR y)%R \/ (2 * Rabs (RR y) = IZR s)%R /\ (2 * Rabs (RR y') = IZR s)%R) size v w.
Proof.
  intros U H Hb. destruct (hypercubic_vector B size U H Hb) as (L & EL & P). exists L. split; [exact EL|]. intros a b Ha Hb'.
  pose proof H as (W & Hs & H40 & Hok & He & Hn). pose proof (sizes_pos _ Hok) as pos.
  rewrite lattice_built in EL by exact H. injection EL as <-. unfold built in P. cbn [l_grid] in P. fold (built numF pi_d B size true) in P.
  destruct (P a b _ _ Ha Hb' (grid_coords size true a Hok Ha) (grid_coords size true b Hok Hb')) as (v & z & _ & Ev & F2 & F3 & _).
  destruct (P b a _ _ Hb' Ha (grid_coords size true b Hok Hb') (grid_coords size true a Hok Ha)) as (w & t & _ & Ew & G2 & G3 & _).
  exists v, w. split; [exact Ev|]. split; [exact Ew|]. clear Ev Ew P.
  destruct (coords_of_spec size a Hok Ha) as (_ & Ga & _). destruct (coords_of_spec size b Hok Hb') as (_ & Gb & _).
  revert F3 G3. generalize (coords_of size a) (coords_of size b). clear - F2 G2 pos. intros ca cb F3. revert v w t F2 G2.
  remember (zip_with Z.sub cb ca) as d eqn:Ed. revert ca cb Ed. induction F3 as [|s d z size dl zl Hz F3 IH]; intros ca cb Ed v w t F2 G2 G3.
  - inversion G3; subst. inversion F2; subst. inversion G2; subst. constructor.
  - destruct cb as [|y cb]; [destruct ca; discriminate Ed|]. destruct ca as [|x ca]; [discriminate Ed|]. cbn [zip_with] in Ed. injection Ed as -> Ed.
    cbn [zip_with] in G3. inversion G3 as [|? ? t0 ? ? tl Ht G3']; subst. inversion F2 as [|v0 ? vl ? [_ Hv] F2']; subst. inversion G2 as [|w0 ? wl ? [_ Hw] G2']; subst.
    inversion pos; subst. constructor; [|eapply IH; eauto]. rewrite Hv, Hw. clear -Hz Ht H1. rewrite <- !abs_IZR, <- opp_IZR.
    destruct Hz as [Dz Az]. destruct Ht as [Dt At]. destruct Dz as [q Eq]. destruct Dt as [r Er].
    destruct (Z_lt_le_dec (2 * Z.abs z) s) as [Lt|Le].
    + left. rewrite <- mult_IZR. split; [now apply IZR_lt|]. f_equal. assert (t0 + z = (q + r) * s) by lia.
      assert (q + r = 0) by nia. nia.
    + right. rewrite <- !mult_IZR. split; apply f_equal; [lia|]. assert (E : t0 + z = (q + r) * s) by lia.
      assert (Hk : q + r = -1 \/ q + r = 0 \/ q + r = 1) by nia. destruct Hk as [K|[K|K]]; rewrite K in E; lia.
Qed.

(** ** The triangle inequality *)
Lemma ring_triangle s d e : 0 < s -> ring s (d + e) <= ring s d + ring s e.
Proof.
  intros Hs. unfold ring. rewrite (Z.add_mod d e) by lia.
  pose proof (Z.mod_pos_bound d s Hs). pose proof (Z.mod_pos_bound e s Hs). set (x := d mod s) in *. set (y := e mod s) in *. clearbody x y.
  destruct (Z_lt_le_dec (x + y) s).
  - rewrite (Z.mod_small (x + y)) by lia. lia.
  - replace (x + y) with (x + y - s + 1 * s) by lia. rewrite Z.mod_add, Z.mod_small by lia. lia.
Qed.

Fixpoint rings (size d : list Z) : list R :=
  match size, d with s :: size', x :: d' => IZR (ring s x) :: rings size' d' | _, _ => [] end.
Lemma nearest_euclid size : forall d, sqrt (IZR (nearest_squares size d)) = euclid (rings size d).
Proof.
  intros d. unfold euclid. f_equal. revert d. induction size as [|s size IH]; intros [|x d]; cbn [nearest_squares rings]; try reflexivity.
  rewrite sumsq_cons, plus_IZR, IH, nearest_ring, mult_IZR. reflexivity.
Qed.
Lemma rings_length size : forall d, length d = length size -> length (rings size d) = length size.
Proof. induction size as [|s size IH]; intros [|x d] H; try discriminate H; [reflexivity|]. cbn [rings length]. f_equal. apply IH. now injection H. Qed.
Lemma rings_triangle size : Forall (fun s => 0 < s) size -> forall a b c, length a = length size -> length b = length size -> length c = length size ->
  (sumsq (rings size (zip_with Z.sub c a)) <= sumsq (vadd (rings size (zip_with Z.sub b a)) (rings size (zip_with Z.sub c b))))%R.
Proof.
  induction 1 as [|s size Hs F IH]; intros [|x a] [|y b] [|z c] A B C; try discriminate A; try discriminate B; try discriminate C; [cbn; lra|].
  cbn [zip_with rings vadd]. rewrite !sumsq_cons. specialize (IH a b c ltac:(now injection A) ltac:(now injection B) ltac:(now injection C)).
  pose proof (ring_triangle s (y - x) (z - y) Hs) as T. replace (y - x + (z - y)) with (z - x) in T by lia.
  pose proof (proj1 (ring_range s (z - x) Hs)) as P. apply IZR_le in T. apply (IZR_le 0) in P. rewrite plus_IZR in T.
  assert (Q : (IZR (ring s (z - x)) * IZR (ring s (z - x)) <= (IZR (ring s (y - x)) + IZR (ring s (z - y))) * (IZR (ring s (y - x)) + IZR (ring s (z - y))))%R).
  { apply Rmult_le_compat; assumption. }
  lra.
Qed.
Lemma nearest_triangle size : Forall (fun s => 0 < s) size -> forall a b c, length a = length size -> length b = length size -> length c = length size ->
  (sqrt (IZR (nearest_squares size (zip_with Z.sub c a))) <=
   sqrt (IZR (nearest_squares size (zip_with Z.sub b a))) + sqrt (IZR (nearest_squares size (zip_with Z.sub c b))))%R.
Proof.
  intros pos a b c A B C. rewrite !nearest_euclid. eapply Rle_trans; [|apply euclid_triangle].
  - unfold euclid. apply sqrt_le_1_alt. now apply rings_triangle.
  - rewrite !rings_length; [reflexivity| |]; rewrite zip_length; lia.
Qed.

Lemma hypercubic_triangle B size : unit_lattice f0 f1 B -> lattice_ok B size -> 4 * sum_squares size <= 2 ^ 53 ->
  exists L, Lattice numF pi_d B size true = Ok L /\ forall a b c, valid_site size a -> valid_site size b -> valid_site size c ->
  exists x y z, GetDistance L a b = Ok x /\ GetDistance L b c = Ok y /\ GetDistance L a c = Ok z /\
  ((1 - uro) * RR z <= (1 + uro) * (RR x + RR y))%R.
Proof.
  intros U H Hb. destruct (hypercubic_distance B size U H Hb) as (L & EL & P). exists L. split; [exact EL|]. intros a b c Ha Hb' Hc.
  pose proof H as (W & Hs & H40 & Hok & He & Hn). pose proof (sizes_pos _ Hok) as pos.
  rewrite lattice_built in EL by exact H. injection EL as <-. unfold built in P. cbn [l_grid] in P. fold (built numF pi_d B size true) in P.
  destruct (P a b _ _ Ha Hb' (grid_coords size true a Hok Ha) (grid_coords size true b Hok Hb')) as (x & Ex & _ & Rx).
  destruct (P b c _ _ Hb' Hc (grid_coords size true b Hok Hb') (grid_coords size true c Hok Hc)) as (y & Ey & _ & Ry).
  destruct (P a c _ _ Ha Hc (grid_coords size true a Hok Ha) (grid_coords size true c Hok Hc)) as (z & Ez & _ & Rz).
  exists x, y, z. split; [exact Ex|]. split; [exact Ey|]. split; [exact Ez|].
  destruct (coords_of_spec size a Hok Ha) as (_ & Ga & _). destruct (coords_of_spec size b Hok Hb') as (_ & Gb & _). destruct (coords_of_spec size c Hok Hc) as (_ & Gc & _).
  pose proof (nearest_triangle size pos _ _ _ (on_grid_length _ _ Ga) (on_grid_length _ _ Gb) (on_grid_length _ _ Gc)) as T.
  assert (R : forall k, 0 <= k -> ((1 - uro) * sqrt (IZR k) <= rnd (sqrt (IZR k)) <= (1 + uro) * sqrt (IZR k))%R).
  { intros k Hk. destruct (Z.eq_dec k 0) as [->|Nz]; [rewrite sqrt_0, rnd_0; lra|].
    assert (1 <= sqrt (IZR k))%R by (rewrite <- sqrt_1; apply (sqrt_IZR_le 1); lia).
    assert (A : (Rabs (rnd (sqrt (IZR k)) - sqrt (IZR k)) <= uro * sqrt (IZR k))%R).
    { rewrite <- (Rabs_pos_eq (sqrt (IZR k))) at 3 by lra. apply rnd_rel. rewrite Rabs_pos_eq by lra.
      apply Rle_trans with 1%R; [|lra]. change 1%R with (bpow radix2 0). apply bpow_le. lia. }
    apply Rabs_le_inv in A. lra. }
  rewrite Rx, Ry, Rz.
  pose proof (R _ (nearest_nonneg size (zip_with Z.sub (coords_of size b) (coords_of size a)))) as R1.
  pose proof (R _ (nearest_nonneg size (zip_with Z.sub (coords_of size c) (coords_of size b)))) as R2.
  pose proof (R _ (nearest_nonneg size (zip_with Z.sub (coords_of size c) (coords_of size a)))) as R3.
  set (dx := sqrt (IZR (nearest_squares size (zip_with Z.sub (coords_of size b) (coords_of size a))))) in *.
  set (dy := sqrt (IZR (nearest_squares size (zip_with Z.sub (coords_of size c) (coords_of size b))))) in *.
  set (dz := sqrt (IZR (nearest_squares size (zip_with Z.sub (coords_of size c) (coords_of size a))))) in *.
  pose proof uro_pos. pose proof uro_small. clearbody dx dy dz.
  apply Rle_trans with ((1 - uro) * ((1 + uro) * (dx + dy)))%R; [apply Rmult_le_compat_l; [lra|]; apply Rle_trans with ((1 + uro) * dz)%R; [lra|apply Rmult_le_compat_l; lra]|].
  replace ((1 - uro) * ((1 + uro) * (dx + dy)))%R with ((1 + uro) * ((1 - uro) * dx + (1 - uro) * dy))%R by ring.
  apply Rmult_le_compat_l; lra.
Qed.
