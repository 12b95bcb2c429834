(** Lemmas for C100: jumps, vectors and walks. *)
From Coq Require Import ZArith Reals List Bool Lia Lra.
From Verif Require Import Base F64 Num S_Math S_Accum M_MathInt L_MathInt M_Grid M_Bravais M_Lattice S_Grid L_Grid S_Bravais S_Lattice S_LatticeN S_Geom
  L_Bravais L_Lattice L_LatticeD L_LatticeN L_LatticeV L_Geom S_Jump.
Import ListNotations.
Open Scope Z_scope.

Lemma subtract_zip cb : forall ca d, subtract_into cb ca = Ok d -> length ca = length cb -> d = zip_with Z.sub cb ca.
Proof.
  intros ca d E L. destruct (subtract_into_spec cb ca d E) as (_ & Ld & N).
  clear E. revert ca d L Ld N. induction cb as [|y cb IH]; intros [|x ca] [|z d] L Ld N; try discriminate; [reflexivity|].
  cbn [zip_with]. f_equal; [exact (N 0%nat ltac:(cbn; lia))|]. apply IH; cbn in L, Ld; try lia.
  intros i Hi. exact (N (S i) ltac:(cbn; lia)).
Qed.

(** The jump of a closed grid, on the difference of coordinates. *)
Lemma closed_jump size a b : small_sizes size -> valid_site size a -> valid_site size b ->
  exists j, GetJump (HyperCubicGrid size true) a b = Ok j /\
  Forall3 min_image size (zip_with Z.sub (coords_of size b) (coords_of size a)) j.
Proof.
  intros S Ha Hb. pose proof (small_ok _ S) as ok.
  destruct (jump_closed (HyperCubicGrid size true) a b _ _ eq_refl S Ha Hb (grid_coords size true a ok Ha) (grid_coords size true b ok Hb)) as (d & j & Ed & Ej & F).
  exists j. split; [exact Ej|]. apply subtract_zip in Ed; [now subst d|].
  destruct (coords_of_spec size a ok Ha) as (_ & Ga & _). destruct (coords_of_spec size b ok Hb) as (_ & Gb & _).
  pose proof (L_Lattice.on_grid_length _ _ Ga). pose proof (L_Lattice.on_grid_length _ _ Gb). congruence.
Qed.

Lemma half_cases s d k z : 0 < s -> min_image s d k -> (s | z - d) -> 2 * Z.abs z <= s -> z = k \/ 2 * k = s /\ z = - k.
Proof.
  intros Hs [[p Hp] Hk] [q Hq] Hz. assert (E : z - k = (q - p) * s) by lia.
  destruct (Z.eq_dec q p) as [->|]; [left; lia|]. right.
  assert (q - p = -1 \/ q - p >= 0 \/ q - p <= -2) by lia. destruct H as [H|[H|H]].
  - rewrite H in E. split; lia.
  - assert (q - p >= 1) by lia. assert ((q - p) * s >= s) by nia. lia.
  - assert ((q - p) * s <= -2 * s) by nia. lia.
Qed.

Lemma min_image_ring s d k : 0 < s -> min_image s d k -> Z.abs k = ring s d.
Proof.
  intros Hs [[p Hp] Hk]. unfold ring. assert (E : d mod s = k mod s).
  { replace d with (k + - p * s) by lia. apply Z.mod_add. lia. }
  rewrite E. destruct (Z.le_gt_cases 0 k).
  - rewrite Z.mod_small by lia. lia.
  - replace (k mod s) with (k + s); [lia|]. rewrite <- (Z.mod_add k 1) by lia. rewrite Z.mod_small; lia.
Qed.

Lemma vector_jump B size : unit_lattice f0 f1 B -> lattice_ok B size -> 4 * sum_squares size <= 2 ^ 53 ->
  exists L, Lattice numF pi_d B size true = Ok L /\ forall a b, valid_site size a -> valid_site size b ->
  exists v j x, GetVector L a b = Ok v /\ GetJump (l_grid L) a b = Ok j /\ GetDistance L a b = Ok x /\
  Forall3 (fun s y k => fin y /\ same_way s (RR y) k) size v j /\
  RR x = rnd (sqrt (IZR (sum_squares j))).
Proof.
  intros U H Hb. destruct (hypercubic_vector B size U H Hb) as (L & EL & P). exists L. split; [exact EL|]. intros a b Ha Hb'.
  pose proof H as (_ & _ & _ & ok & _). rewrite lattice_built in EL by exact H. injection EL as <-.
  destruct (P a b _ _ Ha Hb' (grid_coords size true a ok Ha) (grid_coords size true b ok Hb')) as (v & z & x & Ev & Fv & Fz & Ex & Rx).
  assert (S : small_sizes size).
  { split; [|apply ok]. pose proof (sizes_pos _ ok) as Ps. clear - Ps Hb. induction size as [|s size IH]; constructor.
    - apply Forall_cons_iff in Ps as [Hs Ps]. cbn [sum_squares fold_right] in Hb. fold (sum_squares size) in Hb.
      assert (0 <= sum_squares size). { clear. induction size as [|t l IH]; cbn [sum_squares fold_right]; [lia|]. fold (sum_squares l). nia. }
      split; [exact Hs|]. change (2 ^ 53) with 9007199254740992 in Hb. change (2 ^ 32) with 4294967296. nia.
    - apply Forall_cons_iff in Ps as [Hs Ps]. apply IH; [|exact Ps]. cbn [sum_squares fold_right] in Hb. fold (sum_squares size) in Hb. nia. }
  destruct (closed_jump size a b S Ha Hb') as (j & Ej & Fj).
  exists v, j, x. split; [exact Ev|]. split; [exact Ej|]. split; [exact Ex|].
  assert (Ps := sizes_pos _ ok). rewrite Rx. clear - Ps Fv Fz Fj.
  revert z j v Ps Fv Fz Fj. generalize (zip_with Z.sub (coords_of size b) (coords_of size a)). clear.
  assert (G : forall size d z j v, Forall (fun s => 0 < s) size -> Forall2 (fun y k => fin y /\ RR y = IZR k) v z ->
    Forall3 (fun s d k => (s | k - d) /\ 2 * Z.abs k <= s) size d z -> Forall3 min_image size d j ->
    Forall3 (fun s y k => fin y /\ same_way s (RR y) k) size v j /\ sum_squares z = sum_squares j).
  { clear. intros sz d z j v Ps Fv Fz. revert j v Ps Fv. induction Fz as [|s d k sz ld lz [D A] Fz IH]; intros j v Ps Fv Fj.
    - inversion Fj; subst. inversion Fv; subst. split; [constructor|reflexivity].
    - inversion Fj as [|? ? k' ? ? lj M Fj']; subst. inversion Fv as [|y ? lv ? [Fy Ry] Fv']; subst.
      apply Forall_cons_iff in Ps as [Hs Ps]. destruct (IH lj lv Ps Fv' Fj') as [I1 I2].
      destruct (half_cases s d k' k Hs M D A) as [->|[E ->]].
      + split; [constructor; [split; [exact Fy|now left]|exact I1]|]. cbn [sum_squares fold_right] in *. unfold sum_squares in I2. lia.
      + split; [constructor; [split; [exact Fy|right; split; [exact E|now rewrite Ry, opp_IZR]]|exact I1]|].
        cbn [sum_squares fold_right]. unfold sum_squares in I2. lia. }
  intros d z j v Ps Fv Fz Fj. destruct (G size d z j v Ps Fv Fz Fj) as [G1 ->]. split; [exact G1|reflexivity].
Qed.

Lemma jump_ring size : Forall (fun s => 0 < s) size -> forall a b j, length a = length b ->
  Forall3 min_image size (zip_with Z.sub b a) j -> steps_of j = ring_hops size a b.
Proof.
  induction 1 as [|s size Hs _ IH]; intros [|x a] [|y b] j L F; try discriminate; cbn [zip_with] in F; inversion F; subst; try reflexivity.
  cbn [steps_of ring_hops]. rewrite (min_image_ring s (y - x)) by assumption. f_equal. apply IH; [now injection L|assumption].
Qed.

Lemma jump_axis a : forall b j, Forall3 (fun x y d => d = y - x) a b j -> steps_of j = axis_hops a b.
Proof. intros b j F. induction F as [|x y d la lb lj -> F IH]; [reflexivity|]. cbn [steps_of axis_hops]. now rewrite IH. Qed.

Section Any.
Context {T : Type} (N : num T) (pi : T) (B : bravais T) (size : list Z).
Context (H : lattice_ok B size) (S : small_sizes size).

Lemma grid_jump cl a b : valid_site size a -> valid_site size b ->
  exists j, GetJump (HyperCubicGrid size cl) a b = Ok j /\
  steps_of j = if cl then ring_hops size (coords_of size a) (coords_of size b) else axis_hops (coords_of size a) (coords_of size b).
Proof.
  intros Ha Hb. pose proof H as (_ & _ & _ & ok & _). destruct cl.
  - destruct (closed_jump size a b S Ha Hb) as (j & Ej & Fj). exists j. split; [exact Ej|]. apply jump_ring; [now apply sizes_pos| |exact Fj].
    destruct (coords_of_spec size a ok Ha) as (_ & Ga & _). destruct (coords_of_spec size b ok Hb) as (_ & Gb & _).
    pose proof (L_Lattice.on_grid_length _ _ Ga). pose proof (L_Lattice.on_grid_length _ _ Gb). congruence.
  - destruct (jump_open_total (HyperCubicGrid size false) a b eq_refl ok Ha Hb) as (j & ca & cb & Ej & Ea & Eb & F).
    rewrite (grid_coords size false a ok Ha) in Ea. injection Ea as <-. rewrite (grid_coords size false b ok Hb) in Eb. injection Eb as <-.
    exists j. split; [exact Ej|]. now apply jump_axis.
Qed.

Lemma walk_jump cl : axis_lattice B ->
  exists L, Lattice N pi B size cl = Ok L /\ forall a b, valid_site size a -> valid_site size b ->
  exists j, GetJump (l_grid L) a b = Ok j /\ walk L (Z.to_nat (steps_of j)) a b /\
  forall n, walk L n a b -> steps_of j <= Z.of_nat n.
Proof.
  intros A. pose proof H as (_ & _ & _ & ok & _). exists (built N pi B size cl). split; [now apply lattice_built|]. intros a b Ha Hb.
  destruct (grid_jump cl a b Ha Hb) as (j & Ej & Sj). exists j. split; [exact Ej|]. rewrite Sj. destruct cl.
  - destruct (shortest_closed N pi B size H A) as (L & EL & P). rewrite lattice_built in EL by exact H. injection EL as <-.
    exact (P a b _ _ Ha Hb (grid_coords size true a ok Ha) (grid_coords size true b ok Hb)).
  - destruct (shortest_open N pi B size H A) as (L & EL & P). rewrite lattice_built in EL by exact H. injection EL as <-.
    exact (P a b _ _ Ha Hb (grid_coords size false a ok Ha) (grid_coords size false b ok Hb)).
Qed.

Lemma neighbors_jump cl : axis_lattice B -> (cl = true -> Forall (fun s => 2 <= s) size) ->
  exists L, Lattice N pi B size cl = Ok L /\ forall a b, valid_site size a -> valid_site size b ->
  exists j r, GetJump (l_grid L) a b = Ok j /\ AreNeighbors L a b = Ok r /\ (r = true <-> steps_of j = 1).
Proof.
  intros A F2. pose proof H as (_ & _ & _ & ok & _). exists (built N pi B size cl). split; [now apply lattice_built|]. intros a b Ha Hb.
  destruct (grid_jump cl a b Ha Hb) as (j & Ej & Sj).
  destruct (are_neighbors_sym N pi B size cl H) as (L' & EL' & Q). rewrite lattice_built in EL' by exact H. injection EL' as <-.
  destruct (Q a b Ha Hb) as (r & nn & Er & _ & En & Ir).
  exists j, r. split; [exact Ej|]. split; [exact Er|]. rewrite Ir, Sj.
  destruct cl.
  - rewrite get_neighbors in En by assumption. injection En as <-. apply one_hop; auto.
  - (* a walk of one step *)
    destruct (shortest_open N pi B size H A) as (L & EL & P). rewrite lattice_built in EL by exact H. injection EL as <-.
    destruct (P a b _ _ Ha Hb (grid_coords size false a ok Ha) (grid_coords size false b ok Hb)) as [W M].
    split.
    + intros Hi. assert (W1 : walk (built N pi B size false) 1 a b) by (econstructor; [exact En|exact Hi|constructor]).
      specialize (M 1%nat W1). destruct (Z.eq_dec (axis_hops (coords_of size a) (coords_of size b)) 1) as [E|Ne]; [exact E|exfalso].
      rewrite get_neighbors in En by assumption. injection En as <-. apply nbrs_open in Hi as (d & Hd & Gd & ->); [|exact Ha].
      apply Ne. rewrite coords_of_row_major by assumption. apply A in Hd. destruct Hd as [Ld <-].
      destruct (coords_of_spec size a ok Ha) as (_ & Ga & _). apply L_Lattice.on_grid_length in Ga.
      assert (E : length d = length (coords_of size a)).
      { rewrite Ld, Ga. destruct H as (_ & <- & _). unfold vsize. lia. }
      clear -E. unfold shifted. revert d E.
      induction (coords_of size a) as [|x l IH]; intros [|y d] E; try discriminate; [reflexivity|].
      cbn [zip_with axis_hops l1 fold_right]. rewrite IH by (now injection E). unfold l1. lia.
    + intros E. rewrite E in W. change (Z.to_nat 1) with 1%nat in W. inversion W as [|n x y z nn' En' Hi W0]; subst. rewrite En in En'. injection En' as <-.
      inversion W0; subst. exact Hi.
Qed.
End Any.
