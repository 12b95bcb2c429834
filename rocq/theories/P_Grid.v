(** Property theorems C21-C28 (HyperCubicGrid).  Nothing else is proved here. *)
From Coq Require Import ZArith List Bool Lia.
From Verif Require Import Base S_Math S_Grid M_MathInt M_Pairs M_Grid L_MathInt L_Grid.
Import ListNotations.
Open Scope Z_scope.

(** * C21  GetIndex / GetCoordinates / GetNumSites *)

Theorem C21_num_sites : forall size cl,
  sizes_ok size -> GetNumSites (HyperCubicGrid size cl) = prodZ size /\ 0 < prodZ size.
Proof. exact numsites_spec. Qed.
Print Assumptions C21_num_sites.

Theorem C21_dimension : forall size cl i c,
  sizes_ok size -> valid_site size i -> GetCoordinates (HyperCubicGrid size cl) i = Ok c ->
  dim (HyperCubicGrid size cl) = vsize size /\ vsize c = dim (HyperCubicGrid size cl) /\
  gsize (HyperCubicGrid size cl) = size /\ closed (HyperCubicGrid size cl) = cl.
Proof.
  intros size cl i c Hs Hi E. destruct (site_coords (HyperCubicGrid size cl) i Hs Hi) as (c' & E' & G & _).
  rewrite E in E'. injection E' as <-. unfold vsize. apply Forall2_length in G. cbn [HyperCubicGrid dim gsize closed vsize] in *. unfold vsize. rewrite G. auto.
Qed.
Print Assumptions C21_dimension.

Theorem C21_coordinates_of_site : forall size cl i,
  sizes_ok size -> valid_site size i ->
  exists c, GetCoordinates (HyperCubicGrid size cl) i = Ok c /\ on_grid size c /\
            row_major size c = i /\ GetIndex (HyperCubicGrid size cl) c = Ok i.
Proof.
  intros size cl i Hs Hi.
  destruct (site_coords (HyperCubicGrid size cl) i Hs Hi) as (c & E & G & I).
  exists c. repeat split; auto.
  rewrite (index_of_coords (HyperCubicGrid size cl) c Hs G). now f_equal.
Qed.
Print Assumptions C21_coordinates_of_site.

Theorem C21_site_of_coordinates : forall size cl c,
  sizes_ok size -> on_grid size c ->
  exists i, GetIndex (HyperCubicGrid size cl) c = Ok i /\ valid_site size i /\
            GetCoordinates (HyperCubicGrid size cl) i = Ok c.
Proof.
  intros size cl c Hs G. exists (row_major size c).
  split; [exact (index_of_coords (HyperCubicGrid size cl) c Hs G)|].
  split; [exact (row_major_range _ _ G)|].
  exact (coords_of_index (HyperCubicGrid size cl) c Hs G).
Qed.
Print Assumptions C21_site_of_coordinates.

Theorem C21_index_is_valid : forall size cl i,
  sizes_ok size -> 0 <= i ->
  (IndexIsValid (HyperCubicGrid size cl) i = true <-> valid_site size i).
Proof.
  intros size cl i Hs Hi. unfold IndexIsValid, valid_site.
  pose proof (numsites_spec size cl Hs) as [E _]. unfold GetNumSites in E. rewrite E.
  rewrite Z.ltb_lt. lia.
Qed.
Print Assumptions C21_index_is_valid.

Example C21_ex : sizes_ok [3; 4; 5] /\ GetCoordinates (HyperCubicGrid [3; 4; 5] true) 33 = Ok [1; 2; 3]
  /\ GetIndex (HyperCubicGrid [3; 4; 5] true) [1; 2; 3] = Ok 33.
Proof. split; [split; [repeat constructor; lia|reflexivity]|]. split; vm_compute; reflexivity. Qed.

(** * C22  EnforceBoundaries *)

Theorem C22_closed : forall size c,
  Forall (fun s => 0 < s < two63) size -> Forall (fun x => - two63 <= x < two63) c ->
  length c = length size ->
  exists d, EnforceBoundaries (HyperCubicGrid size true) c = Ok d /\ on_grid size d /\
    Forall3 (fun s x y => (s | y - x)) size c d /\
    (forall d', on_grid size d' -> Forall3 (fun s x y => (s | y - x)) size c d' -> d' = d).
Proof.
  intros size c Hs Hc Hl. exists (reduced_mod size c).
  assert (Hp : Forall (fun s => 0 < s) size) by (eapply Forall_impl; [|exact Hs]; simpl; lia).
  repeat split.
  - exact (enforce_closed (HyperCubicGrid size true) c eq_refl Hs Hc Hl).
  - now apply reduced_on_grid.
  - now apply reduced_congruent.
  - intros d'. apply reduced_unique.
Qed.
Print Assumptions C22_closed.

Theorem C22_idempotent : forall size c,
  Forall (fun s => 0 < s < two63) size -> on_grid size c ->
  EnforceBoundaries (HyperCubicGrid size true) c = Ok c.
Proof.
  intros size c Hs G. rewrite <- (reduced_fixed size c G) at 2.
  apply (enforce_closed (HyperCubicGrid size true) c eq_refl Hs).
  - unfold s64s. clear - Hs G. induction G; inversion Hs; subst; constructor; auto.
    pose proof two63_pos. lia.
  - symmetry. exact (on_grid_length _ _ G).
Qed.
Print Assumptions C22_idempotent.

Theorem C22_open_unchanged : forall size c,
  EnforceBoundaries (HyperCubicGrid size false) c = Ok c.
Proof. reflexivity. Qed.
Print Assumptions C22_open_unchanged.

(** Lattice::EnforceBoundaries hides the grid version and ignores the
    boundary conditions. *)
Theorem C22_lattice_reduces_always : forall size cl c,
  Forall (fun s => 0 < s < two63) size -> Forall (fun x => - two63 <= x < two63) c ->
  length c = length size ->
  LatticeEnforceBoundaries (HyperCubicGrid size cl) c =
  EnforceBoundaries (HyperCubicGrid size true) c.
Proof.
  intros size cl c Hs Hc Hl.
  rewrite (lenforce_any (HyperCubicGrid size cl) c Hs Hc Hl).
  symmetry. exact (enforce_closed (HyperCubicGrid size true) c eq_refl Hs Hc Hl).
Qed.
Print Assumptions C22_lattice_reduces_always.

(** A zero extent hangs both versions, whatever its coordinate. *)
Theorem C22_zero_size_hangs : forall size1 size2 c1 x c2 cl,
  Forall (fun s => 0 < s < two63) size1 -> length size1 = length c1 ->
  Forall (fun x => - two63 <= x < two63) (c1 ++ x :: c2) ->
  EnforceBoundaries (HyperCubicGrid (size1 ++ 0 :: size2) true) (c1 ++ x :: c2) = Diverge /\
  LatticeEnforceBoundaries (HyperCubicGrid (size1 ++ 0 :: size2) cl) (c1 ++ x :: c2) = Diverge.
Proof.
  intros size1 size2 c1 x c2 cl Hs Hl Hc. split.
  - exact (each_coord_zero_diverges enforce1 size1 size2 c1 x c2 enforce1_spec enforce1_zero Hs Hl Hc).
  - exact (each_coord_zero_diverges lenforce1 size1 size2 c1 x c2 lenforce1_spec lenforce1_zero Hs Hl Hc).
Qed.
Print Assumptions C22_zero_size_hangs.

(** An extent of 2^63 or more overflows. *)
Theorem C22_huge_size_overflows : forall s c,
  two63 <= s < two64 -> - two63 <= c < two63 ->
  EnforceBoundaries (HyperCubicGrid [s] true) [c] = UB.
Proof.
  intros s c Hs Hc. unfold EnforceBoundaries, HyperCubicGrid. cbn [closed gsize each_coord].
  rewrite enforce1_huge by assumption. reflexivity.
Qed.
Print Assumptions C22_huge_size_overflows.

Example C22_ex : EnforceBoundaries (HyperCubicGrid [3; 4] true) [-7; 9] = Ok [2; 1] /\
  EnforceBoundaries (HyperCubicGrid [3; 4] false) [-7; 9] = Ok [-7; 9] /\
  LatticeEnforceBoundaries (HyperCubicGrid [3; 4] false) [-7; 9] = Ok [2; 1].
Proof. split; [|split]; vm_compute; reflexivity. Qed.

(** * C23  IsOnGrid *)

Theorem C23_is_on_grid : forall size cl c,
  Forall (fun x => - two63 <= x < two63) c -> length c = length size ->
  exists b, IsOnGrid (HyperCubicGrid size cl) c = Ok b /\ (b = true <-> on_grid size c).
Proof.
  intros size cl c Hc Hl. destruct (is_on_grid_spec size c Hc Hl) as [[E H]|[E H]].
  - exists true. split; [exact E|]. tauto.
  - exists false. split; [exact E|]. split; [discriminate|tauto].
Qed.
Print Assumptions C23_is_on_grid.

Theorem C23_iff_coordinates_of_a_site : forall size cl c,
  sizes_ok size -> Forall (fun x => - two63 <= x < two63) c -> length c = length size ->
  (IsOnGrid (HyperCubicGrid size cl) c = Ok true <->
   exists i, valid_site size i /\ GetCoordinates (HyperCubicGrid size cl) i = Ok c).
Proof.
  intros size cl c Hs Hc Hl. destruct (is_on_grid_spec size c Hc Hl) as [[E H]|[E H]].
  - split; [|intros _; exact E]. intros _. exists (row_major size c).
    split; [exact (row_major_range _ _ H)|exact (coords_of_index (HyperCubicGrid size cl) c Hs H)].
  - split; [unfold IsOnGrid; cbn [gsize HyperCubicGrid]; rewrite E; discriminate|].
    intros (i & Hi & Ei). exfalso. apply H.
    destruct (site_coords (HyperCubicGrid size cl) i Hs Hi) as (c' & E' & G & _).
    rewrite E' in Ei. injection Ei as <-. exact G.
Qed.
Print Assumptions C23_iff_coordinates_of_a_site.

Example C23_ex : IsOnGrid (HyperCubicGrid [3; 4] true) [2; 3] = Ok true /\
  IsOnGrid (HyperCubicGrid [3; 4] true) [2; 4] = Ok false /\
  IsOnGrid (HyperCubicGrid [3; 4] true) [-1; 0] = Ok false.
Proof. split; [|split]; vm_compute; reflexivity. Qed.

(** * C24  GetMappedSite / GetUnMappedSite, closed boundaries *)

Theorem C24_unmap_map : forall size a b,
  sizes_ok size -> valid_site size a -> valid_site size b ->
  exists i, GetMappedSite (HyperCubicGrid size true) a b = Ok i /\ valid_site size i /\
            GetUnMappedSite (HyperCubicGrid size true) i a = Ok b.
Proof. intros size a b. exact (mapped_valid (HyperCubicGrid size true) a b eq_refl). Qed.
Print Assumptions C24_unmap_map.

Theorem C24_map_unmap : forall size i a,
  sizes_ok size -> valid_site size i -> valid_site size a ->
  exists b, GetUnMappedSite (HyperCubicGrid size true) i a = Ok b /\ valid_site size b /\
            GetMappedSite (HyperCubicGrid size true) a b = Ok i.
Proof. intros size i a. exact (unmapped_valid (HyperCubicGrid size true) i a eq_refl). Qed.
Print Assumptions C24_map_unmap.

Theorem C24_map_self : forall size a,
  sizes_ok size -> valid_site size a -> GetMappedSite (HyperCubicGrid size true) a a = Ok 0.
Proof. intros size a. exact (mapped_self (HyperCubicGrid size true) a eq_refl). Qed.
Print Assumptions C24_map_self.

Theorem C24_map_from_origin : forall size b,
  sizes_ok size -> valid_site size b -> GetMappedSite (HyperCubicGrid size true) 0 b = Ok b.
Proof. intros size b. exact (mapped_from_origin (HyperCubicGrid size true) b eq_refl). Qed.
Print Assumptions C24_map_from_origin.

Theorem C24_map_coordinates : forall size a b ca cb,
  sizes_ok size -> valid_site size a -> valid_site size b ->
  GetCoordinates (HyperCubicGrid size true) a = Ok ca ->
  GetCoordinates (HyperCubicGrid size true) b = Ok cb ->
  (i <- GetMappedSite (HyperCubicGrid size true) a b ;;
   GetCoordinates (HyperCubicGrid size true) i) = Ok (seen_from size ca cb).
Proof. intros size a b ca cb. exact (mapped_coords (HyperCubicGrid size true) a b ca cb eq_refl). Qed.
Print Assumptions C24_map_coordinates.

(** The mapped site is a function of the displacement modulo the sizes, and
    determines it. *)
Theorem C24_map_is_displacement : forall size a b a' b' ca cb ca' cb',
  sizes_ok size -> valid_site size a -> valid_site size b -> valid_site size a' -> valid_site size b' ->
  GetCoordinates (HyperCubicGrid size true) a = Ok ca ->
  GetCoordinates (HyperCubicGrid size true) b = Ok cb ->
  GetCoordinates (HyperCubicGrid size true) a' = Ok ca' ->
  GetCoordinates (HyperCubicGrid size true) b' = Ok cb' ->
  (GetMappedSite (HyperCubicGrid size true) a b = GetMappedSite (HyperCubicGrid size true) a' b' <->
   same_displacement size ca cb ca' cb').
Proof.
  intros size a b a' b' ca cb ca' cb'.
  exact (mapped_same (HyperCubicGrid size true) a b a' b' ca cb ca' cb' eq_refl).
Qed.
Print Assumptions C24_map_is_displacement.

Theorem C24_translation_invariance : forall size i a b,
  sizes_ok size -> valid_site size i -> valid_site size a -> valid_site size b ->
  (a' <- GetUnMappedSite (HyperCubicGrid size true) i a ;;
   b' <- GetUnMappedSite (HyperCubicGrid size true) i b ;;
   GetMappedSite (HyperCubicGrid size true) a' b') = GetMappedSite (HyperCubicGrid size true) a b.
Proof. intros size i a b. exact (mapped_translation (HyperCubicGrid size true) i a b eq_refl). Qed.
Print Assumptions C24_translation_invariance.

Example C24_ex : GetMappedSite (HyperCubicGrid [3; 4] true) 11 2 = Ok 7 /\
  GetUnMappedSite (HyperCubicGrid [3; 4] true) 7 11 = Ok 2.
Proof. split; vm_compute; reflexivity. Qed.

(** * C25  GetMappedSite / GetUnMappedSite, open boundaries *)

(** Exact result: the difference of the indices modulo 2^64. *)
Theorem C25_open_result : forall size a b,
  sizes_ok size -> valid_site size a -> valid_site size b ->
  GetMappedSite (HyperCubicGrid size false) a b = Ok (u64 (b - a)) /\
  GetUnMappedSite (HyperCubicGrid size false) b a = Ok (u64 (a + b)).
Proof.
  intros size a b Hs Ha Hb. split.
  - exact (mapped_open (HyperCubicGrid size false) a b eq_refl Hs Ha Hb).
  - exact (unmapped_open (HyperCubicGrid size false) b a eq_refl Hs Hb Ha).
Qed.
Print Assumptions C25_open_result.

Theorem C25_open_valid_iff : forall size a b,
  sizes_ok size -> prodZ size <= two63 -> valid_site size a -> valid_site size b ->
  exists i, GetMappedSite (HyperCubicGrid size false) a b = Ok i /\ (valid_site size i <-> a <= b).
Proof. intros size a b. exact (mapped_open_valid (HyperCubicGrid size false) a b eq_refl). Qed.
Print Assumptions C25_open_valid_iff.

Theorem C25_open_always_valid_refuted :
  ~ (forall size a b, sizes_ok size -> valid_site size a -> valid_site size b ->
     exists i, GetMappedSite (HyperCubicGrid size false) a b = Ok i /\ valid_site size i).
Proof.
  intros H. destruct (H [3; 4] 1 0) as (i & E & Hi).
  - split; [repeat constructor; lia|reflexivity].
  - unfold valid_site, prodZ; simpl; lia.
  - unfold valid_site, prodZ; simpl; lia.
  - vm_compute in E. injection E as <-. unfold valid_site, prodZ in Hi; simpl in Hi. lia.
Qed.
Print Assumptions C25_open_always_valid_refuted.

(** A valid answer has the coordinates cb - ca exactly when b dominates a. *)
Theorem C25_open_right_iff_dominated : forall size a b ca cb,
  sizes_ok size -> valid_site size a -> valid_site size b -> a <= b ->
  GetCoordinates (HyperCubicGrid size false) a = Ok ca ->
  GetCoordinates (HyperCubicGrid size false) b = Ok cb ->
  ((i <- GetMappedSite (HyperCubicGrid size false) a b ;;
    GetCoordinates (HyperCubicGrid size false) i) = subtract_into cb ca <-> Forall2 Z.le ca cb).
Proof. intros size a b ca cb. exact (mapped_open_coords (HyperCubicGrid size false) a b ca cb eq_refl). Qed.
Print Assumptions C25_open_right_iff_dominated.

Theorem C25_dominated_is_valid : forall size cl a b ca cb,
  sizes_ok size -> valid_site size a -> valid_site size b ->
  GetCoordinates (HyperCubicGrid size cl) a = Ok ca ->
  GetCoordinates (HyperCubicGrid size cl) b = Ok cb -> Forall2 Z.le ca cb -> a <= b.
Proof. intros size cl. exact (dominated_le (HyperCubicGrid size cl)). Qed.
Print Assumptions C25_dominated_is_valid.

(** Site 3 = (0,3) is before site 4 = (1,0): the displacement (1,-3) is
    reported as site 1 = (0,1). *)
Example C25_ex : GetMappedSite (HyperCubicGrid [3; 4] false) 3 4 = Ok 1 /\
  GetMappedSite (HyperCubicGrid [3; 4] false) 1 0 = Ok (two64 - 1) /\
  GetMappedSite (HyperCubicGrid [3; 4] false) 5 11 = Ok 6.
Proof. split; [|split]; vm_compute; reflexivity. Qed.

(** * C26  GetJump *)

Theorem C26_closed_min_image : forall size a b ca cb,
  small_sizes size -> valid_site size a -> valid_site size b ->
  GetCoordinates (HyperCubicGrid size true) a = Ok ca ->
  GetCoordinates (HyperCubicGrid size true) b = Ok cb ->
  exists d j, subtract_into cb ca = Ok d /\ GetJump (HyperCubicGrid size true) a b = Ok j /\
    Forall3 min_image size d j.
Proof. intros size a b ca cb. exact (jump_closed (HyperCubicGrid size true) a b ca cb eq_refl). Qed.
Print Assumptions C26_closed_min_image.

(** No vector congruent to the displacement has a component shorter than that of the jump. *)
Theorem C26_min_image_is_shortest : forall size a b ca cb j,
  small_sizes size -> valid_site size a -> valid_site size b ->
  GetCoordinates (HyperCubicGrid size true) a = Ok ca -> GetCoordinates (HyperCubicGrid size true) b = Ok cb ->
  GetJump (HyperCubicGrid size true) a b = Ok j ->
  forall i s x y ji e, nth_error size i = Some s -> nth_error ca i = Some x -> nth_error cb i = Some y ->
  nth_error j i = Some ji -> (s | e - (y - x)) -> Z.abs ji <= Z.abs e.
Proof.
  intros size a b ca cb j Hs Ha Hb Ea Eb Ej i s x y ji e H1 H2 H3 H4.
  apply min_image_minimal. exact (jump_images (HyperCubicGrid size true) a b ca cb j eq_refl Hs Ha Hb Ea Eb Ej i s x y ji H1 H2 H3 H4).
Qed.
Print Assumptions C26_min_image_is_shortest.

Theorem C26_open_exact : forall size a b,
  sizes_ok size -> valid_site size a -> valid_site size b ->
  exists j ca cb, GetJump (HyperCubicGrid size false) a b = Ok j /\
    GetCoordinates (HyperCubicGrid size false) a = Ok ca /\
    GetCoordinates (HyperCubicGrid size false) b = Ok cb /\
    Forall3 (fun x y d => d = y - x) ca cb j.
Proof. intros size a b. exact (jump_open_total (HyperCubicGrid size false) a b eq_refl). Qed.
Print Assumptions C26_open_exact.

(** Reversal: components negate, except half-extent hops which stay positive. *)
Theorem C26_reverse : forall size a b j j',
  small_sizes size -> valid_site size a -> valid_site size b ->
  GetJump (HyperCubicGrid size true) a b = Ok j -> GetJump (HyperCubicGrid size true) b a = Ok j' ->
  forall i s x x', nth_error size i = Some s -> nth_error j i = Some x -> nth_error j' i = Some x' ->
  (2 * x <> s -> x' = - x) /\ (2 * x = s -> x' = x).
Proof. intros size a b j j'. exact (jump_reverse (HyperCubicGrid size true) a b j j' eq_refl). Qed.
Print Assumptions C26_reverse.

(** An extent of 2^32 is undefined behaviour, one of 2^33 gives the wrong image. *)
Theorem C26_large_extent_refuted :
  GetJump (HyperCubicGrid [2 ^ 32] true) 0 1 = UB /\
  GetJump (HyperCubicGrid [2 ^ 33] true) 0 (2 ^ 33 - 1) = Ok [2 ^ 33 - 1] /\
  ~ min_image (2 ^ 33) (2 ^ 33 - 1) (2 ^ 33 - 1).
Proof.
  split; [vm_compute; reflexivity|]. split; [vm_compute; reflexivity|].
  intros [_ H]. change (2 ^ 33) with 8589934592 in H. lia.
Qed.
Print Assumptions C26_large_extent_refuted.

Example C26_ex : small_sizes [4; 5] /\
  GetJump (HyperCubicGrid [4; 5] true) 0 19 = Ok [-1; -1] /\
  GetJump (HyperCubicGrid [4; 5] true) 0 12 = Ok [2; 2] /\
  GetJump (HyperCubicGrid [4; 5] true) 12 0 = Ok [2; -2] /\
  GetJump (HyperCubicGrid [4; 5] false) 19 0 = Ok [-3; -4].
Proof.
  split; [split; [repeat constructor; lia|reflexivity]|].
  split; [|split; [|split]]; vm_compute; reflexivity.
Qed.

(** * C27  Winding numbers *)

Theorem C27_walk_sum : forall size start walk,
  small_sizes size -> valid_site size start -> Forall (valid_site size) walk ->
  Z.of_nat (length walk) <= 2 ^ 32 ->
  exists t ca cb, walk_jumps (HyperCubicGrid size true) start walk (map (fun _ => 0) size) = Ok t /\
    GetCoordinates (HyperCubicGrid size true) start = Ok ca /\
    GetCoordinates (HyperCubicGrid size true) (last walk start) = Ok cb /\
    hops_sum (Z.of_nat (length walk)) size ca cb t.
Proof. intros size start walk. exact (walk_any (HyperCubicGrid size true) start walk eq_refl). Qed.
Print Assumptions C27_walk_sum.

Theorem C27_closed_walk : forall size start walk,
  small_sizes size -> valid_site size start -> Forall (valid_site size) walk ->
  last walk start = start -> Z.of_nat (length walk) <= 2 ^ 32 ->
  exists k t, walk_jumps (HyperCubicGrid size true) start walk (map (fun _ => 0) size) = Ok t /\
    Forall3 (fun s x y => y = x * s /\ 2 * Z.abs x <= Z.of_nat (length walk)) size k t /\
    GetWinding (HyperCubicGrid size true) t = Ok k.
Proof. intros size start walk. exact (closed_walk_winding (HyperCubicGrid size true) start walk eq_refl). Qed.
Print Assumptions C27_closed_walk.

Theorem C27_open_walk : forall size start walk,
  sizes_ok size -> valid_site size start -> Forall (valid_site size) walk ->
  exists t ca cb, walk_jumps (HyperCubicGrid size false) start walk (map (fun _ => 0) size) = Ok t /\
    GetCoordinates (HyperCubicGrid size false) start = Ok ca /\
    GetCoordinates (HyperCubicGrid size false) (last walk start) = Ok cb /\
    Forall3 (fun x y d => d = y - x) ca cb t.
Proof. intros size start walk. exact (open_walk_total (HyperCubicGrid size false) start walk eq_refl). Qed.
Print Assumptions C27_open_walk.

Theorem C27_open_closed_walk_is_zero : forall size start walk,
  sizes_ok size -> valid_site size start -> Forall (valid_site size) walk ->
  last walk start = start ->
  walk_jumps (HyperCubicGrid size false) start walk (map (fun _ => 0) size) = Ok (map (fun _ => 0) size) /\
  GetWinding (HyperCubicGrid size false) (map (fun _ => 0) size) = Ok (map (fun _ => 0) size).
Proof. intros size start walk. exact (open_walk_winding (HyperCubicGrid size false) start walk eq_refl). Qed.
Print Assumptions C27_open_closed_walk_is_zero.

(** A walk that retraces its steps need not have winding zero: on an extent of
    2 (in general after a hop of half an even extent) going there and back
    counts as one winding. *)
Theorem C27_retraced_walk_winds_zero_refuted :
  ~ (forall size a b t, small_sizes size -> valid_site size a -> valid_site size b ->
     walk_jumps (HyperCubicGrid size true) a [b; a] (map (fun _ => 0) size) = Ok t ->
     GetWinding (HyperCubicGrid size true) t = Ok (map (fun _ => 0) size)).
Proof.
  intros H. specialize (H [2] 0 1 [2]).
  assert (E : GetWinding (HyperCubicGrid [2] true) [2] = Ok [0]).
  { apply H; try (unfold valid_site, prodZ; simpl; lia).
    - split; [repeat constructor; lia|reflexivity].
    - vm_compute; reflexivity. }
  vm_compute in E. discriminate.
Qed.
Print Assumptions C27_retraced_walk_winds_zero_refuted.

(** Around a ring of 3, twice. *)
Example C27_ex :
  walk_jumps (HyperCubicGrid [3; 4] true) 0 [4; 8; 0; 4; 8; 0] [0; 0] = Ok [6; 0] /\
  GetWinding (HyperCubicGrid [3; 4] true) [6; 0] = Ok [2; 0].
Proof. split; vm_compute; reflexivity. Qed.

(** * C28  Pair indices of a grid *)

Theorem C28_individual_of_pair : forall size cl a b,
  sizes_ok size -> prodZ size <= 2 ^ 32 -> valid_site size a -> valid_site size b ->
  GetIndividualIndices (HyperCubicGrid size cl) (GridPairIndex (HyperCubicGrid size cl) a b) = Ok (a, b).
Proof.
  intros size cl a b Hs Hp Ha Hb. unfold GetIndividualIndices, GridPairIndex, valid_site in *.
  pose proof (numsites_spec size cl Hs) as [E _]. unfold GetNumSites in E. rewrite E.
  change (2 ^ 32) with 4294967296 in Hp. apply pair_round_trip; try lia.
  rewrite two64_eq. nia.
Qed.
Print Assumptions C28_individual_of_pair.

Theorem C28_pair_of_individual : forall size cl i,
  sizes_ok size -> prodZ size < 2 ^ 32 -> 0 <= i < prodZ size * prodZ size ->
  exists a b, GetIndividualIndices (HyperCubicGrid size cl) i = Ok (a, b) /\
    valid_site size a /\ valid_site size b /\ GridPairIndex (HyperCubicGrid size cl) a b = i.
Proof.
  intros size cl i Hs Hp Hi. unfold GetIndividualIndices, GridPairIndex, valid_site in *.
  pose proof (numsites_spec size cl Hs) as [E Hpos]. unfold GetNumSites in E. rewrite E.
  change (2 ^ 32) with 4294967296 in Hp.
  destruct (pair_round_trip' i (prodZ size)) as (a & b & E' & Ha & Hb & Ei); [rewrite two64_eq; nia|lia|].
  exists a, b. repeat split; auto; try lia.
  unfold GetPair in E'. destruct (Z.eqb_spec (prodZ size) 0); [lia|]. injection E' as <- <-.
  apply Z.div_lt_upper_bound; nia.
Qed.
Print Assumptions C28_pair_of_individual.

Theorem C28_num_pairs : forall size cl,
  sizes_ok size -> prodZ size < 2 ^ 32 ->
  numpairs (HyperCubicGrid size cl) = prodZ size * prodZ size.
Proof.
  intros size cl Hs Hp. pose proof (numsites_spec size cl Hs) as [E Hpos].
  unfold GetNumSites in E. unfold HyperCubicGrid in *. cbn [numpairs numsites] in *. rewrite E.
  apply u64_small. change (2 ^ 32) with 4294967296 in Hp. rewrite two64_eq. nia.
Qed.
Print Assumptions C28_num_pairs.

Example C28_ex : GridPairIndex (HyperCubicGrid [3; 4] true) 7 11 = 139 /\
  GetIndividualIndices (HyperCubicGrid [3; 4] true) 139 = Ok (7, 11).
Proof. split; reflexivity. Qed.
