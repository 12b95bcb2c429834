(** Lemmas about the grid model. *)
From Coq Require Import ZArith List Bool Lia Znumtheory.
From Verif Require Import Base S_Math S_Grid M_MathInt M_Pairs M_Grid L_MathInt.
Import ListNotations.
Open Scope Z_scope.

Local Arguments Z.mul : simpl never.
Local Arguments Z.sub : simpl never.
Local Arguments Z.add : simpl never.
Local Arguments Z.modulo : simpl never.
Local Arguments Z.pow : simpl never.

(** ** Conversions *)

Lemma to_s64_small z : - two63 <= z < two63 -> to_s64 z = z.
Proof.
  intros H. unfold to_s64. rewrite two63_eq, two64_eq in *.
  destruct (Z_lt_le_dec z 0).
  - rewrite <- (Z.mod_add z 1) by lia. rewrite Z.mod_small by lia.
    destruct (Z.ltb_spec (z + 1 * 18446744073709551616) 9223372036854775808); lia.
  - rewrite Z.mod_small by lia. destruct (Z.ltb_spec z 9223372036854775808); lia.
Qed.

Lemma to_s64_u64 z : to_s64 (u64 z) = to_s64 z.
Proof. unfold to_s64, u64. rewrite Zmod_mod. reflexivity. Qed.

Lemma to_s64_big z : two63 <= z < two64 -> to_s64 z = z - two64.
Proof.
  intros H. unfold to_s64. rewrite two63_eq, two64_eq in *. rewrite Z.mod_small by lia.
  destruct (Z.ltb_spec z 9223372036854775808); lia.
Qed.

Lemma to_s32_small z : - 2 ^ 31 <= z < 2 ^ 31 -> to_s32 z = z.
Proof.
  intros H. unfold to_s32. change (2 ^ 31) with 2147483648 in *.
  change (2 ^ 32) with 4294967296. destruct (Z_lt_le_dec z 0).
  - rewrite <- (Z.mod_add z 1) by lia. rewrite Z.mod_small by lia.
    destruct (Z.ltb_spec (z + 1 * 4294967296) 2147483648); lia.
  - rewrite Z.mod_small by lia. destruct (Z.ltb_spec z 2147483648); lia.
Qed.

(** ** Enforcing boundaries *)

Lemma mod_unique s c c0 : 0 < s -> (s | c - c0) -> 0 <= c < s -> c = c0 mod s.
Proof.
  intros Hs [k Hk] Hc. apply Z.mod_unique with (- k); lia.
Qed.

Lemma divide_step s c c0 k : (s | c - c0) -> (s | c + k * s - c0).
Proof. intros [j Hj]. exists (j + k). lia. Qed.

Lemma enforce_gen (s c : Z) (up down : Z -> Z + out Z) :
  0 < s < two63 -> - two63 <= c < two63 ->
  (forall x, - two63 <= x < two63 -> up x = if x <? 0 then inl (x + s) else inr (Ok x)) ->
  (forall x, - two63 <= x < two63 -> down x = if s <=? x then inl (x - s) else inr (Ok x)) ->
  (c1 <- while_ up c ;; while_ down c1) = Ok (c mod s).
Proof.
  intros Hs Hc Hup Hdown.
  assert (E1 : exists c1, while_ up c = Ok c1 /\ (0 <= c1 < two63) /\ (s | c1 - c)).
  { refine (while_total up (fun x => - two63 <= x < two63 /\ (s | x - c))
      (fun r => exists c1, r = Ok c1 /\ (0 <= c1 < two63) /\ (s | c1 - c))
      (fun x => Z.max 0 (- x)) c _ _ _).
    - intros x [Hx Hd]. rewrite Hup by assumption. destruct (Z.ltb_spec x 0).
      + split; [|lia]. split; [lia|]. replace (x + s) with (x + 1 * s) by lia.
        now apply divide_step.
      + exists x. repeat split; auto; lia.
    - split; [assumption|]. exists 0. lia.
    - rewrite two63_eq in Hc. lia. }
  destruct E1 as (c1 & -> & Hr & Hd). cbn [bind].
  refine (while_total down (fun x => 0 <= x < two63 /\ (s | x - c))
      (fun r => r = Ok (c mod s)) (fun x => x) c1 _ _ _).
  - intros x [Hx Hdx]. rewrite Hdown by lia. destruct (Z.leb_spec s x).
    + split; [|lia]. split; [lia|]. replace (x - s) with (x + (-1) * s) by lia.
      now apply divide_step.
    + f_equal. apply mod_unique; auto; lia.
  - auto.
  - rewrite two63_eq in Hr. lia.
Qed.

Lemma enforce1_spec s c :
  0 < s < two63 -> - two63 <= c < two63 -> enforce1 s c = Ok (c mod s).
Proof.
  intros Hs Hc. unfold enforce1. rewrite to_s64_small by lia.
  apply (enforce_gen s c (enforce_up s) (enforce_down s)); auto; intros x Hx.
  - unfold enforce_up. destruct (Z.ltb_spec x 0); [|reflexivity].
    rewrite s64_ok by lia. reflexivity.
  - unfold enforce_down. destruct (Z.leb_spec s x); [|reflexivity].
    rewrite s64_ok by lia. reflexivity.
Qed.

Lemma lenforce1_spec s c :
  0 < s < two63 -> - two63 <= c < two63 -> lenforce1 s c = Ok (c mod s).
Proof.
  intros Hs Hc. unfold lenforce1.
  apply (enforce_gen s c (lenforce_up s) (lenforce_down s)); auto; intros x Hx.
  - unfold lenforce_up. destruct (Z.ltb_spec x 0); [|reflexivity].
    rewrite to_s64_u64, to_s64_small by lia. reflexivity.
  - unfold lenforce_down. rewrite to_s64_small by lia. destruct (Z.leb_spec s x); [|reflexivity].
    rewrite to_s64_u64, to_s64_small by lia. reflexivity.
Qed.

(** A zero size never terminates, a size of 2^63 or more overflows. *)
Lemma enforce1_zero c : - two63 <= c < two63 -> enforce1 0 c = Diverge.
Proof.
  intros Hc. unfold enforce1. change (to_s64 0) with 0.
  destruct (Z_lt_le_dec c 0).
  - rewrite (while_diverge (enforce_up 0) (fun x => - two63 <= x < 0) c); [reflexivity| |lia].
    intros x Hx. exists x. split; [|assumption]. unfold enforce_up.
    destruct (Z.ltb_spec x 0); [|lia]. rewrite s64_ok by (pose proof two63_pos; lia).
    f_equal. lia.
  - assert (E : while_ (enforce_up 0) c = Ok c).
    { refine (while_total (enforce_up 0) (fun x => x = c) (fun r => r = Ok c) (fun x => 0) c _ _ _);
        [|reflexivity|lia].
      intros x ->. unfold enforce_up. destruct (Z.ltb_spec c 0); [lia|reflexivity]. }
    rewrite E. cbn [bind].
    apply (while_diverge (enforce_down 0) (fun x => 0 <= x < two63) c); [|lia].
    intros x Hx. exists x. split; [|assumption]. unfold enforce_down.
    destruct (Z.leb_spec 0 x); [|lia]. rewrite s64_ok by (pose proof two63_pos; lia).
    f_equal. lia.
Qed.

Lemma lenforce1_zero c : - two63 <= c < two63 -> lenforce1 0 c = Diverge.
Proof.
  intros Hc. unfold lenforce1. change (to_s64 0) with 0.
  destruct (Z_lt_le_dec c 0).
  - rewrite (while_diverge (lenforce_up 0) (fun x => - two63 <= x < 0) c); [reflexivity| |lia].
    intros x Hx. exists x. split; [|assumption]. unfold lenforce_up.
    destruct (Z.ltb_spec x 0); [|lia].
    rewrite to_s64_u64, to_s64_small by (pose proof two63_pos; lia). f_equal. lia.
  - assert (E : while_ (lenforce_up 0) c = Ok c).
    { refine (while_total (lenforce_up 0) (fun x => x = c) (fun r => r = Ok c) (fun x => 0) c _ _ _);
        [|reflexivity|lia].
      intros x ->. unfold lenforce_up. destruct (Z.ltb_spec c 0); [lia|reflexivity]. }
    rewrite E. cbn [bind].
    apply (while_diverge (lenforce_down 0) (fun x => 0 <= x < two63) c); [|lia].
    intros x Hx. exists x. split; [|assumption]. unfold lenforce_down.
    change (to_s64 0) with 0.
    destruct (Z.leb_spec 0 x); [|lia].
    rewrite to_s64_u64, to_s64_small by (pose proof two63_pos; lia). f_equal. lia.
Qed.

Lemma enforce1_huge s c :
  two63 <= s < two64 -> - two63 <= c < two63 -> enforce1 s c = UB.
Proof.
  intros Hs Hc. unfold enforce1. rewrite to_s64_big by assumption.
  set (t := s - two64). assert (Ht : - two63 <= t < 0) by (unfold t; rewrite two64_double in *; lia).
  destruct (Z_lt_le_dec c 0).
  - assert (E : while_ (enforce_up t) c = UB); [|rewrite E; reflexivity].
    refine (while_total (enforce_up t) (fun x => - two63 <= x < 0) (fun r => r = UB)
              (fun x => x + two63) c _ _ _); [|lia|rewrite two63_eq in *; lia].
    intros x Hx. unfold enforce_up. destruct (Z.ltb_spec x 0); [|lia].
    destruct (sint_cases 64 (x + t)) as [[E Hr]|[E Hr]]; unfold s64; rewrite E.
    + change (2 ^ (64 - 1)) with two63 in Hr. lia.
    + reflexivity.
  - assert (E : while_ (enforce_up t) c = Ok c).
    { refine (while_total (enforce_up t) (fun x => x = c) (fun r => r = Ok c) (fun x => 0) c _ _ _);
        [|reflexivity|lia].
      intros x ->. unfold enforce_up. destruct (Z.ltb_spec c 0); [lia|reflexivity]. }
    rewrite E. cbn [bind].
    refine (while_total (enforce_down t) (fun x => 0 <= x < two63) (fun r => r = UB)
              (fun x => two63 - x) c _ _ _); [|lia|rewrite two63_eq in *; lia].
    intros x Hx. unfold enforce_down. destruct (Z.leb_spec t x); [|lia].
    destruct (sint_cases 64 (x - t)) as [[E' Hr]|[E' Hr]]; unfold s64; rewrite E'.
    + change (2 ^ (64 - 1)) with two63 in Hr. lia.
    + reflexivity.
Qed.

(** ** Coordinate vectors *)

Definition s64s (c : list Z) : Prop := Forall (fun x => - two63 <= x < two63) c.

Lemma each_coord_spec f (P Q : Z -> Prop) (g : Z -> Z -> Z) size c :
  (forall s x, P s -> Q x -> f s x = Ok (g s x)) ->
  Forall P size -> Forall Q c -> length size = length c ->
  each_coord f size c = Ok (map3 (fun s x _ => g s x) size c c).
Proof.
  intros Hf HP; revert c; induction HP as [|s size Hs HP IH]; intros [|x c] HQ Hl;
    simpl in *; try discriminate; [reflexivity|].
  inversion HQ; subst. rewrite Hf by assumption. cbn [bind].
  rewrite IH by (auto; lia). reflexivity.
Qed.

Lemma reduced_on_grid size c :
  Forall (fun s => 0 < s) size -> length size = length c -> on_grid size (reduced_mod size c).
Proof.
  intros H; revert c; induction H as [|s size Hs H IH]; intros [|x c] Hl; simpl in *; try discriminate.
  - constructor.
  - unfold reduced_mod. cbn [map3]. constructor; [apply Z.mod_pos_bound; lia|].
    apply IH. lia.
Qed.

Lemma reduced_fixed size c : on_grid size c -> reduced_mod size c = c.
Proof.
  unfold reduced_mod. induction 1 as [|s x size c Hx H IH]; [reflexivity|]. cbn [map3].
  rewrite Z.mod_small by assumption. f_equal. exact IH.
Qed.

(** The reduced vector is the only on-grid vector congruent to the input. *)
Lemma reduced_congruent size c :
  Forall (fun s => 0 < s) size -> length size = length c ->
  Forall3 (fun s x y => (s | y - x)) size c (reduced_mod size c).
Proof.
  intros H; revert c; induction H as [|s size Hs H IH]; intros [|x c] Hl; simpl in *; try discriminate.
  - constructor.
  - unfold reduced_mod; cbn [map3]. constructor; [|apply IH; lia].
    exists (- (x / s)). pose proof (Z.div_mod x s ltac:(lia)). lia.
Qed.

Lemma reduced_unique size c d :
  on_grid size d -> Forall3 (fun s x y => (s | y - x)) size c d -> d = reduced_mod size c.
Proof.
  intros Hg H; revert Hg. induction H as [|s x y size c d Hd H IH]; intros Hg; [reflexivity|].
  inversion Hg; subst. unfold reduced_mod; cbn [map3]. f_equal; [|now apply IH].
  apply mod_unique; auto; lia.
Qed.

Lemma Forall_lt63 size : Forall (fun s => 0 < s <= 2 ^ 62) size -> Forall (fun s => 0 < s < two63) size.
Proof.
  apply Forall_impl. intros s Hs. change (2 ^ 62) with 4611686018427387904 in Hs.
  rewrite two63_eq. lia.
Qed.

Lemma enforce_closed g c :
  closed g = true -> Forall (fun s => 0 < s < two63) (gsize g) -> s64s c ->
  length c = length (gsize g) ->
  EnforceBoundaries g c = Ok (reduced_mod (gsize g) c).
Proof.
  intros Hcl Hs Hc Hl. unfold EnforceBoundaries. rewrite Hcl.
  apply (each_coord_spec enforce1 (fun s => 0 < s < two63) (fun x => - two63 <= x < two63)
           (fun s x => x mod s)); auto.
  intros s x. apply enforce1_spec.
Qed.

Lemma lenforce_any g c :
  Forall (fun s => 0 < s < two63) (gsize g) -> s64s c ->
  length c = length (gsize g) ->
  LatticeEnforceBoundaries g c = Ok (reduced_mod (gsize g) c).
Proof.
  intros Hs Hc Hl. unfold LatticeEnforceBoundaries.
  apply (each_coord_spec lenforce1 (fun s => 0 < s < two63) (fun x => - two63 <= x < two63)
           (fun s x => x mod s)); auto.
  intros s x. apply lenforce1_spec.
Qed.

Lemma each_coord_app f s1 s c1 x :
  length s1 = length c1 ->
  forall s2 c2, each_coord f (s1 ++ s :: s2) (c1 ++ x :: c2) =
  (r1 <- each_coord f s1 c1 ;; r <- each_coord f (s :: s2) (x :: c2) ;; Ok (r1 ++ r)).
Proof.
  intros Hl s2 c2; revert c1 Hl; induction s1 as [|a s1 IH]; intros [|b c1] Hl;
    simpl in Hl; try discriminate.
  - cbn [each_coord bind app]. destruct (f s x); cbn [bind]; try reflexivity.
    destruct (each_coord f s2 c2); reflexivity.
  - change ((a :: s1) ++ s :: s2) with (a :: (s1 ++ s :: s2)).
    change ((b :: c1) ++ x :: c2) with (b :: (c1 ++ x :: c2)).
    set (t := each_coord f (s :: s2) (x :: c2)) in *.
    cbn [each_coord]. rewrite IH by lia. destruct (f a b); cbn [bind]; try reflexivity.
    destruct (each_coord f s1 c1); cbn [bind]; try reflexivity.
    destruct t; cbn [bind]; reflexivity.
Qed.

(** The first zero extent makes the call hang. *)
Lemma each_coord_zero_diverges f s1 s2 c1 x c2 :
  (forall s y, 0 < s < two63 -> - two63 <= y < two63 -> f s y = Ok (y mod s)) ->
  (forall y, - two63 <= y < two63 -> f 0 y = Diverge) ->
  Forall (fun s => 0 < s < two63) s1 -> length s1 = length c1 ->
  s64s (c1 ++ x :: c2) ->
  each_coord f (s1 ++ 0 :: s2) (c1 ++ x :: c2) = Diverge.
Proof.
  intros Hf H0 Hs Hl Hc. apply Forall_app in Hc as [Hc1 Hc2]. inversion Hc2; subst.
  rewrite each_coord_app by assumption.
  rewrite (each_coord_spec f (fun s => 0 < s < two63) (fun x => - two63 <= x < two63)
           (fun s x => x mod s)) by auto.
  cbn [bind each_coord]. rewrite H0 by assumption. reflexivity.
Qed.

(** ** Indices *)

Lemma sizes_pos size : sizes_ok size -> Forall (fun s => 0 < s) size.
Proof. intros [H _]. eapply Forall_impl; [|exact H]. simpl; lia. Qed.

Lemma sizes_63 size : sizes_ok size -> Forall (fun s => 0 < s <= two63) size.
Proof. intros [H _]. eapply Forall_impl; [|exact (Forall_lt63 _ H)]. simpl; lia. Qed.

Lemma numsites_spec size cl :
  sizes_ok size -> GetNumSites (HyperCubicGrid size cl) = prodZ size /\ 0 < prodZ size.
Proof.
  intros H. pose proof (prodZ_pos _ (sizes_pos _ H)). unfold GetNumSites, HyperCubicGrid; cbn.
  rewrite accumulate_product_u_spec. split; [|assumption]. apply u64_small. split; [lia|apply H].
Qed.

Lemma coords_of_index g c :
  sizes_ok (gsize g) -> on_grid (gsize g) c -> GetCoordinates g (row_major (gsize g) c) = Ok c.
Proof.
  intros H Hc. apply index_to_array_row_major; [assumption| |apply H].
  eapply Forall_impl; [|exact (sizes_63 _ H)]. simpl; lia.
Qed.

Lemma index_of_coords g c :
  sizes_ok (gsize g) -> on_grid (gsize g) c -> GetIndex g c = Ok (row_major (gsize g) c).
Proof. intros H Hc. apply array_to_index_spec; [assumption|apply H]. Qed.

Lemma site_coords g i :
  sizes_ok (gsize g) -> 0 <= i < prodZ (gsize g) ->
  exists c, GetCoordinates g i = Ok c /\ on_grid (gsize g) c /\ row_major (gsize g) c = i.
Proof. intros H Hi. apply index_to_array_spec; [now apply sizes_63|apply H|assumption]. Qed.

Lemma is_on_grid_spec size c :
  Forall (fun x => - two63 <= x < two63) c -> length c = length size ->
  (is_on_grid size c = Ok true /\ on_grid size c) \/
  (is_on_grid size c = Ok false /\ ~ on_grid size c).
Proof.
  intros H; revert size; induction H as [|x c Hx H IH]; intros [|s size] Hl; simpl in Hl; try discriminate.
  - left. split; [reflexivity|constructor].
  - cbn [is_on_grid]. destruct (Z.ltb_spec x 0).
    { right. split; [reflexivity|]. intros Hg; inversion Hg; subst; lia. }
    cbn [orb]. rewrite u64_small by (rewrite two64_double; lia).
    destruct (Z.leb_spec s x).
    { right. split; [reflexivity|]. intros Hg; inversion Hg; subst; lia. }
    destruct (IH size ltac:(lia)) as [[-> Hg]|[-> Hg]].
    + left. split; [reflexivity|]. constructor; [lia|assumption].
    + right. split; [reflexivity|]. intros Hg'. inversion Hg'; subst. tauto.
Qed.

(** ** Mapping *)

Lemma subtract_grid size ca cb :
  Forall (fun s => 0 < s <= 2 ^ 62) size -> on_grid size ca -> on_grid size cb ->
  subtract_into cb ca = Ok (map3 (fun _ x y => y - x) size ca cb) /\
  s64s (map3 (fun _ x y => y - x) size ca cb) /\
  length (map3 (fun _ x y => y - x) size ca cb) = length size.
Proof.
  intros Hs Ha; revert cb Hs; induction Ha as [|s x size ca Hx Ha IH]; intros cb Hs Hb.
  - inversion Hb; subst. repeat split; constructor.
  - inversion Hb as [|s' y size' cb' Hy Hb']; subst. inversion Hs; subst.
    destruct (IH cb' H2 Hb') as (E & R & L). cbn [map3 subtract_into].
    assert (- two63 <= y - x < two63).
    { rewrite two63_eq. change (2 ^ 62) with 4611686018427387904 in *. lia. }
    rewrite s64_ok by assumption. cbn [bind]. rewrite E. repeat split.
    + constructor; assumption.
    + simpl. lia.
Qed.

Lemma sum_grid size ca cb :
  Forall (fun s => 0 < s <= 2 ^ 62) size -> on_grid size ca -> on_grid size cb ->
  sum_into ca cb = Ok (map3 (fun _ x y => x + y) size ca cb) /\
  s64s (map3 (fun _ x y => x + y) size ca cb) /\
  length (map3 (fun _ x y => x + y) size ca cb) = length size.
Proof.
  intros Hs Ha; revert cb Hs; induction Ha as [|s x size ca Hx Ha IH]; intros cb Hs Hb.
  - inversion Hb; subst. repeat split; constructor.
  - inversion Hb as [|s' y size' cb' Hy Hb']; subst. inversion Hs; subst.
    destruct (IH cb' H2 Hb') as (E & R & L). cbn [map3 sum_into].
    assert (- two63 <= x + y < two63).
    { rewrite two63_eq. change (2 ^ 62) with 4611686018427387904 in *. lia. }
    rewrite s64_ok by assumption. cbn [bind]. rewrite E. repeat split.
    + constructor; assumption.
    + simpl. lia.
Qed.

Lemma map3_map3 f h size a b :
  map3 (fun s x _ => f s x) size (map3 h size a b) (map3 h size a b) =
  map3 (fun s x y => f s (h s x y)) size a b.
Proof.
  revert a b; induction size as [|s size IH]; intros [|x a] [|y b]; simpl; try reflexivity.
  f_equal. apply IH.
Qed.

Lemma map3_on_grid f size a b :
  (forall s x y, 0 <= x < s -> 0 <= y < s -> 0 <= f s x y < s) ->
  on_grid size a -> on_grid size b -> on_grid size (map3 f size a b).
Proof.
  intros Hf Ha; revert b; induction Ha as [|s x size a Hx Ha IH]; intros b Hb; inversion Hb; subst.
  - constructor.
  - cbn [map3]. constructor; [now apply Hf|now apply IH].
Qed.

Lemma seen_from_on_grid size a b :
  on_grid size a -> on_grid size b -> on_grid size (seen_from size a b).
Proof. apply map3_on_grid. intros. apply Z.mod_pos_bound. lia. Qed.

Lemma moved_by_on_grid size a b :
  on_grid size a -> on_grid size b -> on_grid size (moved_by size a b).
Proof. apply map3_on_grid. intros. apply Z.mod_pos_bound. lia. Qed.

Lemma mapped_closed g ca cb :
  closed g = true -> sizes_ok (gsize g) -> on_grid (gsize g) ca -> on_grid (gsize g) cb ->
  GetMappedSite g (row_major (gsize g) ca) (row_major (gsize g) cb) =
  Ok (row_major (gsize g) (seen_from (gsize g) ca cb)).
Proof.
  intros Hcl Hs Ha Hb. unfold GetMappedSite.
  rewrite !coords_of_index by assumption. cbn [bind].
  destruct (subtract_grid (gsize g) ca cb (proj1 Hs) Ha Hb) as (-> & R & L). cbn [bind].
  rewrite (enforce_closed g _ Hcl (Forall_lt63 _ (proj1 Hs)) R L). cbn [bind].
  unfold reduced_mod. rewrite (map3_map3 (fun s x => x mod s)).
  apply index_of_coords; [assumption|]. now apply seen_from_on_grid.
Qed.

Lemma unmapped_closed g ci ca :
  closed g = true -> sizes_ok (gsize g) -> on_grid (gsize g) ca -> on_grid (gsize g) ci ->
  GetUnMappedSite g (row_major (gsize g) ci) (row_major (gsize g) ca) =
  Ok (row_major (gsize g) (moved_by (gsize g) ca ci)).
Proof.
  intros Hcl Hs Ha Hb. unfold GetUnMappedSite.
  rewrite !coords_of_index by assumption. cbn [bind].
  destruct (sum_grid (gsize g) ca ci (proj1 Hs) Ha Hb) as (-> & R & L). cbn [bind].
  rewrite (enforce_closed g _ Hcl (Forall_lt63 _ (proj1 Hs)) R L). cbn [bind].
  unfold reduced_mod. rewrite (map3_map3 (fun s x => x mod s)).
  apply index_of_coords; [assumption|]. now apply moved_by_on_grid.
Qed.

Lemma add_sub_mod s x y : 0 <= x < s -> 0 <= y < s -> (x + (y - x) mod s) mod s = y.
Proof.
  intros Hx Hy. rewrite Zplus_mod_idemp_r. replace (x + (y - x)) with y by lia.
  now apply Z.mod_small.
Qed.

Lemma sub_add_mod s x y : 0 <= x < s -> 0 <= y < s -> ((x + y) mod s - x) mod s = y.
Proof.
  intros Hx Hy. rewrite Zminus_mod_idemp_l. replace (x + y - x) with y by lia.
  now apply Z.mod_small.
Qed.

Lemma moved_seen size a b :
  on_grid size a -> on_grid size b -> moved_by size a (seen_from size a b) = b.
Proof.
  unfold moved_by, seen_from.
  intros Ha; revert b; induction Ha as [|s x size a Hx Ha IH]; intros b Hb; inversion Hb; subst.
  - reflexivity.
  - cbn [map3]. rewrite IH by assumption. rewrite add_sub_mod by assumption. reflexivity.
Qed.

Lemma seen_moved size a d :
  on_grid size a -> on_grid size d -> seen_from size a (moved_by size a d) = d.
Proof.
  unfold moved_by, seen_from.
  intros Ha; revert d; induction Ha as [|s x size a Hx Ha IH]; intros b Hb; inversion Hb; subst.
  - reflexivity.
  - cbn [map3]. rewrite IH by assumption. rewrite sub_add_mod by assumption. reflexivity.
Qed.

Definition origin (size : list Z) : list Z := map (fun _ => 0) size.

Lemma origin_on_grid size : Forall (fun s => 0 < s) size -> on_grid size (origin size).
Proof. unfold origin. induction 1; simpl; constructor; auto; lia. Qed.

Lemma origin_index size : row_major size (origin size) = 0.
Proof. unfold origin. induction size as [|s size IH]; cbn [row_major map]; [reflexivity|]. rewrite IH. lia. Qed.

Lemma seen_self size a : on_grid size a -> seen_from size a a = origin size.
Proof.
  unfold seen_from, origin. induction 1 as [|s x size a Hx Ha IH]; [reflexivity|]. cbn [map3 map].
  rewrite IH. f_equal. rewrite Z.sub_diag. apply Z.mod_0_l. lia.
Qed.

Lemma seen_origin size b : on_grid size b -> seen_from size (origin size) b = b.
Proof.
  unfold seen_from, origin. induction 1 as [|s x size a Hx Ha IH]; [reflexivity|]. cbn [map3 map].
  rewrite IH. f_equal. rewrite Z.sub_0_r. now apply Z.mod_small.
Qed.

Lemma mod_eq_divide s x y : 0 < s -> (x mod s = y mod s <-> (s | x - y)).
Proof.
  intros Hs. split.
  - intros E. exists (x / s - y / s). pose proof (Z.div_mod x s ltac:(lia)).
    pose proof (Z.div_mod y s ltac:(lia)). lia.
  - intros [k Hk]. replace x with (y + k * s) by lia. apply Z.mod_add. lia.
Qed.

Lemma seen_same size a b a' b' :
  on_grid size a -> on_grid size b -> on_grid size a' -> on_grid size b' ->
  (seen_from size a b = seen_from size a' b' <-> same_displacement size a b a' b').
Proof.
  unfold seen_from. intros Ha; revert b a' b'; induction Ha as [|s x size a Hx Ha IH];
    intros b a' b' Hb Ha' Hb'; inversion Hb; inversion Ha'; inversion Hb'; subst.
  - split; [constructor|reflexivity].
  - cbn [map3]. split.
    + intros E. injection E as E1 E2. constructor.
      * apply mod_eq_divide; [lia|assumption].
      * eapply IH; eauto.
    + intros E. inversion E; subst. f_equal.
      * apply mod_eq_divide; [lia|assumption].
      * eapply IH; eauto.
Qed.

(** ** Site-level statements for closed grids *)

Definition site (g : grid) (i : Z) : Prop := valid_site (gsize g) i.

Lemma mapped_valid g a b :
  closed g = true -> sizes_ok (gsize g) -> site g a -> site g b ->
  exists i, GetMappedSite g a b = Ok i /\ site g i /\ GetUnMappedSite g i a = Ok b.
Proof.
  intros Hcl Hs Ha Hb.
  destruct (site_coords g a Hs Ha) as (ca & _ & Ga & <-).
  destruct (site_coords g b Hs Hb) as (cb & _ & Gb & <-).
  pose proof (seen_from_on_grid _ _ _ Ga Gb) as Gs.
  eexists. split; [apply mapped_closed; assumption|]. split.
  - apply row_major_range. assumption.
  - rewrite unmapped_closed by assumption. rewrite moved_seen by assumption. reflexivity.
Qed.

Lemma unmapped_valid g i a :
  closed g = true -> sizes_ok (gsize g) -> site g i -> site g a ->
  exists b, GetUnMappedSite g i a = Ok b /\ site g b /\ GetMappedSite g a b = Ok i.
Proof.
  intros Hcl Hs Hi Ha.
  destruct (site_coords g a Hs Ha) as (ca & _ & Ga & <-).
  destruct (site_coords g i Hs Hi) as (ci & _ & Gi & <-).
  pose proof (moved_by_on_grid _ _ _ Ga Gi) as Gs.
  eexists. split; [apply unmapped_closed; assumption|]. split.
  - apply row_major_range. assumption.
  - rewrite mapped_closed by assumption. rewrite seen_moved by assumption. reflexivity.
Qed.

Lemma mapped_self g a :
  closed g = true -> sizes_ok (gsize g) -> site g a -> GetMappedSite g a a = Ok 0.
Proof.
  intros Hcl Hs Ha. destruct (site_coords g a Hs Ha) as (ca & _ & Ga & <-).
  rewrite mapped_closed by assumption. rewrite seen_self by assumption.
  rewrite origin_index. reflexivity.
Qed.

Lemma mapped_from_origin g b :
  closed g = true -> sizes_ok (gsize g) -> site g b -> GetMappedSite g 0 b = Ok b.
Proof.
  intros Hcl Hs Hb. destruct (site_coords g b Hs Hb) as (cb & _ & Gb & <-).
  pose proof (origin_on_grid _ (sizes_pos _ Hs)) as Go.
  rewrite <- (origin_index (gsize g)) at 1. rewrite mapped_closed by assumption.
  rewrite seen_origin by assumption. reflexivity.
Qed.

Lemma mapped_coords g a b ca cb :
  closed g = true -> sizes_ok (gsize g) -> site g a -> site g b ->
  GetCoordinates g a = Ok ca -> GetCoordinates g b = Ok cb ->
  (i <- GetMappedSite g a b ;; GetCoordinates g i) = Ok (seen_from (gsize g) ca cb).
Proof.
  intros Hcl Hs Ha Hb Ea Eb.
  destruct (site_coords g a Hs Ha) as (ca' & Ea' & Ga & <-).
  destruct (site_coords g b Hs Hb) as (cb' & Eb' & Gb & <-).
  rewrite Ea' in Ea. rewrite Eb' in Eb. injection Ea as <-. injection Eb as <-.
  rewrite mapped_closed by assumption. cbn [bind].
  apply coords_of_index; [assumption|]. now apply seen_from_on_grid.
Qed.

Lemma mapped_same g a b a' b' ca cb ca' cb' :
  closed g = true -> sizes_ok (gsize g) -> site g a -> site g b -> site g a' -> site g b' ->
  GetCoordinates g a = Ok ca -> GetCoordinates g b = Ok cb ->
  GetCoordinates g a' = Ok ca' -> GetCoordinates g b' = Ok cb' ->
  (GetMappedSite g a b = GetMappedSite g a' b' <-> same_displacement (gsize g) ca cb ca' cb').
Proof.
  intros Hcl Hs Ha Hb Ha' Hb' Ea Eb Ea' Eb'.
  destruct (site_coords g a Hs Ha) as (xa & Xa & Ga & <-).
  destruct (site_coords g b Hs Hb) as (xb & Xb & Gb & <-).
  destruct (site_coords g a' Hs Ha') as (xa' & Xa' & Ga' & <-).
  destruct (site_coords g b' Hs Hb') as (xb' & Xb' & Gb' & <-).
  rewrite Xa in Ea. rewrite Xb in Eb. rewrite Xa' in Ea'. rewrite Xb' in Eb'.
  injection Ea as <-. injection Eb as <-. injection Ea' as <-. injection Eb' as <-.
  rewrite !mapped_closed by assumption. rewrite <- seen_same by assumption. split.
  - intros E. injection E as E. eapply row_major_inj; [| |exact E]; now apply seen_from_on_grid.
  - intros ->. reflexivity.
Qed.

Lemma shift_same size i a b :
  on_grid size i -> on_grid size a -> on_grid size b ->
  same_displacement size (moved_by size a i) (moved_by size b i) a b.
Proof.
  unfold moved_by. intros Hi; revert a b; induction Hi as [|s x size i Hx Hi IH];
    intros a b Ha Hb; inversion Ha; inversion Hb; subst; cbn [map3]; constructor; auto.
  assert (0 < s) by lia.
  exists (- ((y0 + x) / s) + (y + x) / s).
  pose proof (Z.div_mod (y0 + x) s ltac:(lia)). pose proof (Z.div_mod (y + x) s ltac:(lia)). lia.
Qed.

(** Translating both sites leaves the mapped site unchanged. *)
Lemma mapped_translation g i a b :
  closed g = true -> sizes_ok (gsize g) -> site g i -> site g a -> site g b ->
  (a' <- GetUnMappedSite g i a ;; b' <- GetUnMappedSite g i b ;; GetMappedSite g a' b')
  = GetMappedSite g a b.
Proof.
  intros Hcl Hs Hi Ha Hb.
  destruct (site_coords g a Hs Ha) as (ca & _ & Ga & <-).
  destruct (site_coords g b Hs Hb) as (cb & _ & Gb & <-).
  destruct (site_coords g i Hs Hi) as (ci & _ & Gi & <-).
  rewrite !unmapped_closed by assumption. cbn [bind].
  pose proof (moved_by_on_grid _ _ _ Ga Gi) as G1.
  pose proof (moved_by_on_grid _ _ _ Gb Gi) as G2.
  rewrite !mapped_closed by assumption. do 2 f_equal.
  apply seen_same; try assumption. now apply shift_same.
Qed.

(** ** Open grids *)

Lemma u64_mod z : u64 (u64 z) = u64 z.
Proof. unfold u64. now rewrite Zmod_mod. Qed.

Lemma a2i_loop_linear size c index :
  Forall (fun s => 0 < s) size -> length c = length size ->
  a2i_loop size c (prodZ size) (u64 index) = Ok (u64 (index + row_major size c)).
Proof.
  intros H; revert c index; induction H as [|s size Hs H IH]; intros [|x c] index Hl;
    simpl in Hl; try discriminate; cbn [a2i_loop row_major].
  - rewrite Z.add_0_r. reflexivity.
  - destruct (Z.eqb_spec s 0); [lia|]. rewrite prodZ_cons, Z.mul_comm, Z.div_mul by lia.
    replace (u64 (u64 index + u64 (prodZ size * u64 x))) with (u64 (index + x * prodZ size)).
    + rewrite IH by lia. do 2 f_equal. lia.
    + unfold u64. rewrite Zmult_mod_idemp_r, Zplus_mod_idemp_l, Zplus_mod_idemp_r.
      f_equal. lia.
Qed.

Lemma index_of_any g c :
  sizes_ok (gsize g) -> length c = length (gsize g) ->
  GetIndex g c = Ok (u64 (row_major (gsize g) c)).
Proof.
  intros Hs Hl. unfold GetIndex, array_to_index. rewrite accumulate_product_u_spec.
  pose proof (prodZ_pos _ (sizes_pos _ Hs)). rewrite u64_small by (split; [lia|apply Hs]).
  change 0 with (u64 0). rewrite a2i_loop_linear by (auto using sizes_pos). reflexivity.
Qed.

Lemma row_major_sub size a b :
  length a = length size -> length b = length size ->
  row_major size (map3 (fun _ x y => y - x) size a b) = row_major size b - row_major size a.
Proof.
  revert a b; induction size as [|s size IH]; intros [|x a] [|y b] Ha Hb; simpl in *; try discriminate.
  - reflexivity.
  - rewrite IH by lia. lia.
Qed.

Lemma row_major_add size a b :
  length a = length size -> length b = length size ->
  row_major size (map3 (fun _ x y => x + y) size a b) = row_major size a + row_major size b.
Proof.
  revert a b; induction size as [|s size IH]; intros [|x a] [|y b] Ha Hb; simpl in *; try discriminate.
  - reflexivity.
  - rewrite IH by lia. lia.
Qed.

Lemma mapped_open g a b :
  closed g = false -> sizes_ok (gsize g) -> site g a -> site g b ->
  GetMappedSite g a b = Ok (u64 (b - a)).
Proof.
  intros Hcl Hs Ha Hb.
  destruct (site_coords g a Hs Ha) as (ca & _ & Ga & <-).
  destruct (site_coords g b Hs Hb) as (cb & _ & Gb & <-).
  unfold GetMappedSite. rewrite !coords_of_index by assumption. cbn [bind].
  destruct (subtract_grid (gsize g) ca cb (proj1 Hs) Ga Gb) as (-> & R & L). cbn [bind].
  unfold EnforceBoundaries. rewrite Hcl. cbn [bind].
  rewrite index_of_any by assumption. rewrite row_major_sub; [reflexivity| |];
    symmetry; now apply on_grid_length.
Qed.

Lemma unmapped_open g i a :
  closed g = false -> sizes_ok (gsize g) -> site g i -> site g a ->
  GetUnMappedSite g i a = Ok (u64 (a + i)).
Proof.
  intros Hcl Hs Hi Ha.
  destruct (site_coords g a Hs Ha) as (ca & _ & Ga & <-).
  destruct (site_coords g i Hs Hi) as (ci & _ & Gi & <-).
  unfold GetUnMappedSite. rewrite !coords_of_index by assumption. cbn [bind].
  destruct (sum_grid (gsize g) ca ci (proj1 Hs) Ga Gi) as (-> & R & L). cbn [bind].
  unfold EnforceBoundaries. rewrite Hcl. cbn [bind].
  rewrite index_of_any by assumption. rewrite row_major_add; [reflexivity| |];
    symmetry; now apply on_grid_length.
Qed.

(** The answer names a site exactly when b is not before a. *)
Lemma mapped_open_valid g a b :
  closed g = false -> sizes_ok (gsize g) -> prodZ (gsize g) <= two63 -> site g a -> site g b ->
  exists i, GetMappedSite g a b = Ok i /\ (site g i <-> a <= b).
Proof.
  intros Hcl Hs Hp Ha Hb. exists (u64 (b - a)). split; [now apply mapped_open|].
  unfold site, valid_site in *. destruct (Z_lt_le_dec b a).
  - unfold u64. rewrite <- (Z.mod_add _ 1) by (rewrite two64_eq; lia).
    rewrite Z.mod_small by (rewrite two64_eq, two63_eq in *; lia).
    rewrite two64_eq, two63_eq in *. lia.
  - rewrite u64_small by (destruct Hs; lia). lia.
Qed.

(** It has the right coordinates exactly when b dominates a. *)
Lemma dominated_on_grid size a b :
  on_grid size a -> on_grid size b ->
  (on_grid size (map3 (fun _ x y => y - x) size a b) <-> Forall2 Z.le a b).
Proof.
  intros Ha; revert b; induction Ha as [|s x size a Hx Ha IH]; intros b Hb; inversion Hb; subst; cbn [map3].
  - split; constructor.
  - split; intros H; inversion H; subst; constructor; try lia; eapply IH; eauto.
Qed.

Lemma mapped_open_coords g a b ca cb :
  closed g = false -> sizes_ok (gsize g) -> site g a -> site g b -> a <= b ->
  GetCoordinates g a = Ok ca -> GetCoordinates g b = Ok cb ->
  ((i <- GetMappedSite g a b ;; GetCoordinates g i) = subtract_into cb ca <->
   Forall2 Z.le ca cb).
Proof.
  intros Hcl Hs Ha Hb Hab Ea Eb.
  destruct (site_coords g a Hs Ha) as (xa & Xa & Ga & Ia).
  destruct (site_coords g b Hs Hb) as (xb & Xb & Gb & Ib).
  rewrite Xa in Ea. rewrite Xb in Eb. injection Ea as <-. injection Eb as <-.
  rewrite mapped_open by assumption. cbn [bind].
  destruct (subtract_grid (gsize g) xa xb (proj1 Hs) Ga Gb) as (-> & R & L).
  rewrite <- (dominated_on_grid _ _ _ Ga Gb).
  pose proof (row_major_sub (gsize g) xa xb (eq_sym (on_grid_length _ _ Ga))
                (eq_sym (on_grid_length _ _ Gb))) as Es. rewrite Ia, Ib in Es.
  unfold site, valid_site in *. rewrite u64_small by (destruct Hs; lia). split.
  - intros E. destruct (site_coords g (b - a) Hs) as (c & Ec & Gc & Ic); [unfold site, valid_site; lia|].
    rewrite Ec in E. injection E as <-. exact Gc.
  - intros G. rewrite <- Es. apply coords_of_index; assumption.
Qed.

Lemma dominated_le g a b ca cb :
  sizes_ok (gsize g) -> site g a -> site g b ->
  GetCoordinates g a = Ok ca -> GetCoordinates g b = Ok cb -> Forall2 Z.le ca cb -> a <= b.
Proof.
  intros Hs Ha Hb Ea Eb H.
  destruct (site_coords g a Hs Ha) as (xa & Xa & Ga & Ia).
  destruct (site_coords g b Hs Hb) as (xb & Xb & Gb & Ib).
  rewrite Xa in Ea. rewrite Xb in Eb. injection Ea as <-. injection Eb as <-.
  apply (dominated_on_grid _ _ _ Ga Gb) in H. apply row_major_range in H.
  rewrite row_major_sub in H by (symmetry; now apply on_grid_length). lia.
Qed.

(** ** Jumps *)

Lemma jump1_spec s d :
  0 < s < 2 ^ 32 -> - s < d < s -> exists j, jump1 s d = Ok j /\ min_image s d j.
Proof.
  intros Hs Hd. change (2 ^ 32) with 4294967296 in Hs.
  assert (Hh : 0 <= s / 2 < 2147483648).
  { split; [apply Z.div_pos; lia|]. apply Z.div_lt_upper_bound; lia. }
  pose proof (Z.div_mod s 2 ltac:(lia)) as Ds. pose proof (Z.mod_pos_bound s 2 ltac:(lia)) as Ms.
  unfold jump1. rewrite to_s32_small by (change (2 ^ 31) with 2147483648; lia).
  set (h := s / 2) in *. set (m := s mod 2) in *.
  set (c := if h <? d then to_s64 (u64 (d - s)) else d).
  assert (Hc : c = if h <? d then d - s else d).
  { unfold c. destruct (h <? d); [|reflexivity]. rewrite to_s64_u64, to_s64_small; [reflexivity|].
    rewrite two63_eq. lia. }
  cbv zeta. rewrite sint_ok by (change (2 ^ (32 - 1)) with 2147483648; lia). cbn [bind].
  assert (Hr : - s < c <= h) by (rewrite Hc; destruct (Z.ltb_spec h d); lia).
  rewrite to_s64_u64, to_s64_small by (rewrite two63_eq; lia).
  eexists. split; [reflexivity|]. unfold min_image.
  assert (Hdiv : exists k, c = d + k * s).
  { rewrite Hc. destruct (Z.ltb_spec h d); [exists (-1)|exists 0]; lia. }
  destruct Hdiv as [k Hk]. clearbody c.
  destruct (Z.ltb_spec c (- h)) as [H1|H1]; cbn [orb].
  - split; [exists (k + 1); lia|lia].
  - destruct (Z.eqb_spec m 0) as [H2|H2]; cbn [andb].
    + destruct (Z.eqb_spec c (- h)) as [H3|H3].
      * split; [exists (k + 1); lia|lia].
      * split; [exists k; lia|lia].
    + split; [exists k; lia|lia].
Qed.

Lemma min_image_unique s d j j' : min_image s d j -> min_image s d j' -> j = j'.
Proof.
  intros [[k Hk] Hj] [[k' Hk'] Hj'].
  assert (j = j' + (k - k') * s) by lia. assert (k - k' = 0) by nia. nia.
Qed.

(** Nothing congruent is shorter. *)
Lemma min_image_minimal s d j e : min_image s d j -> (s | e - d) -> Z.abs j <= Z.abs e.
Proof.
  intros [[k Hk] Hj] [k' Hk']. assert (e = j + (k' - k) * s) by lia.
  set (q := k' - k) in *. assert (q = 0 \/ q <= -1 \/ 1 <= q) as [->|[H1|H1]] by lia; nia.
Qed.

Lemma jump_coords g a b ca cb :
  sizes_ok (gsize g) -> on_grid (gsize g) ca -> on_grid (gsize g) cb ->
  a = row_major (gsize g) ca -> b = row_major (gsize g) cb ->
  GetJump g a b = (if closed g then each_coord jump1 (gsize g)
                       (map3 (fun _ x y => y - x) (gsize g) ca cb)
                   else Ok (map3 (fun _ x y => y - x) (gsize g) ca cb)).
Proof.
  intros Hs Ga Gb -> ->. unfold GetJump. rewrite !coords_of_index by assumption. cbn [bind].
  destruct (subtract_grid (gsize g) ca cb (proj1 Hs) Ga Gb) as (-> & R & L). reflexivity.
Qed.

Lemma each_jump size ca cb :
  Forall (fun s => 0 < s < 2 ^ 32) size -> on_grid size ca -> on_grid size cb ->
  exists j, each_coord jump1 size (map3 (fun _ x y => y - x) size ca cb) = Ok j /\
    Forall3 min_image size (map3 (fun _ x y => y - x) size ca cb) j.
Proof.
  intros Hs Ha; revert cb Hs; induction Ha as [|s x size ca Hx Ha IH]; intros cb Hs Hb;
    inversion Hb; inversion Hs; subst.
  - exists []. split; [reflexivity|constructor].
  - match goal with H : Forall _ size |- _ => rename H into Hs' end.
    match goal with H : Forall2 _ size _ |- _ => rename H into Hb' end.
    destruct (IH _ Hs' Hb') as (j & E & F). cbn [map3 each_coord].
    destruct (jump1_spec s (y - x)) as (j0 & E0 & F0); [assumption|lia|].
    exists (j0 :: j). rewrite E0. cbn [bind]. rewrite E. split; [reflexivity|].
    constructor; assumption.
Qed.

Lemma small_ok size : small_sizes size -> sizes_ok size.
Proof.
  intros [H Hp]. split; [|assumption]. eapply Forall_impl; [|exact H]. simpl; intros s Hs.
  change (2 ^ 32) with 4294967296 in Hs. change (2 ^ 62) with 4611686018427387904. lia.
Qed.

Lemma jump_closed g a b ca cb :
  closed g = true -> small_sizes (gsize g) -> site g a -> site g b ->
  GetCoordinates g a = Ok ca -> GetCoordinates g b = Ok cb ->
  exists d j, subtract_into cb ca = Ok d /\ GetJump g a b = Ok j /\
    Forall3 min_image (gsize g) d j.
Proof.
  intros Hcl Hs Ha Hb Ea Eb. pose proof (small_ok _ Hs) as Hs'.
  destruct (site_coords g a Hs' Ha) as (xa & Xa & Ga & Ia).
  destruct (site_coords g b Hs' Hb) as (xb & Xb & Gb & Ib).
  rewrite Xa in Ea. rewrite Xb in Eb. injection Ea as <-. injection Eb as <-.
  rewrite (jump_coords g a b xa xb) by auto. rewrite Hcl.
  destruct (each_jump _ _ _ (proj1 Hs) Ga Gb) as (j & -> & F).
  destruct (subtract_grid (gsize g) xa xb (proj1 Hs') Ga Gb) as (-> & _). eauto.
Qed.

Lemma jump_open g a b :
  closed g = false ->
  GetJump g a b = (cb <- GetCoordinates g b ;; ca <- GetCoordinates g a ;; subtract_into cb ca).
Proof.
  intros Hcl. unfold GetJump. rewrite Hcl.
  destruct (GetCoordinates g b); cbn [bind]; try reflexivity.
  destruct (GetCoordinates g a); cbn [bind]; try reflexivity.
  destruct (subtract_into _ _); reflexivity.
Qed.

Lemma jump_open_total g a b :
  closed g = false -> sizes_ok (gsize g) -> site g a -> site g b ->
  exists j ca cb, GetJump g a b = Ok j /\ GetCoordinates g a = Ok ca /\
    GetCoordinates g b = Ok cb /\ Forall3 (fun x y d => d = y - x) ca cb j.
Proof.
  intros Hcl Hs Ha Hb.
  destruct (site_coords g a Hs Ha) as (xa & Xa & Ga & Ia).
  destruct (site_coords g b Hs Hb) as (xb & Xb & Gb & Ib).
  rewrite jump_open by assumption. rewrite Xa, Xb. cbn [bind].
  destruct (subtract_grid (gsize g) xa xb (proj1 Hs) Ga Gb) as (-> & _).
  exists (map3 (fun _ x y => y - x) (gsize g) xa xb), xa, xb. repeat split.
  clear - Ga Gb. revert xb Gb. induction Ga; intros xb Gb; inversion Gb; subst; cbn [map3];
    constructor; auto.
Qed.

(** Reversing a hop negates its jump unless it spans exactly half the grid. *)
Lemma min_image_reverse s d j j' :
  min_image s d j -> min_image s (- d) j' -> (2 * j <> s -> j' = - j) /\ (2 * j = s -> j' = j).
Proof.
  intros [[k Hk] Hj] [[k' Hk'] Hj'].
  assert (E : j' = - j + (k' + k) * s) by lia. split; intros H.
  - assert (k' + k = 0) by nia. nia.
  - assert (k' + k = 1) by nia. nia.
Qed.

Lemma Forall3_nth {A B C} (R : A -> B -> C -> Prop) la lb lc : Forall3 R la lb lc ->
  forall i a b c, nth_error la i = Some a -> nth_error lb i = Some b -> nth_error lc i = Some c -> R a b c.
Proof.
  induction 1 as [|a b c la lb lc H _ IH]; intros [|i] x y z Ha Hb Hc; try discriminate.
  - cbn in *. now inversion Ha; inversion Hb; inversion Hc; subst.
  - exact (IH i x y z Ha Hb Hc).
Qed.

Lemma jump_images g a b ca cb j :
  closed g = true -> small_sizes (gsize g) -> site g a -> site g b ->
  GetCoordinates g a = Ok ca -> GetCoordinates g b = Ok cb -> GetJump g a b = Ok j ->
  forall i s x y ji, nth_error (gsize g) i = Some s -> nth_error ca i = Some x -> nth_error cb i = Some y ->
  nth_error j i = Some ji -> min_image s (y - x) ji.
Proof.
  intros Hcl Hs Ha Hb Ea Eb Ej i s x y ji Hi Hx Hy Hj.
  destruct (jump_closed g a b ca cb Hcl Hs Ha Hb Ea Eb) as (d & j' & Ed & Ej' & M).
  rewrite Ej in Ej'. injection Ej' as <-.
  assert (Hd : nth_error d i = Some (y - x)).
  { destruct (subtract_into_spec cb ca d Ed) as (_ & L & N).
    assert (Li : (i < length cb)%nat) by (apply nth_error_Some; now rewrite Hy).
    rewrite (nth_error_nth' d 0) by lia. f_equal. rewrite N by lia.
    now rewrite (nth_error_nth cb i 0 Hy), (nth_error_nth ca i 0 Hx). }
  exact (Forall3_nth _ _ _ _ M i s (y - x) ji Hi Hd Hj).
Qed.

Lemma jump_reverse g a b j j' :
  closed g = true -> small_sizes (gsize g) -> site g a -> site g b ->
  GetJump g a b = Ok j -> GetJump g b a = Ok j' ->
  forall i s x x', nth_error (gsize g) i = Some s -> nth_error j i = Some x -> nth_error j' i = Some x' ->
  (2 * x <> s -> x' = - x) /\ (2 * x = s -> x' = x).
Proof.
  intros Hcl Hs Ha Hb E E' i s x x' Hi Hx Hx'. pose proof (small_ok _ Hs) as Hs'.
  destruct (site_coords g a Hs' Ha) as (ca & Ea & Ga & _). destruct (site_coords g b Hs' Hb) as (cb & Eb & Gb & _).
  assert (Li : (i < length (gsize g))%nat) by (apply nth_error_Some; now rewrite Hi).
  apply Forall2_length in Ga, Gb.
  destruct (nth_error ca i) as [p|] eqn:Hp; [|apply nth_error_None in Hp; lia].
  destruct (nth_error cb i) as [q|] eqn:Hq; [|apply nth_error_None in Hq; lia].
  pose proof (jump_images g a b ca cb j Hcl Hs Ha Hb Ea Eb E i s p q x Hi Hp Hq Hx) as M.
  pose proof (jump_images g b a cb ca j' Hcl Hs Hb Ha Eb Ea E' i s q p x' Hi Hq Hp Hx') as M'.
  replace (p - q) with (- (q - p)) in M' by lia. exact (min_image_reverse s (q - p) x x' M M').
Qed.

(** ** Walks *)

Lemma last_cons {A} (x d : A) l : last (x :: l) d = last l x.
Proof.
  revert x; induction l as [|y l IH]; intros x; [reflexivity|].
  change (last (x :: y :: l) d) with (last (y :: l) d). rewrite IH.
  destruct l as [|z l]; [reflexivity|]. change (last (y :: z :: l) x) with (last (z :: l) x).
  clear. revert z. induction l as [|w l IH]; intros z; [reflexivity|]. exact (IH w).
Qed.

Lemma walk_step size ca cb cc n acc j :
  Forall (fun s => 0 < s < 2 ^ 32) size ->
  hops_sum n size ca cb acc -> 0 <= n < 2 ^ 32 ->
  on_grid size cb -> on_grid size cc ->
  Forall3 min_image size (map3 (fun _ x y => y - x) size cb cc) j ->
  exists acc', sum_into acc j = Ok acc' /\ hops_sum (n + 1) size ca cc acc'.
Proof.
  intros Hs Hw; revert cc j Hs. induction Hw as [|s size a la b lb t lt Hd Hb Hw IH];
    intros cc j Hs Hn Gb Gc Hj.
  - inversion Gc; subst. exists []. split; [reflexivity|constructor].
  - inversion Gc as [|s' c size' lc Hc Gc']; subst. inversion Gb as [|? ? ? ? Hb0 Gb']; subst.
    cbn [map3] in Hj. inversion Hj as [|? ? j0 ? ? lj [[k Hk] Hj0] Hj']; subst.
    inversion Hs as [|? ? Hs0 Hs']; subst.
    destruct (IH lc lj) as (acc' & E & F); auto.
    assert (Ht : 2 * Z.abs (t + j0) <= (n + 1) * s) by lia.
    cbn [sum_into]. change (2 ^ 32) with 4294967296 in *.
    rewrite s64_ok by (rewrite two63_eq in *; nia). cbn [bind]. rewrite E. cbn [bind].
    exists (t + j0 :: acc'). split; [reflexivity|]. constructor; auto.
    destruct Hd as [k' Hk']. exists (k' + k). lia.
Qed.

Lemma walk_closed g ca walk :
  closed g = true -> small_sizes (gsize g) -> Forall (site g) walk ->
  forall n cur ccur acc,
  site g cur -> GetCoordinates g cur = Ok ccur ->
  0 <= n -> n + Z.of_nat (length walk) <= 2 ^ 32 ->
  hops_sum n (gsize g) ca ccur acc ->
  exists t cend, walk_jumps g cur walk acc = Ok t /\
    GetCoordinates g (last walk cur) = Ok cend /\
    hops_sum (n + Z.of_nat (length walk)) (gsize g) ca cend t.
Proof.
  intros Hcl Hs Hw. pose proof (small_ok _ Hs) as Hs'.
  induction Hw as [|x walk Hx Hw IH]; intros n cur ccur acc Hcur Ec Hn Hlen Hinv.
  - exists acc, ccur. cbn [walk_jumps last length]. rewrite Z.add_0_r. auto.
  - destruct (site_coords g cur Hs' Hcur) as (cc & Xc & Gc & Ic).
    rewrite Xc in Ec; injection Ec as <-.
    destruct (site_coords g x Hs' Hx) as (cx & Xx & Gx & Ix).
    cbn [walk_jumps]. rewrite (jump_coords g cur x cc cx) by auto. rewrite Hcl.
    destruct (each_jump _ _ _ (proj1 Hs) Gc Gx) as (j & -> & F). cbn [bind].
    cbn [length] in Hlen |- *. rewrite Nat2Z.inj_succ in Hlen |- *.
    destruct (walk_step (gsize g) ca cc cx n acc j (proj1 Hs) Hinv)
      as (acc' & -> & Hinv'); auto; [lia|].
    cbn [bind].
    destruct (IH (n + 1) x cx acc') as (t & cend & E & El & Hend); auto; try lia.
    exists t, cend. split; [assumption|]. rewrite last_cons. split; [assumption|].
    replace (n + Z.succ (Z.of_nat (length walk))) with (n + 1 + Z.of_nat (length walk)) by lia.
    assumption.
Qed.

Lemma hops_sum_start size c :
  on_grid size c -> hops_sum 0 size c c (map (fun _ => 0) size).
Proof.
  induction 1 as [|s x size c Hx H IH]; cbn [map]; constructor; auto; [|lia].
  exists 0. lia.
Qed.

Lemma walk_any g start walk :
  closed g = true -> small_sizes (gsize g) -> site g start -> Forall (site g) walk ->
  Z.of_nat (length walk) <= 2 ^ 32 ->
  exists t ca cb, walk_jumps g start walk (map (fun _ => 0) (gsize g)) = Ok t /\
    GetCoordinates g start = Ok ca /\ GetCoordinates g (last walk start) = Ok cb /\
    hops_sum (Z.of_nat (length walk)) (gsize g) ca cb t.
Proof.
  intros Hcl Hs Ha Hw Hl.
  destruct (site_coords g start (small_ok _ Hs) Ha) as (ca & Xa & Ga & Ia).
  destruct (walk_closed g ca walk Hcl Hs Hw 0 start ca (map (fun _ => 0) (gsize g)))
    as (t & cend & E & El & Hinv); auto; try lia.
  { now apply hops_sum_start. }
  exists t, ca, cend. auto.
Qed.

(** Exact multiples divide exactly. *)
Lemma winding_multiples size k :
  Forall2 (fun s x => 0 < s < two63 /\ - two63 <= x < two63) size k ->
  winding (map3 (fun s x _ => x * s) size k k) size = Ok k.
Proof.
  induction 1 as [|s x size k [Hs Hx] H IH]; [reflexivity|]. cbn [map3 winding].
  rewrite to_s64_small by lia. destruct (Z.eqb_spec s 0); [lia|].
  rewrite Z.quot_mul by lia. rewrite s64_ok by assumption. cbn [bind]. rewrite IH. reflexivity.
Qed.

Lemma hops_sum_multiples n size c t :
  Forall (fun s => 0 < s) size -> hops_sum n size c c t ->
  exists k, t = map3 (fun s x _ => x * s) size k k /\
            Forall2 (fun s x => 2 * Z.abs x <= n) size k.
Proof.
  intros Hs H. remember c as c' eqn:E in H at 2. revert E Hs.
  induction H as [|s size a la b lb t lt [k Hk] Hb H IH]; intros E Hs.
  - exists []. split; [reflexivity|constructor].
  - injection E as -> ->. inversion Hs; subst. destruct (IH eq_refl) as (ks & -> & F); [assumption|].
    exists (k :: ks). cbn [map3]. split; [f_equal; lia|]. constructor; [|assumption].
    assert (t = k * s) by lia. subst t. rewrite Z.abs_mul, (Z.abs_eq s) in Hb by lia. nia.
Qed.

Lemma closed_walk_winding g start walk :
  closed g = true -> small_sizes (gsize g) -> site g start -> Forall (site g) walk ->
  last walk start = start -> Z.of_nat (length walk) <= 2 ^ 32 ->
  exists k t, walk_jumps g start walk (map (fun _ => 0) (gsize g)) = Ok t /\
            Forall3 (fun s x y => y = x * s /\ 2 * Z.abs x <= Z.of_nat (length walk)) (gsize g) k t /\
            GetWinding g t = Ok k.
Proof.
  intros Hcl Hs Ha Hw Hlast Hl.
  destruct (walk_any g start walk) as (t & ca & cb & E & Ea & Eb & Hinv); auto.
  rewrite Hlast, Ea in Eb. injection Eb as <-.
  destruct (hops_sum_multiples _ _ _ _ (sizes_pos _ (small_ok _ Hs)) Hinv) as (k & -> & F).
  exists k, (map3 (fun s x _ => x * s) (gsize g) k k). split; [assumption|]. split.
  - clear - F. induction F; cbn [map3]; constructor; auto.
  - apply winding_multiples. destruct Hs as [Hs _]. change (2 ^ 32) with 4294967296 in *.
    clear - F Hs Hl. revert Hs. rewrite two63_eq.
    induction F; intros Hs; inversion Hs; subst; constructor; auto. lia.
Qed.

(** Open grids: the jumps telescope. *)
Lemma walk_open g ca walk :
  closed g = false -> sizes_ok (gsize g) -> on_grid (gsize g) ca -> Forall (site g) walk ->
  forall cur ccur,
  site g cur -> GetCoordinates g cur = Ok ccur ->
  exists cend,
    GetCoordinates g (last walk cur) = Ok cend /\ on_grid (gsize g) cend /\
    walk_jumps g cur walk (map3 (fun _ x y => y - x) (gsize g) ca ccur) =
    Ok (map3 (fun _ x y => y - x) (gsize g) ca cend).
Proof.
  intros Hcl Hs Ga Hw. induction Hw as [|x walk Hx Hw IH]; intros cur ccur Hcur Ec.
  - exists ccur. cbn [walk_jumps last]. split; [assumption|]. split; [|reflexivity].
    destruct (site_coords g cur Hs Hcur) as (cc & Xc & Gc & Ic).
    rewrite Xc in Ec; injection Ec as <-. assumption.
  - destruct (site_coords g cur Hs Hcur) as (cc & Xc & Gc & Ic).
    rewrite Xc in Ec; injection Ec as <-.
    destruct (site_coords g x Hs Hx) as (cx & Xx & Gx & Ix).
    cbn [walk_jumps]. rewrite (jump_coords g cur x cc cx) by auto. rewrite Hcl. cbn [bind].
    assert (E : sum_into (map3 (fun _ x y => y - x) (gsize g) ca cc)
                  (map3 (fun _ x y => y - x) (gsize g) cc cx)
                = Ok (map3 (fun _ x y => y - x) (gsize g) ca cx)).
    { destruct Hs as [Hs _]. clear - Hs Ga Gc Gx. revert cc cx Hs Gc Gx.
      induction Ga as [|s a size ca Ha Ga IH]; intros cc cx Hs Gc Gx;
        inversion Gc; inversion Gx; inversion Hs; subst; [reflexivity|].
      cbn [map3 sum_into]. change (2 ^ 62) with 4611686018427387904 in *.
      rewrite s64_ok by (rewrite two63_eq; lia). cbn [bind]. rewrite IH by auto. cbn [bind].
      do 2 f_equal. lia. }
    rewrite E. cbn [bind]. rewrite last_cons.
    destruct (IH x cx Hx Xx) as (cend & El & Ge & Ew). eauto.
Qed.

Lemma open_walk_total g start walk :
  closed g = false -> sizes_ok (gsize g) -> site g start -> Forall (site g) walk ->
  exists t ca cb, walk_jumps g start walk (map (fun _ => 0) (gsize g)) = Ok t /\
    GetCoordinates g start = Ok ca /\ GetCoordinates g (last walk start) = Ok cb /\
    Forall3 (fun x y d => d = y - x) ca cb t.
Proof.
  intros Hcl Hs Ha Hw. destruct (site_coords g start Hs Ha) as (ca & Xa & Ga & Ia).
  destruct (walk_open g ca walk Hcl Hs Ga Hw start ca Ha Xa) as (cend & El & Ge & Ew).
  exists (map3 (fun _ x y => y - x) (gsize g) ca cend), ca, cend.
  replace (map (fun _ => 0) (gsize g)) with (map3 (fun _ x y => y - x) (gsize g) ca ca).
  - repeat split; auto. clear - Ga Ge. revert cend Ge.
    induction Ga; intros cb Gb; inversion Gb; subst; cbn [map3]; constructor; auto.
  - clear - Ga. induction Ga as [|s x size ca Hx Ga IH]; [reflexivity|]. cbn [map3 map]. rewrite IH.
    f_equal. lia.
Qed.

Lemma open_walk_winding g start walk :
  closed g = false -> sizes_ok (gsize g) -> site g start -> Forall (site g) walk ->
  last walk start = start ->
  walk_jumps g start walk (map (fun _ => 0) (gsize g)) = Ok (map (fun _ => 0) (gsize g)) /\
  GetWinding g (map (fun _ => 0) (gsize g)) = Ok (map (fun _ => 0) (gsize g)).
Proof.
  intros Hcl Hs Ha Hw Hl.
  destruct (open_walk_total g start walk) as (t & ca & cb & E & Ea & Eb & F); auto.
  rewrite Hl, Ea in Eb. injection Eb as <-.
  destruct (site_coords g start Hs Ha) as (xa & Xa & Ga & _). rewrite Xa in Ea. injection Ea as <-.
  split.
  - rewrite E. f_equal. clear - F Ga. revert t F.
    induction Ga as [|s x size c Hx Ga IH]; intros t F; inversion F; subst; [reflexivity|].
    cbn [map]. f_equal; [lia|]. now apply IH.
  - unfold GetWinding. destruct Hs as [Hs _]. clear - Hs.
    induction Hs as [|s size Hs0 Hs IH]; [reflexivity|]. cbn [map winding].
    change (2 ^ 62) with 4611686018427387904 in Hs0.
    rewrite to_s64_small by (rewrite two63_eq; lia). destruct (Z.eqb_spec s 0); [lia|].
    rewrite Z.quot_0_l by lia. change (s64 0) with (Ok 0). cbn [bind]. rewrite IH. reflexivity.
Qed.
