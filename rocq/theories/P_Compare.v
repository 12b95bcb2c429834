(** C113: saved lattice files compared with compare_files. *)
From Coq Require Import ZArith Reals List Bool Ascii String Lia Lra.
From Flocq Require Import Core.
From Verif Require Import Base F64 Num M_MathInt M_Text M_Util M_Obs M_Grid M_Bravais M_Lattice M_Short S_Math S_Obs S_Grid S_Bravais S_Lattice S_LatticeF S_Short
  L_Grid L_Bravais L_Lattice L_LatticeD L_LatticeV L_Short L_BravaisAcc L_Compare P_Lattice.
Import ListNotations.
Open Scope Z_scope.

(** Two lattices save their positions (distance vectors, momenta) in two files: the
    files compare equal exactly if there are as many sites and all vectors are the same
    doubles. *)
Theorem C113_site_files : forall dot0 pi wr B size cl B' size' cl' L L' fs fs1 fs2 p q,
  lattice_ok B size -> lattice_ok B' size' -> wr p = true -> wr q = true -> p <> q ->
  Lattice numF pi B size cl = Ok L -> Lattice numF pi B' size' cl' = Ok L' ->
  forall save get, In (save, get) [(SavePositions (fmt_short dot0) wr, GetPosition); (SaveDistances (fmt_short dot0) wr, fun L => GetVector L 0)] \/
    cl = true /\ cl' = true /\ (save, get) = (SaveMomenta (fmt_short dot0) wr, GetMomentum) ->
  save L fs p = Ok fs1 -> save L' fs1 q = Ok fs2 ->
  exists b, compare_files fs2 p q = Ok b /\
  (b = true <-> prodZ size = prodZ size' /\ forall i, valid_site size i -> get L i = get L' i).
Proof.
  intros d pi wr B size cl B' size' cl' L L' fs fs1 fs2 p q H H' Wp Wq N EL EL' save get Hs E E'.
  destruct (C41_site_files f64 numF pi (fmt_short d) wr B size cl (fmt_short_clean d) H) as (L0 & x & v & m & EL0 & G & S). rewrite EL in EL0. injection EL0 as <-.
  destruct (C41_site_files f64 numF pi (fmt_short d) wr B' size' cl' (fmt_short_clean d) H') as (L0 & x' & v' & m' & EL0 & G' & S'). rewrite EL' in EL0. injection EL0 as <-.
  destruct (S fs p Wp) as (S1 & S2 & S3). destruct (S' fs1 q Wq) as (S1' & S2' & S3').
  assert (N0 : 0 < prodZ size) by (pose proof H as (_ & _ & _ & Hok & _); pose proof (grid_sites size cl Hok); lia).
  assert (N0' : 0 < prodZ size') by (pose proof H' as (_ & _ & _ & Hok & _); pose proof (grid_sites size' cl' Hok); lia).
  assert (K : forall (u u' : Z -> list f64) (get : lattice -> Z -> out (list f64)),
    (forall i, valid_site size i -> get L i = Ok (u i)) -> (forall i, valid_site size' i -> get L' i = Ok (u' i)) ->
    (prodZ size = prodZ size' /\ (forall i, 0 <= i < prodZ size -> u i = u' i) <-> prodZ size = prodZ size' /\ forall i, valid_site size i -> get L i = get L' i)).
  { intros u u' gt Hu Hu'. split; intros [En Ee]; (split; [exact En|]); intros i Hi.
    - rewrite Hu, Hu', Ee; [reflexivity|exact Hi|unfold valid_site in *; now rewrite <- En|exact Hi].
    - assert (Vi : valid_site size' i) by (unfold valid_site; now rewrite <- En). specialize (Ee i Hi). rewrite (Hu i Hi), (Hu' i Vi) in Ee. congruence. }
  destruct Hs as [[Hs|[Hs|[]]]|(Hc & Hc' & Hs)]; [injection Hs as <- <-|injection Hs as <- <-|injection Hs as -> ->].
  - destruct (saved_compared fs fs1 fs2 p q _ _ _ _ N S1 S1' E E') as (b & Eb & B1). exists b. split; [exact Eb|]. rewrite B1.
    rewrite site_rows_iff by (first [exact N0|exact N0'|intros i Hi; now apply G|intros i Hi; now apply G']).
    apply (K x x' (fun L => GetPosition L)); intros i Hi; [now apply G|now apply G'].
  - destruct (saved_compared fs fs1 fs2 p q _ _ _ _ N S2 S2' E E') as (b & Eb & B1). exists b. split; [exact Eb|]. rewrite B1.
    rewrite site_rows_iff by (first [exact N0|exact N0'|intros i Hi; now apply G|intros i Hi; now apply G']).
    apply (K v v' (fun L => GetVector L 0)); intros i Hi; [now apply G|now apply G'].
  - destruct (saved_compared fs fs1 fs2 p q _ _ _ _ N (S3 Hc) (S3' Hc') E E') as (b & Eb & B1). exists b. split; [exact Eb|]. rewrite B1.
    rewrite site_rows_iff by (first [exact N0|exact N0'|intros i Hi; now apply (G i Hi)|intros i Hi; now apply (G' i Hi)]).
    apply (K m m' (fun L => GetMomentum L)); intros i Hi; [now apply (G i Hi)|now apply (G' i Hi)].
Qed.
Print Assumptions C113_site_files.

(** Likewise for the files of all pairs. *)
Theorem C113_pair_files : forall dot0 pi wr B size B' size' L L' fs fs1 fs2 p q,
  lattice_ok B size -> lattice_ok B' size' -> prodZ size < 2 ^ 32 -> prodZ size' < 2 ^ 32 -> wr p = true -> wr q = true -> p <> q ->
  Lattice numF pi B size true = Ok L -> Lattice numF pi B' size' true = Ok L' ->
  SavePairs (fmt_short dot0) wr L fs p = Ok fs1 -> SavePairs (fmt_short dot0) wr L' fs1 q = Ok fs2 ->
  exists b, compare_files fs2 p q = Ok b /\
  (b = true <-> prodZ size = prodZ size' /\ forall i j, valid_site size i -> valid_site size j -> GetVector L i j = GetVector L' i j).
Proof.
  intros d pi wr B size B' size' L L' fs fs1 fs2 p q H H' Hn Hn' Wp Wq N EL EL' E E'.
  destruct (C41_pair_file f64 numF pi (fmt_short d) wr B size (fmt_short_clean d) H Hn) as (L0 & v & EL0 & G & S). rewrite EL in EL0. injection EL0 as <-.
  destruct (C41_pair_file f64 numF pi (fmt_short d) wr B' size' (fmt_short_clean d) H' Hn') as (L0 & v' & EL0 & G' & S'). rewrite EL' in EL0. injection EL0 as <-.
  assert (N0 : 0 < prodZ size) by (pose proof H as (_ & _ & _ & Hok & _); pose proof (grid_sites size true Hok); lia).
  assert (N0' : 0 < prodZ size') by (pose proof H' as (_ & _ & _ & Hok & _); pose proof (grid_sites size' true Hok); lia).
  destruct (saved_compared fs fs1 fs2 p q _ _ _ _ N (S fs p Wp) (S' fs1 q Wq) E E') as (b & Eb & B1). exists b. split; [exact Eb|]. rewrite B1.
  rewrite pair_rows_iff by (first [exact N0|exact N0'|intros i j Hi Hj; now apply G|intros i j Hi Hj; now apply G']).
  split; intros [En Ee]; (split; [exact En|]); intros i j Hi Hj.
  - rewrite (proj1 (G i j Hi Hj)), Ee by assumption. symmetry. apply G'; unfold valid_site in *; now rewrite <- En.
  - specialize (Ee i j Hi Hj). rewrite (proj1 (G i j Hi Hj)) in Ee. assert (Vi : valid_site size' i) by (unfold valid_site; now rewrite <- En).
    assert (Vj : valid_site size' j) by (unfold valid_site; now rewrite <- En). rewrite (proj1 (G' i j Vi Vj)) in Ee. congruence.
Qed.
Print Assumptions C113_pair_files.

(** The boundary conditions do not show in the positions ... *)
Theorem C113_positions_boundaries : forall dot0 pi wr B size cl cl' L L' fs fs1 fs2 p q,
  lattice_ok B size -> wr p = true -> wr q = true -> p <> q ->
  Lattice numF pi B size cl = Ok L -> Lattice numF pi B size cl' = Ok L' ->
  SavePositions (fmt_short dot0) wr L fs p = Ok fs1 -> SavePositions (fmt_short dot0) wr L' fs1 q = Ok fs2 ->
  compare_files fs2 p q = Ok true.
Proof.
  intros d pi wr B size cl cl' L L' fs fs1 fs2 p q H Wp Wq N EL EL' E E'.
  destruct (C113_site_files d pi wr B size cl B size cl' L L' fs fs1 fs2 p q H H Wp Wq N EL EL' (SavePositions (fmt_short d) wr) GetPosition) as (b & Eb & Hb);
    [left; now left|exact E|exact E'|]. rewrite Eb. f_equal. apply Hb. split; [reflexivity|]. intros i Vi.
  rewrite lattice_built in EL, EL' by exact H. injection EL as <-. injection EL' as <-. now rewrite !position_built.
Qed.
Print Assumptions C113_positions_boundaries.

(** ... but show in the distance vectors of chain, square and cubic lattices as soon as
    one extent is at least three. *)
Theorem C113_distances_boundaries : forall dot0 wr B size L L' fs fs1 fs2 p q,
  B = ChainLattice numF \/ B = SquareLattice numF \/ B = CubicLattice numF ->
  lattice_ok B size -> 4 * sum_squares size <= 2 ^ 53 -> Exists (fun s => 3 <= s) size -> wr p = true -> wr q = true -> p <> q ->
  Lattice numF pi_d B size true = Ok L -> Lattice numF pi_d B size false = Ok L' ->
  SaveDistances (fmt_short dot0) wr L fs p = Ok fs1 -> SaveDistances (fmt_short dot0) wr L' fs1 q = Ok fs2 ->
  compare_files fs2 p q = Ok false.
Proof.
  intros d wr B size L L' fs fs1 fs2 p q HB H H4 X Wp Wq N EL EL' E E'.
  destruct (C113_site_files d pi_d wr B size true B size false L L' fs fs1 fs2 p q H H Wp Wq N EL EL' (SaveDistances (fmt_short d) wr) (fun L => GetVector L 0)) as (b & Eb & Hb);
    [left; right; now left|exact E|exact E'|]. rewrite Eb. f_equal. destruct b; [|reflexivity]. exfalso. destruct (proj1 Hb eq_refl) as [_ S]. clear Hb Eb E E'.
  assert (U : unit_lattice f0 f1 B) by (destruct HB as [->|[->| ->]]; [apply (chain_unit numF)|apply (square_unit numF)|apply (cubic_unit numF)]).
  destruct (hypercubic_vector B size U H H4) as (L0 & EL0 & V). rewrite EL in EL0. injection EL0 as <-.
  rewrite lattice_built in EL, EL' by exact H. injection EL as <-. injection EL' as <-.
  pose proof H as (W & Hs & H40 & Hok & He & Hn). destruct (ok_dims _ _ H) as [Dm DS]. pose proof (sizes_pos _ Hok) as pos.
  set (c := map (fun s => s - 1) size).
  assert (Gc : on_grid size c).
  { unfold c, on_grid. clear -pos. induction pos as [|s l Hs F IH]; cbn [map]; constructor; [lia|exact IH]. }
  set (i := row_major size c). assert (Vi : valid_site size i) by now apply row_major_valid.
  assert (V0 : valid_site size 0) by (unfold valid_site in *; lia).
  assert (Ci : coords_of size i = c) by now apply coords_of_row_major.
  specialize (S i Vi). destruct (V 0 i (coords_of size 0) c V0 Vi) as (v & z & x & Ev & Fv & Fz & _).
  { change (l_grid (built numF pi_d B size true)) with (HyperCubicGrid size true). now apply grid_coords. }
  { change (l_grid (built numF pi_d B size true)) with (HyperCubicGrid size true). rewrite <- Ci. now apply grid_coords. }
  rewrite Ev in S.
  assert (Eo : GetVector (built numF pi_d B size false) 0 i = Ok (map of_Z c)).
  { unfold GetVector. change (l_grid (built numF pi_d B size false)) with (HyperCubicGrid size false).
    rewrite (mapped_open (HyperCubicGrid size false) 0 i eq_refl Hok V0 Vi). cbn [bind]. rewrite Z.sub_0_r.
    rewrite u64_small by (destruct Hok as [_ Hp]; unfold valid_site in Vi; lia).
    destruct (distance_built numF pi_d B size false i H Vi) as [Vo _]. rewrite Vo, Ci. f_equal.
    pose proof (on_grid_length _ _ Gc) as Lc.
    assert (F53 : Forall (fun z => Z.abs z <= 2 ^ 53) c).
    { unfold c. apply Forall_map. pose proof (sum_squares_bound size (2 ^ 51) ltac:(lia)) as Q. clear -Q pos.
      induction pos as [|s l Hs F IH]; [constructor|]. apply Forall_cons_iff in Q as [Q1 Q]. constructor; [nia|now apply IH]. }
    pose proof (unit_real_space B c U ltac:(unfold vsize in *; lia) F53) as R. rewrite real_space_pure in R by (first [exact W|unfold vsize in *; lia]).
    injection R as R. exact R. }
  rewrite Eo in S. injection S as ->.
  rewrite origin_coords in Fz by exact Hok. rewrite zip_sub_zeros in Fz by (symmetry; now apply on_grid_length in Gc).
  assert (S3 : Forall (fun s => s - 1 <= 2 ^ 53) size).
  { pose proof (sum_squares_bound size (2 ^ 51) ltac:(lia)) as Q. clear -Q pos.
    induction pos as [|s l Hs F IH]; [constructor|]. apply Forall_cons_iff in Q as [Q1 Q]. constructor; [nia|now apply IH]. }
  revert z Fv Fz. unfold c. clear -X S3 pos. induction size as [|s l IH]; [inversion X|]. intros z Fv Fz. cbn [map] in *.
  inversion Fv as [|y k ys ks [_ Ry] Fv']; subst. inversion Fz as [|? ? ? ? ? ? [_ Hk] Fz']; subst.
  apply Forall_cons_iff in S3 as [S3 S3']. apply Forall_cons_iff in pos as [Ps pos].
  inversion X as [? ? X1|? ? X1]; subst.
  - destruct (of_Z_exact (s - 1)) as [Ro _]; [lia|]. rewrite Ro in Ry. apply eq_IZR in Ry. lia.
  - now apply (IH X1 pos S3' ks).
Qed.
Print Assumptions C113_distances_boundaries.

(** Chains of four sites: equal positions, different distances; and of two sites with
    different boundaries, whose distances agree. *)
Example C113_example :
  let ok (_ : list ascii) := true in let none (_ : list ascii) : option (list ascii) := None in
  lattice_ok (ChainLattice numF) [4] /\ Exists (fun s => 3 <= s) [4] /\ 4 * sum_squares [4] <= 2 ^ 53 /\ chars "p" <> chars "q" /\
  (L <- Lattice numF pi_d (ChainLattice numF) [4] true ;; L' <- Lattice numF pi_d (ChainLattice numF) [4] false ;;
   fs <- SavePositions (fmt_short false) ok L none (chars "p") ;; fs <- SavePositions (fmt_short false) ok L' fs (chars "q") ;;
   b <- compare_files fs (chars "p") (chars "q") ;;
   fs <- SaveDistances (fmt_short false) ok L fs (chars "p") ;; fs <- SaveDistances (fmt_short false) ok L' fs (chars "q") ;;
   b' <- compare_files fs (chars "p") (chars "q") ;; Ok (b, b')) = Ok (true, false) /\
  (L <- Lattice numF pi_d (ChainLattice numF) [2] true ;; L' <- Lattice numF pi_d (ChainLattice numF) [2] false ;;
   fs <- SaveDistances (fmt_short false) ok L none (chars "p") ;; fs <- SaveDistances (fmt_short false) ok L' fs (chars "q") ;;
   compare_files fs (chars "p") (chars "q")) = Ok true.
Proof.
  cbv zeta. split; [standard_lattice|]. split; [constructor; lia|]. split; [vm_compute; discriminate|]. split; [discriminate|].
  split; vm_compute; reflexivity.
Qed.
