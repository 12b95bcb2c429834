(** Lemmas about the files written by lattices. *)
From Coq Require Import ZArith List Bool Lia Ascii String.
From Verif Require Import Base F64 Num S_Math M_MathInt M_MathF M_Pairs M_Grid M_Bravais M_Text M_Util M_Obs M_Lattice S_Grid S_Bravais S_Obs S_Lattice S_LatticeF
  L_MathInt L_Grid L_MathF L_Bravais L_Util L_Obs L_Lattice.
Import ListNotations.
Open Scope Z_scope.

Lemma join_flat c cs : join (c :: cs) = c ++ flat_map (fun x => comma :: x) cs.
Proof.
  revert c. induction cs as [|d cs IH]; intros c; [cbn; now rewrite app_nil_r|]. rewrite join_cons by discriminate. now rewrite IH.
Qed.

Section Files.
Context {T : Type} (N : num T) (pi : T) (fmt : T -> list ascii) (wr : list ascii -> bool).
Context (fmt_clean : forall x, clean (fmt x)).

Lemma fields_line i (v : list T) : i ++ fields fmt v ++ [newline] = line (i :: map fmt v).
Proof. unfold line, fields. rewrite join_flat, flat_map_map, <- app_assoc. reflexivity. Qed.

Lemma columns_cells c n : columns c n = flat_map (fun x => comma :: x) (titles c n).
Proof. unfold columns, titles. now rewrite flat_map_map. Qed.

Lemma fields_cells (v : list T) : fields fmt v = flat_map (fun x => comma :: x) (map fmt v).
Proof. unfold fields. now rewrite flat_map_map. Qed.

Lemma column_clean c k : c <> comma -> c <> newline -> clean (c :: put_int k).
Proof.
  intros H1 H2. destruct (put_int_clean k) as [A B]. split; intros [E|E]; auto.
Qed.

Lemma columns_clean c n : c <> comma -> c <> newline -> Forall clean (titles c n).
Proof. unfold titles. intros H1 H2. apply Forall_map, Forall_forall. intros k _. now apply column_clean. Qed.

Lemma map_fmt_clean v : Forall clean (map fmt v).
Proof. apply Forall_map, Forall_forall. intros. apply fmt_clean. Qed.

Lemma site_file_rows L c get p : (forall i, 0 <= i < GetNumSites (l_grid L) -> get i = Ok (p i)) ->
  site_file fmt L c get = Ok (List.concat (map line (site_rows fmt c (dim (l_grid L)) (GetNumSites (l_grid L)) p))).
Proof.
  intros G. unfold site_file, site_lines.
  rewrite (omapl_pure _ (fun i => line (put_int i :: map fmt (p i)))).
  - cbn [bind]. unfold site_rows. cbn [map List.concat]. f_equal. rewrite map_map. rewrite columns_cells. unfold line at 2. rewrite join_flat, <- !app_assoc. reflexivity.
  - intros i Hi. apply upto_In in Hi. rewrite G by exact Hi. cbn [bind]. f_equal. apply fields_line.
Qed.

Lemma clean_i : clean (chars "i").
Proof. split; intros [E|[]]; discriminate E. Qed.

Lemma site_table c d n p : c <> comma -> c <> newline -> table (List.concat (map line (site_rows fmt c d n p))) = site_rows fmt c d n p.
Proof.
  intros H1 H2. apply table_lines. constructor.
  - split; [discriminate|]. constructor; [apply clean_i|now apply columns_clean].
  - apply Forall_map, Forall_forall. intros i _. split; [discriminate|]. constructor; [apply put_int_clean|apply map_fmt_clean].
Qed.

Lemma write_spec fs fname text rows : wr fname = true -> text = List.concat (map line rows) -> table text = rows ->
  saved fs fname (Ok (write wr fs fname text)) rows.
Proof.
  intros W E1 E2. exists (write wr fs fname text), text. unfold write. rewrite W. split; [reflexivity|].
  split; [apply set_file_same|]. split; [|auto]. intros f Hf. now apply set_file_other.
Qed.

Definition from_zero (B : bravais T) (size : list Z) (cl : bool) (j : Z) : list T :=
  if cl then snd (best N B size (coords_of size j)) else pv N B (coords_of size j).

Lemma from_zero_spec (B : bravais T) size cl j : lattice_ok B size -> valid_site size j ->
  GetVector (built N pi B size cl) 0 j = Ok (from_zero B size cl j).
Proof.
  intros H Hj. pose proof H as (W & Hs & H40 & Hok & He & Hn). unfold GetVector. change (l_grid (built N pi B size cl)) with (HyperCubicGrid size cl).
  assert (M : GetMappedSite (HyperCubicGrid size cl) 0 j = Ok j).
  { destruct cl; [now apply (mapped_from_origin (HyperCubicGrid size true))|].
    rewrite (mapped_open (HyperCubicGrid size false)) by (reflexivity || assumption || (unfold site, valid_site in *; cbn [HyperCubicGrid gsize]; lia)).
    rewrite Z.sub_0_r, u64_small; [reflexivity|]. unfold valid_site in Hj. destruct Hok as [_ Hp]. lia. }
  rewrite M. cbn [bind]. destruct (distance_built N pi B size cl j H Hj) as [V _]. exact V.
Qed.

Lemma save_sites (B : bravais T) size cl : lattice_ok B size ->
  exists L p v m, Lattice N pi B size cl = Ok L /\
  (forall i, valid_site size i -> GetPosition L i = Ok (p i) /\ vsize (p i) = vsize size /\ GetVector L 0 i = Ok (v i) /\ vsize (v i) = vsize size /\
    (cl = true -> GetMomentum L i = Ok (m i) /\ vsize (m i) = vsize size)) /\
  forall fs fname, wr fname = true ->
  saved fs fname (SavePositions fmt wr L fs fname) (site_rows fmt "x" (vsize size) (prodZ size) p) /\
  saved fs fname (SaveDistances fmt wr L fs fname) (site_rows fmt "d" (vsize size) (prodZ size) v) /\
  (cl = true -> saved fs fname (SaveMomenta fmt wr L fs fname) (site_rows fmt "k" (vsize size) (prodZ size) m)).
Proof.
  intros H. pose proof H as (W & Hs & H40 & Hok & He & Hn). destruct (grid_sites size cl Hok) as [En Pn]. destruct (ok_dims _ _ H) as [Dm DS].
  exists (built N pi B size cl), (fun i => pv N B (coords_of size i)), (from_zero B size cl), (fun i => mom N pi B size (coords_of size i)).
  split; [now apply lattice_built|].
  assert (P : forall i, valid_site size i -> GetPosition (built N pi B size cl) i = Ok (pv N B (coords_of size i))).
  { intros i Hi. unfold GetPosition, built. cbn [l_pos]. now apply (vget_sites (fun i => pv N B (coords_of size i))). }
  assert (V : forall i, valid_site size i -> GetVector (built N pi B size cl) 0 i = Ok (from_zero B size cl i)).
  { intros i Hi. now apply from_zero_spec. }
  assert (M : cl = true -> forall i, valid_site size i -> GetMomentum (built N pi B size cl) i = Ok (mom N pi B size (coords_of size i))).
  { intros -> i Hi. unfold GetMomentum, built. cbn [l_mom]. now apply (vget_sites (fun i => mom N pi B size (coords_of size i))). }
  split.
  - intros i Hi. split; [now apply P|]. rewrite Hs. split; [apply vsize_map_upto; lia|]. split; [now apply V|]. split.
    + unfold from_zero. destruct cl; [|apply vsize_map_upto; lia]. unfold best.
      assert (G : forall l st, vsize (snd st) = b_dim B -> vsize (snd (fold_left (closer N B size (coords_of size i)) l st)) = b_dim B).
      { induction l as [|e l IH]; intros st Hst; [exact Hst|]. cbn [fold_left]. apply IH. unfold closer. destruct (n_lt N _ _); [|exact Hst].
        cbn [snd]. apply vsize_map_upto. lia. }
      apply G. cbn [snd]. apply vsize_map_upto. lia.
    + intros Hc. split; [now apply M|]. apply vsize_map_upto. lia.
  - intros fs fname Hw.
    assert (D : dim (l_grid (built N pi B size cl)) = vsize size) by reflexivity.
    assert (Nn : GetNumSites (l_grid (built N pi B size cl)) = prodZ size) by exact En.
    assert (S : forall c get q, c <> comma -> c <> newline -> (forall i, valid_site size i -> get i = Ok (q i)) ->
      saved fs fname (t <- site_file fmt (built N pi B size cl) c get ;; Ok (write wr fs fname t)) (site_rows fmt c (vsize size) (prodZ size) q)).
    { intros c get q H1 H2 G. rewrite (site_file_rows _ c get q); [|rewrite Nn; exact G]. cbn [bind]. rewrite D, Nn.
      apply write_spec; [exact Hw|reflexivity|now apply site_table]. }
    split; [|split].
    + apply S; [discriminate|discriminate|exact P].
    + apply S; [discriminate|discriminate|exact V].
    + intros Hc. apply S; [discriminate|discriminate|now apply M].
Qed.

Lemma titles_clean3 d : Forall clean (titles "x" d ++ titles "y" d ++ titles "d" d).
Proof. apply Forall_app; split; [|apply Forall_app; split]; apply columns_clean; discriminate. Qed.

Lemma pairs_small n i : 0 < n < 2 ^ 32 -> 0 <= i < n * n -> 0 <= i mod n < n /\ 0 <= i / n < n /\ GetPairIndex (i mod n) (i / n) n = i.
Proof.
  intros Hn Hi. pose proof (Z.mod_pos_bound i n ltac:(lia)). pose proof (Z.div_mod i n ltac:(lia)) as D.
  assert (0 <= i / n) by (apply Z.div_pos; lia). assert (i / n < n) by (apply Z.div_lt_upper_bound; lia).
  split; [lia|]. split; [lia|]. pose proof two64_eq. rewrite GetPairIndex_small; nia.
Qed.

Lemma save_pairs (B : bravais T) size : lattice_ok B size -> prodZ size < 2 ^ 32 ->
  exists L v, Lattice N pi B size true = Ok L /\
  (forall a b, valid_site size a -> valid_site size b -> GetVector L a b = Ok (v a b) /\ vsize (v a b) = vsize size) /\
  forall fs fname, wr fname = true ->
  saved fs fname (SavePairs fmt wr L fs fname) (pair_rows fmt (vsize size) (prodZ size) v).
Proof.
  intros H Hlt. pose proof H as (W & Hs & H40 & Hok & He & Hn). destruct (grid_sites size true Hok) as [En Pn]. destruct (ok_dims _ _ H) as [Dm DS].
  exists (built N pi B size true), (fun a b => snd (best N B size (seen_from size (coords_of size a) (coords_of size b)))).
  split; [now apply lattice_built|].
  assert (V : forall a b, valid_site size a -> valid_site size b ->
    GetVector (built N pi B size true) a b = Ok (snd (best N B size (seen_from size (coords_of size a) (coords_of size b))))).
  { intros a b Ha Hb. destruct (closed_distance N pi B size a b H Ha Hb) as (_ & E & _). exact E. }
  split.
  - intros a b Ha Hb. split; [now apply V|]. rewrite Hs. unfold best.
    assert (G : forall c l st, vsize (snd st) = b_dim B -> vsize (snd (fold_left (closer N B size c) l st)) = b_dim B).
    { intros c. induction l as [|e l IH]; intros st Hst; [exact Hst|]. cbn [fold_left]. apply IH. unfold closer. destruct (n_lt N _ _); [|exact Hst].
      cbn [snd]. apply vsize_map_upto. lia. }
    apply G. cbn [snd]. apply vsize_map_upto. lia.
  - intros fs fname Hw. unfold SavePairs. change (l_grid (built N pi B size true)) with (HyperCubicGrid size true). rewrite En.
    change (dim (HyperCubicGrid size true)) with (vsize size).
    set (n := prodZ size) in *.
    assert (NP : GetNumPairs n = n * n) by (unfold GetNumPairs, square_u; apply u64_small; rewrite two64_eq; nia). rewrite NP.
    set (v := fun a b => snd (best N B size (seen_from size (coords_of size a) (coords_of size b)))) in *.
    rewrite (omapl_pure _ (fun i => line (put_int i :: put_int (i mod n) :: put_int (i / n) ::
      map fmt (v 0 (i mod n)) ++ map fmt (v 0 (i / n)) ++ map fmt (v (i mod n) (i / n))))).
    + cbn [bind]. apply write_spec; [exact Hw| |].
      * unfold pair_rows. cbn [map List.concat]. rewrite map_map. unfold line at 2. rewrite join_flat. cbn [flat_map]. rewrite !flat_map_app, <- !columns_cells.
        rewrite <- !app_assoc. reflexivity.
      * assert (E : chars "i,a,b" ++ columns "x" (vsize size) ++ columns "y" (vsize size) ++ columns "d" (vsize size) ++ [newline] ++
          List.concat (map (fun i => line (put_int i :: put_int (i mod n) :: put_int (i / n) ::
            map fmt (v 0 (i mod n)) ++ map fmt (v 0 (i / n)) ++ map fmt (v (i mod n) (i / n)))) (upto (n * n))) =
          List.concat (map line (pair_rows fmt (vsize size) n v))).
        { unfold pair_rows. cbn [map List.concat]. rewrite map_map. unfold line at 2. rewrite join_flat. cbn [flat_map]. rewrite !flat_map_app, <- !columns_cells.
          rewrite <- !app_assoc. reflexivity. }
        rewrite E. apply table_lines. constructor.
        -- split; [discriminate|]. repeat (constructor; [split; intros [F|[]]; discriminate F|]). apply titles_clean3.
        -- apply Forall_map, Forall_forall. intros i _. split; [discriminate|]. repeat (constructor; [apply put_int_clean|]).
           apply Forall_app; split; [|apply Forall_app; split]; apply map_fmt_clean.
    + intros i Hi. apply upto_In in Hi. destruct (pairs_small n i ltac:(lia) Hi) as (Ha & Hb & Ei).
      unfold GetPair. replace (n =? 0) with false by (symmetry; apply Z.eqb_neq; lia). cbn [bind fst snd].
      assert (V0 : valid_site size 0) by (unfold valid_site; lia).
      rewrite !V by assumption. cbn [bind]. fold (v 0 (i mod n)) (v 0 (i / n)) (v (i mod n) (i / n)). rewrite Ei. f_equal.
      unfold line. rewrite join_flat. cbn [flat_map]. rewrite !flat_map_app, <- !fields_cells, <- !app_assoc. cbn [app]. repeat rewrite <- app_assoc. cbn [app]. reflexivity.
Qed.
End Files.

Lemma save_pairs_open {T} (N : num T) pi (B : bravais T) size : lattice_ok B size -> 1 < prodZ size < 2 ^ 32 ->
  exists L, Lattice N pi B size false = Ok L /\ forall fmt wr fs fname, SavePairs fmt wr L fs fname = UB.
Proof.
  intros H Hlt. pose proof H as (W & Hs & H40 & Hok & He & Hn). destruct (grid_sites size false Hok) as [En Pn].
  exists (built N pi B size false). split; [now apply lattice_built|]. intros fmt wr fs fname.
  unfold SavePairs. change (l_grid (built N pi B size false)) with (HyperCubicGrid size false). rewrite En.
  set (n := prodZ size) in *. assert (NP : GetNumPairs n = n * n) by (unfold GetNumPairs, square_u; apply u64_small; rewrite two64_eq; nia). rewrite NP.
  assert (E : exists l, upto (n * n) = 0 :: 1 :: l).
  { assert (L2 : List.length (upto (n * n)) = Z.to_nat (n * n)) by apply upto_length.
    pose proof (upto_nth (n * n) 0%nat 0 ltac:(nia)) as U0. pose proof (upto_nth (n * n) 1%nat 0 ltac:(nia)) as U1.
    destruct (upto (n * n)) as [|x [|y l]]; cbn [List.length] in L2; [nia|nia|]. cbn [nth] in U0, U1. exists l. rewrite U0, U1. reflexivity. }
  destruct E as [l ->]. cbn [omapl].
  unfold GetPair. replace (n =? 0) with false by (symmetry; apply Z.eqb_neq; lia). cbn [bind fst snd].
  rewrite Z.mod_0_l, Z.div_0_l by lia. rewrite (Z.mod_small 1 n), (Z.div_small 1 n) by lia.
  assert (V0 : valid_site size 0) by (unfold valid_site; fold n; lia). assert (V1 : valid_site size 1) by (unfold valid_site; fold n; lia).
  rewrite !(from_zero_spec N pi B size false) by assumption. cbn [bind].
  assert (U : GetVector (built N pi B size false) 1 0 = UB).
  { unfold GetVector. change (l_grid (built N pi B size false)) with (HyperCubicGrid size false).
    rewrite (mapped_open (HyperCubicGrid size false)) by (reflexivity || assumption). cbn [bind].
    apply vget_oob. unfold built. cbn [l_vec]. rewrite vsize_map_upto by lia. change (u64 (0 - 1)) with (2 ^ 64 - 1). fold n. lia. }
  rewrite U. reflexivity.
Qed.

Lemma rectangular {T} (fmt : T -> list ascii) c d n (p : Z -> list T) (v : Z -> Z -> list T) :
  0 <= d -> 0 < n -> (forall i, 0 <= i < n -> vsize (p i) = d) ->
  (forall a b, 0 <= a < n -> 0 <= b < n -> vsize (v a b) = d) ->
  Forall (fun r => vsize r = 1 + d) (site_rows fmt c d n p) /\ vsize (site_rows fmt c d n p) = 1 + n /\
  Forall (fun r => vsize r = 3 + 3 * d) (pair_rows fmt d n v) /\ vsize (pair_rows fmt d n v) = 1 + n * n.
Proof.
  intros Hd Hn Hp Hv. unfold vsize in *.
  assert (Lt : forall c, Z.of_nat (List.length (titles c d)) = d) by (intros; unfold titles; rewrite map_length, upto_length; lia).
  split; [|split; [|split]].
  - unfold site_rows. constructor; [cbn [List.length]; specialize (Lt c); lia|]. apply Forall_map, Forall_forall. intros i Hi. apply upto_In in Hi.
    cbn [List.length]. rewrite map_length. specialize (Hp i Hi). lia.
  - unfold site_rows. cbn [List.length]. rewrite map_length, upto_length. lia.
  - unfold pair_rows. constructor; [cbn [List.length]; rewrite !app_length; pose proof (Lt "x"%char); pose proof (Lt "y"%char); pose proof (Lt "d"%char); lia|].
    apply Forall_map, Forall_forall. intros i Hi. apply upto_In in Hi. cbv zeta.
    assert (0 <= i mod n < n) by (apply Z.mod_pos_bound; lia). assert (0 <= i / n < n) by (split; [apply Z.div_pos; lia|apply Z.div_lt_upper_bound; lia]).
    cbn [List.length]. rewrite !app_length, !map_length.
    pose proof (Hv 0 (i mod n) ltac:(lia) ltac:(lia)). pose proof (Hv 0 (i / n) ltac:(lia) ltac:(lia)). pose proof (Hv (i mod n) (i / n) ltac:(lia) ltac:(lia)). lia.
  - unfold pair_rows. cbn [List.length]. rewrite map_length, upto_length. nia.
Qed.
