(** Lemmas about walks given by directions. *)
From Coq Require Import ZArith List Bool Lia Permutation.
From Verif Require Import Base F64 Num S_Math S_Accum M_MathInt L_MathInt M_Grid M_Bravais M_Lattice S_Grid L_Grid S_Bravais S_Lattice S_LatticeN
  L_Bravais L_Lattice L_LatticeN S_Jump L_Jump S_Colour L_Colour S_Route.
Import ListNotations.
Open Scope Z_scope.

Lemma zip_add_assoc a : forall b c, shifted a (shifted b c) = shifted (shifted a b) c.
Proof. unfold shifted. induction a as [|x a IH]; intros [|y b] [|z c]; try reflexivity. cbn [zip_with]. f_equal; [lia|apply IH]. Qed.

Lemma zip_add_comm a : forall b, shifted a b = shifted b a.
Proof. unfold shifted. induction a as [|x a IH]; intros [|y b]; try reflexivity. cbn [zip_with]. f_equal; [lia|apply IH]. Qed.

Lemma shifted_zeros n a : length a = n -> shifted a (repeat 0 n) = a.
Proof. intros <-. unfold shifted. induction a as [|x a IH]; [reflexivity|]. cbn [length repeat zip_with]. rewrite IH. f_equal. lia. Qed.

Lemma sum_into_zip a : forall b s, sum_into a b = Ok s -> length a = length b -> s = shifted a b.
Proof.
  intros b s E L. destruct (sum_into_spec _ _ _ E) as (_ & Ls & G). unfold shifted.
  assert (Lz : length (zip_with Z.add a b) = length a) by (clear - L; revert b L; induction a as [|x a IH]; intros [|y b] L; try discriminate L; [reflexivity|]; cbn [zip_with length]; f_equal; apply IH; now injection L).
  apply (nth_ext _ _ 0 0); [congruence|]. intros i Hi. rewrite G by congruence. clear - L Hi Ls. rewrite Ls in Hi. clear Ls s. revert b i L Hi.
  induction a as [|x a IH]; intros [|y b] i L Hi; try discriminate L; [cbn in Hi; lia|]. destruct i as [|i]; [reflexivity|]. cbn [zip_with nth]. apply IH; [now injection L|cbn in Hi; lia].
Qed.

Lemma mod_image s x d : 0 < s -> 2 * Z.abs d < s -> 0 <= x < s -> min_image s ((x + d) mod s - x) d.
Proof.
  intros Hs Hd Hx. split; [|lia]. exists (((x + d) / s)). pose proof (Z.div_mod (x + d) s ltac:(lia)). lia.
Qed.

Lemma hop_images size c : on_grid size c -> Forall (fun s => 0 < s) size -> forall d, Forall2 (fun s x => 2 * Z.abs x < s) size d ->
  Forall3 min_image size (zip_with Z.sub (hop size c d) c) d.
Proof.
  induction 1 as [|s x size c Hx G IH]; intros F d D; inversion D; subst; [constructor|]. inversion F; subst. rewrite hop_cons. cbn [zip_with].
  constructor; [now apply mod_image|now apply IH].
Qed.

Lemma images_unique size : forall d j j', Forall3 min_image size d j -> Forall3 min_image size d j' -> j = j'.
Proof.
  intros d j j' F. revert j'. induction F as [|s x y size d j M F IH]; intros j' F'; inversion F'; subst; [reflexivity|].
  f_equal; [now apply (min_image_unique s x)|now apply IH].
Qed.

Lemma last_cons {A} (w : list A) : forall a b, last (b :: w) a = last w b.
Proof.
  induction w as [|x w IH]; intros a b; [reflexivity|]. change (last (b :: x :: w) a) with (last (x :: w) a). rewrite !IH. reflexivity.
Qed.

Section Route.
Context {T : Type} (N : num T) (pi : T) (B : bravais T) (size : list Z).
Hypothesis H : lattice_ok B size.
Let L := built N pi B size true.
Let ok : sizes_ok size := proj1 (proj2 (proj2 (proj2 H))).
Let pos : Forall (fun s => 0 < s) size := sizes_pos size ok.

Lemma disp_length j : 0 <= j < b_gamma B -> length (displacement B j) = length size.
Proof. intros Hj. apply (steps_length B size H). unfold steps. apply in_map. now apply upto_In. Qed.

Lemma dim_length : Z.to_nat (b_dim B) = length size.
Proof. pose proof H as (_ & E & _). unfold vsize in E. lia. Qed.

Lemma overall_length js : directions B js -> length (overall B js) = length size.
Proof.
  unfold directions, overall. induction 1 as [|j js Hj F IH]; cbn [fold_right]; [now rewrite repeat_length, dim_length|].
  apply shifted_length; [now apply disp_length|exact IH].
Qed.

Lemma overall_app js ks : directions B js -> directions B ks -> overall B (js ++ ks) = shifted (overall B js) (overall B ks).
Proof.
  intros F G. unfold directions in F. induction F as [|j js Hj F IH]; cbn [app overall fold_right].
  - fold (overall B ks). rewrite zip_add_comm, shifted_zeros; [reflexivity|]. rewrite (overall_length ks G). symmetry. apply dim_length.
  - fold (overall B (js ++ ks)) (overall B js). now rewrite IH, zip_add_assoc.
Qed.

Lemma overall_perm js ks : Permutation js ks -> overall B js = overall B ks.
Proof.
  unfold overall. induction 1 as [|j js ks P IH|i j js|js ks ls P IH Q IH']; cbn [fold_right]; [reflexivity|congruence| |congruence].
  rewrite !zip_add_assoc. f_equal. apply zip_add_comm.
Qed.

Lemma opposite_ok j : 0 <= j < b_gamma B -> 0 <= opposite j < b_gamma B /\ shifted (displacement B j) (displacement B (opposite j)) = repeat 0 (length size).
Proof.
  intros Hj. assert (R : opposite j = partner j) by reflexivity. rewrite R.
  assert (Q : 0 <= partner j < b_gamma B /\ displacement B (partner j) = map Z.opp (displacement B j)) by (apply partner_spec; [apply H|exact Hj]).
  destruct Q as [Q1 Q2]. split; [exact Q1|]. rewrite Q2, <- (disp_length j Hj). unfold shifted. generalize (displacement B j). clear.
  induction l as [|x l IH]; [reflexivity|]. cbn [map zip_with length repeat]. rewrite IH. f_equal. lia.
Qed.

Hypothesis S : small_sizes size.
Hypothesis Sh : short_steps B size.

Lemma route_spec js : directions B js -> forall a, valid_site size a ->
  exists w, route L a js = Ok w /\ Forall (valid_site size) w /\ length w = length js /\
  coords_of size (last w a) = reduced_mod size (shifted (coords_of size a) (overall B js)) /\
  forall acc t, length acc = length size -> walk_jumps (HyperCubicGrid size true) a w acc = Ok t -> t = shifted acc (overall B js).
Proof.
  unfold directions. induction 1 as [|j js Hj F IH]; intros a Ha.
  - exists []. destruct (coords_of_spec size a ok Ha) as (_ & G & _). pose proof (on_grid_length _ _ G) as Lg. cbn [route length last overall fold_right].
    rewrite dim_length. split; [reflexivity|]. split; [constructor|]. split; [reflexivity|]. split.
    + rewrite shifted_zeros by exact Lg. rewrite <- (hop_zero size _ G) at 1. unfold hop. rewrite shifted_zeros by exact Lg. reflexivity.
    + intros acc t La E. cbn in E. injection E as <-. symmetry. now apply shifted_zeros.
  - destruct (coords_of_spec size a ok Ha) as (_ & G & _). pose proof (on_grid_length _ _ G) as Lg. pose proof (disp_length j Hj) as Ld.
    set (c := coords_of size a) in *. set (d := displacement B j) in *.
    assert (Gd : on_grid size (hop size c d)) by now apply hop_on_grid.
    pose proof (row_major_valid _ _ Gd) as Vb. set (b := row_major size (hop size c d)) in *.
    assert (Cb : coords_of size b = hop size c d) by (unfold b; now apply coords_of_row_major).
    destruct (IH b Vb) as (w & Ew & Fw & Lw & Cw & Jw). exists (b :: w).
    assert (Lo : length (overall B js) = length size) by now apply overall_length.
    assert (En : GetNeighbors L a = Ok (nbrs B size true c (upto (b_gamma B)))) by now apply get_neighbors.
    assert (Ev : vget (nbrs B size true c (upto (b_gamma B))) j = Ok b).
    { unfold nbrs. rewrite map_map. rewrite (vget_sites (fun j => row_major size (reduced_mod size (shifted c (displacement B j))))) by exact Hj. reflexivity. }
    cbn [route]. rewrite En. cbn [bind]. rewrite Ev. cbn [bind]. rewrite Ew. cbn [bind].
    split; [reflexivity|]. split; [now constructor|]. split; [cbn [length]; now rewrite Lw|].
    cbn [overall fold_right]. fold (overall B js). fold d. split.
    + assert (El : last (b :: w) a = last w b) by apply last_cons.
      rewrite El, Cw, Cb, zip_add_assoc, (reduced_shift size (shifted c d)); [reflexivity|exact pos|now apply shifted_length|exact Lo].
    + intros acc t La E. cbn [walk_jumps] in E. destruct (closed_jump size a b S Ha Vb) as (jj & Ej & Fj). rewrite Ej in E. cbn [bind] in E.
      rewrite Cb in Fj. fold c in Fj. assert (jj = d) as -> by (apply (images_unique size _ _ _ Fj), hop_images; [exact G|exact pos|now apply Sh]).
      destruct (sum_into acc d) as [acc'| | |] eqn:Es; try discriminate E. cbn [bind] in E.
      assert (Ea : acc' = shifted acc d) by (apply sum_into_zip; [exact Es|congruence]). subst acc'.
      rewrite (Jw _ _ (shifted_length size acc d La Ld) E). now rewrite zip_add_assoc.
Qed.
End Route.

Lemma l1_shifted a : forall b, l1 (shifted a b) <= l1 a + l1 b.
Proof.
  unfold shifted. induction a as [|x a IH]; intros [|y b]; cbn [zip_with]; try (cbn [l1 fold_right]; pose proof (l1_nonneg b); pose proof (l1_nonneg (x :: a)); lia).
  - cbn. lia.
  - pose proof (l1_nonneg (y :: b)). cbn [l1 fold_right] in *. lia.
  - pose proof (l1_nonneg (x :: a)). cbn [l1 fold_right] in *. lia.
  - specialize (IH b). rewrite !l1_cons. lia.
Qed.

Lemma total_shifted a : forall b, length a = length b -> total (shifted a b) = total a + total b.
Proof. unfold shifted. induction a as [|x a IH]; intros [|y b] E; try discriminate E; [reflexivity|]. cbn [zip_with total fold_right]. fold (total (zip_with Z.add a b)) (total a) (total b). rewrite IH by now injection E. lia. Qed.

Lemma overall_l1 {T} (B : bravais T) size js : lattice_ok B size -> axis_lattice B -> directions B js ->
  l1 (overall B js) <= Z.of_nat (length js) /\ exists k, total (overall B js) = Z.of_nat (length js) + 2 * k.
Proof.
  intros H A F. unfold directions in F. induction F as [|j js Hj F IH]; cbn [overall fold_right length].
  - rewrite l1_repeat0. split; [lia|]. exists 0. clear. induction (Z.to_nat (b_dim B)) as [|n IH]; [reflexivity|]. cbn [repeat total fold_right] in *. unfold total in IH. rewrite IH. lia.
  - fold (overall B js). destruct IH as [I1 (k & I2)].
    assert (D : In (displacement B j) (steps B)) by (unfold steps; apply in_map; now apply upto_In). apply A in D. destruct D as [_ D].
    pose proof (l1_shifted (displacement B j) (overall B js)). split; [lia|].
    destruct (total_odd (displacement B j)) as (q & Eq). exists (k + q). rewrite total_shifted; [lia|].
    rewrite (disp_length B size H j Hj). symmetry. now apply (overall_length B size H).
Qed.
