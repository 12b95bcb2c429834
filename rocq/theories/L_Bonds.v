(** Lemmas about the bonds of a lattice and what is seen from its sites. *)
From Coq Require Import ZArith Reals List Bool Lia Permutation FinFun.
From Verif Require Import Base F64 Num S_Math S_Accum M_MathInt M_Grid M_Bravais M_Lattice S_Grid S_Bravais S_Lattice S_Bonds
  L_MathInt L_Grid L_MathF L_Bravais L_Lattice L_LatticeK.
Import ListNotations.
Open Scope Z_scope.

Lemma count_map {A} (g : A -> Z) b l : count_occ Z.eq_dec (map g l) b = length (filter (fun x => g x =? b) l).
Proof.
  induction l as [|x l IH]; [reflexivity|]. cbn [map filter count_occ]. destruct (Z.eq_dec (g x) b) as [E|E].
  - rewrite (proj2 (Z.eqb_eq _ _) E). cbn [length]. now rewrite IH.
  - rewrite (proj2 (Z.eqb_neq _ _) E). exact IH.
Qed.

Lemma filter_filter {A} (p q : A -> bool) l : filter p (filter q l) = filter (fun x => q x && p x) l.
Proof. induction l as [|x l IH]; [reflexivity|]. cbn [filter]. destruct (q x); cbn [filter andb]; [destruct (p x); congruence|exact IH]. Qed.

Lemma filter_map_length {A B} (p : B -> bool) (g : A -> B) l : length (filter p (map g l)) = length (filter (fun x => p (g x)) l).
Proof. induction l as [|x l IH]; [reflexivity|]. cbn [map filter]. destruct (p (g x)); cbn [length]; congruence. Qed.

Lemma filter_length_perm {A} (p : A -> bool) l l' : Permutation l l' -> length (filter p l) = length (filter p l').
Proof. induction 1; cbn [filter]; repeat (match goal with |- context [if ?b then _ else _] => destruct b end); cbn [length]; congruence. Qed.

Lemma filter_ext_length {A} (p q : A -> bool) l : (forall x, In x l -> p x = q x) -> length (filter p l) = length (filter q l).
Proof. intros H. f_equal. apply filter_ext_in. exact H. Qed.

Lemma partner_involutive j : partner (partner j) = j.
Proof.
  unfold partner. destruct (Z.even j) eqn:E.
  - rewrite Z.even_add, E. cbn. lia.
  - rewrite Z.even_sub, E. cbn. lia.
Qed.

Lemma upto_NoDup n : NoDup (upto n).
Proof. unfold upto. apply Injective_map_NoDup; [intros x y; lia|apply seq_NoDup]. Qed.

Lemma injective_upto n (f : Z -> Z) : (forall j, 0 <= j < n -> 0 <= f j < n) ->
  (forall j l, 0 <= j < n -> 0 <= l < n -> f j = f l -> j = l) -> Permutation (map f (upto n)) (upto n).
Proof.
  intros V I. apply NoDup_Permutation_bis.
  - assert (G : forall l, (forall x, In x l -> 0 <= x < n) -> NoDup l -> NoDup (map f l)).
    { induction l as [|x l IH]; intros Vl Nl; [constructor|]. inversion Nl; subst. cbn [map]. constructor.
      - intros Q. apply in_map_iff in Q as (y & Ey & Iy). apply I in Ey; [|apply Vl; now right|apply Vl; now left]. subst y. contradiction.
      - apply IH; [intros; apply Vl; now right|assumption]. }
    apply G; [intros x Hx; now apply upto_In in Hx|apply upto_NoDup].
  - now rewrite map_length.
  - intros x Hx. apply in_map_iff in Hx as (y & <- & Hy). apply upto_In in Hy. apply upto_In. now apply V.
Qed.

Section Bonds.
Context {T : Type} (N : num T) (pi : T) (B : bravais T) (size : list Z) (cl : bool).
Hypothesis H : lattice_ok B size.
Let P := prodZ size.
Let Hok : sizes_ok size := proj1 (proj2 (proj2 (proj2 H))).
Let nn (a : Z) : list Z := nbrs B size cl (coords_of size a) (upto (b_gamma B)).
Let L := built N pi B size cl.

Lemma nn_built a : valid_site size a -> GetNeighbors L a = Ok (nn a).
Proof.
  intros Ha. unfold GetNeighbors, L, built. cbn [l_nn]. now apply (vget_sites (fun i => nbrs B size cl (coords_of size i) (upto (b_gamma B)))).
Qed.

(** Whether step j leads from a to b. *)
Definition leads (a b j : Z) : bool :=
  let p := shifted (coords_of size a) (displacement B j) in
  if cl then row_major size (reduced_mod size p) =? b else inside size p && (row_major size p =? b).

Lemma count_leads a b : count_occ Z.eq_dec (nn a) b = length (filter (leads a b) (upto (b_gamma B))).
Proof.
  unfold nn, nbrs, leads. rewrite count_map. destruct cl; [apply filter_map_length|].
  rewrite filter_filter. apply filter_map_length.
Qed.

Lemma leads_back a b j : valid_site size a -> valid_site size b -> 0 <= j < b_gamma B -> leads a b j = true -> leads b a (partner j) = true.
Proof.
  intros Ha Hb Hj. pose proof H as (W & Hs & H40 & _ & He & Hn).
  destruct (coords_of_spec size a Hok Ha) as (_ & Ga & Ra). destruct (coords_of_spec size b Hok Hb) as (_ & Gb & Rb).
  destruct (partner_spec B j He Hj) as [Hj' Ed]. destruct (ok_dims _ _ H) as [_ DS].
  assert (Ld : length (displacement B j) = length size).
  { destruct (displacement_bounds B size j H Hj) as [Q _]. unfold vsize in *. lia. }
  unfold leads. rewrite Ed. destruct cl.
  - rewrite !Z.eqb_eq. intros <-. rewrite coords_of_row_major; [|exact Hok|].
    + now rewrite reduced_back.
    + apply reduced_on_grid; [now apply sizes_pos|]. symmetry. now apply neighbor_point.
  - rewrite !andb_true_iff, !Z.eqb_eq. intros [Ip <-]. rewrite coords_of_row_major; [|exact Hok|now apply inside_spec].
    rewrite shifted_opp by (rewrite Ld; symmetry; now apply on_grid_length). split; [now apply inside_spec|exact Ra].
Qed.

Lemma multiplicity a b : valid_site size a -> valid_site size b -> count_occ Z.eq_dec (nn a) b = count_occ Z.eq_dec (nn b) a.
Proof.
  intros Ha Hb. pose proof H as (W & Hs & H40 & _ & He & Hn). rewrite !count_leads.
  assert (Pp : Permutation (map partner (upto (b_gamma B))) (upto (b_gamma B))).
  { apply injective_upto; [intros j Hj; now apply (partner_spec B)|]. intros j l _ _ E. rewrite <- (partner_involutive j), E. apply partner_involutive. }
  rewrite <- (filter_length_perm _ _ _ Pp), filter_map_length. apply filter_ext_length. intros j Hj. apply upto_In in Hj.
  destruct (partner_spec B j He Hj) as [Hj' _]. apply eq_true_iff_eq. split; intros Q.
  - apply leads_back in Q; try assumption. now rewrite partner_involutive in Q.
  - now apply leads_back.
Qed.

Lemma nn_valid a b : valid_site size a -> In b (nn a) -> valid_site size b.
Proof.
  intros Ha Hb. destruct (neighbor_lists N pi B size cl H) as (L' & EL & Q). rewrite (lattice_built N pi B size cl H) in EL. injection EL as <-.
  destruct (Q a Ha) as (c & n & _ & En & _ & F & _). fold L in En. rewrite nn_built in En by exact Ha. injection En as <-.
  rewrite Forall_forall in F. now apply F.
Qed.

Lemma nn_table : omapl (GetNeighbors L) (upto P) = Ok (map nn (upto P)).
Proof. apply omapl_pure. intros a Ha. apply upto_In in Ha. now apply nn_built. Qed.

Lemma bonds_map n : bonds (map nn (upto n)) = flat_map (fun i => map (fun b => (i, b)) (nn i)) (upto n).
Proof.
  unfold bonds. replace (upto (vsize (map nn (upto n)))) with (upto n).
  - generalize (upto n). induction l as [|x l IH]; [reflexivity|]. cbn [map combine flat_map fst snd]. now rewrite IH.
  - unfold vsize. rewrite map_length, upto_length. unfold upto. f_equal. f_equal. lia.
Qed.

Definition pair_dec (x y : Z * Z) : {x = y} + {x <> y}.
Proof. decide equality; apply Z.eq_dec. Defined.

Lemma count_pairs i a b l : count_occ pair_dec (map (fun n => (i, n)) l) (a, b) = if i =? a then count_occ Z.eq_dec l b else 0%nat.
Proof.
  induction l as [|x l IH]; [now destruct (i =? a)|]. cbn [map count_occ]. destruct (pair_dec (i, x) (a, b)) as [E|E].
  - injection E as -> ->. rewrite IH, Z.eqb_refl. destruct (Z.eq_dec b b); congruence.
  - rewrite IH. destruct (Z.eqb_spec i a) as [->|]; [|reflexivity]. destruct (Z.eq_dec x b); [subst; congruence|reflexivity].
Qed.

Lemma count_bonds_list a b l : NoDup l -> count_occ pair_dec (flat_map (fun i => map (fun n => (i, n)) (nn i)) l) (a, b) =
  if in_dec Z.eq_dec a l then count_occ Z.eq_dec (nn a) b else 0%nat.
Proof.
  induction 1 as [|x l Nx Nl IH]; [reflexivity|]. cbn [flat_map]. rewrite count_occ_app, IH, count_pairs.
  destruct (Z.eqb_spec x a) as [->|Ne].
  - destruct (in_dec Z.eq_dec a l); [contradiction|]. destruct (in_dec Z.eq_dec a (a :: l)) as [_|Q]; [lia|exfalso; apply Q; now left].
  - destruct (in_dec Z.eq_dec a l) as [I|I]; destruct (in_dec Z.eq_dec a (x :: l)) as [J|J]; try lia.
    + exfalso. apply J. now right.
    + exfalso. destruct J; contradiction.
Qed.

Lemma count_bonds a b : valid_site size a -> count_occ pair_dec (bonds (map nn (upto P))) (a, b) = count_occ Z.eq_dec (nn a) b.
Proof.
  intros Ha. rewrite bonds_map, count_bonds_list by apply upto_NoDup. destruct (in_dec Z.eq_dec a (upto P)) as [_|Q]; [reflexivity|].
  exfalso. apply Q. now apply upto_In.
Qed.

Lemma count_bonds_out a b : ~ (valid_site size a /\ valid_site size b) -> count_occ pair_dec (bonds (map nn (upto P))) (a, b) = 0%nat.
Proof.
  intros Q. apply count_occ_not_In. rewrite bonds_map. intros I. apply in_flat_map in I as (i & Ii & I). apply in_map_iff in I as (n & E & In').
  injection E as -> ->. apply upto_In in Ii. apply Q. split; [exact Ii|]. now apply (nn_valid a).
Qed.

Lemma count_reversed a b l : count_occ pair_dec (reversed l) (a, b) = count_occ pair_dec l (b, a).
Proof.
  unfold reversed. induction l as [|[x y] l IH]; [reflexivity|]. cbn [map count_occ fst snd]. rewrite IH.
  destruct (pair_dec (y, x) (a, b)) as [E|E]; destruct (pair_dec (x, y) (b, a)) as [F|F]; congruence.
Qed.

Lemma valid_dec a : {valid_site size a} + {~ valid_site size a}.
Proof. unfold valid_site. destruct (Z_le_dec 0 a); [destruct (Z_lt_dec a (prodZ size)); [left|right]|right]; lia. Qed.

Lemma bonds_reversed : Permutation (bonds (map nn (upto P))) (reversed (bonds (map nn (upto P)))).
Proof.
  apply (Permutation_count_occ pair_dec). intros [a b]. rewrite count_reversed.
  destruct (valid_dec a) as [Ha|Ha]; [destruct (valid_dec b) as [Hb|Hb]|].
  - rewrite !count_bonds by assumption. now apply multiplicity.
  - rewrite !count_bonds_out by tauto. reflexivity.
  - rewrite !count_bonds_out by tauto. reflexivity.
Qed.
End Bonds.

(** * Translations of closed lattices *)
Section Closed.
Context {T : Type} (N : num T) (pi : T) (B : bravais T) (size : list Z).
Hypothesis H : lattice_ok B size.
Let P := prodZ size.
Let Hok : sizes_ok size := proj1 (proj2 (proj2 (proj2 H))).
Let g := HyperCubicGrid size true.
Let L := built N pi B size true.
Let nn (a : Z) : list Z := nbrs B size true (coords_of size a) (upto (b_gamma B)).

Definition moved (t a : Z) : Z := row_major size (moved_by size (coords_of size a) (coords_of size t)).

Lemma moved_ok t a : valid_site size t -> valid_site size a -> GetUnMappedSite g t a = Ok (moved t a).
Proof.
  intros Ht Ha. destruct (coords_of_spec size a Hok Ha) as (_ & Ga & Ra). destruct (coords_of_spec size t Hok Ht) as (_ & Gt & Rt).
  rewrite <- Ra at 1. rewrite <- Rt at 1. apply (unmapped_closed (HyperCubicGrid size true)); auto.
Qed.

Lemma moved_valid t a : valid_site size t -> valid_site size a ->
  valid_site size (moved t a) /\ coords_of size (moved t a) = moved_by size (coords_of size a) (coords_of size t).
Proof.
  intros Ht Ha. destruct (coords_of_spec size a Hok Ha) as (_ & Ga & Ra). destruct (coords_of_spec size t Hok Ht) as (_ & Gt & Rt).
  assert (G : on_grid size (moved_by size (coords_of size a) (coords_of size t))) by now apply moved_by_on_grid.
  split; [now apply row_major_valid|]. now apply coords_of_row_major.
Qed.

Lemma moved_inj t a b : valid_site size t -> valid_site size a -> valid_site size b -> moved t a = moved t b -> a = b.
Proof.
  intros Ht Ha Hb E. destruct (mapped_valid (HyperCubicGrid size true) t t) as (z & Ez & Vz & _); try assumption; [reflexivity|].
  pose proof (moved_ok t a Ht Ha) as Ea. pose proof (moved_ok t b Ht Hb) as Eb.
  destruct (coords_of_spec size a Hok Ha) as (_ & Ga & Ra). destruct (coords_of_spec size b Hok Hb) as (_ & Gb & Rb).
  destruct (coords_of_spec size t Hok Ht) as (_ & Gt & _).
  destruct (moved_valid t a Ht Ha) as [_ Ca]. destruct (moved_valid t b Ht Hb) as [_ Cb]. rewrite E, Cb in Ca.
  rewrite <- Ra, <- Rb. f_equal. clear -Ca Ga Gb Gt. revert Ca. unfold moved_by. revert Gb Gt.
  generalize (coords_of size b) (coords_of size t). induction Ga as [|s x l c Hx G IH]; intros [|y d] [|z e] Gb Gt; try (now inversion Gb); try (now inversion Gt).
  inversion Gb; subst. inversion Gt; subst. cbn [map3]. intros Q. injection Q as Q1 Q2. f_equal; [|now apply (IH d e)].
  pose proof (Z.div_mod (x + z) s ltac:(lia)) as D1. pose proof (Z.div_mod (y + z) s ltac:(lia)) as D2.
  assert (D : y - x = s * ((y + z) / s - (x + z) / s)) by lia.
  assert ((y + z) / s - (x + z) / s = 0) by nia. nia.
Qed.

Lemma reduced_moved : forall sz a t d, Forall (fun s => 0 < s) sz -> length a = length sz -> length t = length sz -> length d = length sz ->
  reduced_mod sz (shifted (moved_by sz a t) d) = moved_by sz (reduced_mod sz (shifted a d)) t.
Proof.
  unfold reduced_mod, shifted, moved_by. intros sz a t d F. revert a t d.
  induction F as [|s sz Hs F IH]; intros [|x a] [|y t] [|z d] La Lt Ld; try discriminate; [reflexivity|].
  cbn [zip_with map3]. f_equal; [|apply IH; cbn [length] in *; lia].
  rewrite !Zplus_mod_idemp_l. f_equal. lia.
Qed.

Lemma nn_moved t a : valid_site size t -> valid_site size a -> nn (moved t a) = map (moved t) (nn a).
Proof.
  intros Ht Ha. unfold nn, nbrs. rewrite !map_map. destruct (moved_valid t a Ht Ha) as [_ ->].
  destruct (coords_of_spec size a Hok Ha) as (_ & Ga & Ra). destruct (coords_of_spec size t Hok Ht) as (_ & Gt & Rt).
  apply map_ext_in. intros j Hj. apply upto_In in Hj.
  pose proof (neighbor_point B size (coords_of size a) j H Ga Hj) as (_ & _ & Ln). destruct (ok_dims _ _ H) as [_ DS].
  assert (Gr : on_grid size (reduced_mod size (shifted (coords_of size a) (displacement B j)))) by (apply reduced_on_grid; [now apply sizes_pos|congruence]).
  rewrite reduced_moved.
  - unfold moved. now rewrite coords_of_row_major.
  - now apply sizes_pos.
  - now apply on_grid_length.
  - now apply on_grid_length.
  - destruct (displacement_bounds B size j H Hj) as [Q _]. unfold vsize in *. lia.
Qed.

Lemma seen_moved : forall sz a b t, Forall (fun s => 0 < s) sz -> length a = length sz -> length t = length sz -> length b = length sz ->
  seen_from sz (moved_by sz a t) (moved_by sz b t) = seen_from sz a b.
Proof.
  unfold seen_from, moved_by. intros sz a b t F. revert a b t.
  induction F as [|s sz Hs F IH]; intros [|x a] [|y b] [|z t] La Lt Lb; try discriminate; [reflexivity|].
  cbn [map3]. f_equal; [|apply IH; cbn [length] in *; lia].
  rewrite <- Zminus_mod. f_equal. lia.
Qed.

Lemma distance_moved t a b : valid_site size t -> valid_site size a -> valid_site size b ->
  GetDistance L (moved t a) (moved t b) = GetDistance L a b /\ GetVector L (moved t a) (moved t b) = GetVector L a b.
Proof.
  intros Ht Ha Hb. destruct (moved_valid t a Ht Ha) as [Va Ca]. destruct (moved_valid t b Ht Hb) as [Vb Cb].
  destruct (closed_distance N pi B size a b H Ha Hb) as (_ & V & D). destruct (closed_distance N pi B size _ _ H Va Vb) as (_ & V' & D').
  unfold L. rewrite V, V', D, D', Ca, Cb.
  rewrite seen_moved; [auto|now apply sizes_pos|apply on_grid_length; now apply coords_of_spec..].
Qed.

Lemma moved_to a b : valid_site size a -> valid_site size b -> exists t, valid_site size t /\ moved t a = b.
Proof.
  intros Ha Hb. destruct (mapped_valid (HyperCubicGrid size true) a b) as (t & _ & Vt & E); try assumption; [reflexivity|].
  exists t. split; [exact Vt|]. fold g in E. rewrite moved_ok in E by assumption. now injection E.
Qed.

Lemma perm_moved t : valid_site size t -> Permutation (map (moved t) (upto P)) (upto P).
Proof.
  intros Ht. apply injective_upto; [intros j Hj; now apply moved_valid|]. intros j l Hj Hl. now apply moved_inj.
Qed.

Lemma tables a : valid_site size a -> exists da va, omapl (GetDistance L a) (upto P) = Ok da /\ omapl (GetVector L a) (upto P) = Ok va /\
  da = map (fun b => norm N (snd (best N B size (seen_from size (coords_of size a) (coords_of size b))))) (upto P) /\
  va = map (fun b => snd (best N B size (seen_from size (coords_of size a) (coords_of size b)))) (upto P).
Proof.
  intros Ha. eexists _, _. split; [|split; [|split; reflexivity]]; apply omapl_pure; intros b Hb; apply upto_In in Hb;
  now destruct (closed_distance N pi B size a b H Ha Hb) as (_ & V & D).
Qed.

Lemma surroundings a b : valid_site size a -> valid_site size b -> exists da va db vb,
  omapl (GetDistance L a) (upto P) = Ok da /\ omapl (GetVector L a) (upto P) = Ok va /\
  omapl (GetDistance L b) (upto P) = Ok db /\ omapl (GetVector L b) (upto P) = Ok vb /\ Permutation da db /\ Permutation va vb.
Proof.
  intros Ha Hb. destruct (tables a Ha) as (da & va & Ed & Ev & Fd & Fv). destruct (tables b Hb) as (db & vb & Ed' & Ev' & Fd' & Fv').
  exists da, va, db, vb. repeat (split; [assumption|]).
  destruct (moved_to a b Ha Hb) as (t & Ht & E). pose proof (perm_moved t Ht) as Q.
  assert (S : forall x, In x (upto P) -> seen_from size (coords_of size b) (coords_of size (moved t x)) = seen_from size (coords_of size a) (coords_of size x)).
  { intros x Hx. apply upto_In in Hx. subst b. destruct (moved_valid t a Ht Ha) as [_ ->]. destruct (moved_valid t x Ht Hx) as [_ ->].
    apply seen_moved; [now apply sizes_pos|apply on_grid_length; now apply coords_of_spec..]. }
  subst. split.
  - etransitivity; [|apply Permutation_map, Q]. rewrite map_map. erewrite map_ext_in; [apply Permutation_refl|]. intros x Hx. cbn beta. now rewrite S.
  - etransitivity; [|apply Permutation_map, Q]. rewrite map_map. erewrite map_ext_in; [apply Permutation_refl|]. intros x Hx. cbn beta. now rewrite S.
Qed.

Lemma are_moved t a b : valid_site size t -> valid_site size a -> valid_site size b ->
  AreNeighbors L (moved t a) (moved t b) = AreNeighbors L a b.
Proof.
  intros Ht Ha Hb. destruct (moved_valid t a Ht Ha) as [Va _]. unfold L. rewrite !are_neighbors_built by assumption.
  change (Ok (existsb (Z.eqb (moved t b)) (nn (moved t a))) = Ok (existsb (Z.eqb b) (nn a))). rewrite nn_moved by assumption. f_equal.
  apply eq_true_iff_eq. rewrite !existsb_In, in_map_iff. split; [|intros I; now exists b].
  intros (x & E & I). apply moved_inj in E; try assumption; [now subst|]. now apply (nn_valid N pi B size true H a).
Qed.
End Closed.
