(** Lemmas about sublattices. *)
From Coq Require Import ZArith List Bool Lia.
From Verif Require Import Base F64 Num S_Math M_MathInt M_Grid M_Bravais M_Lattice S_Grid S_Bravais S_Lattice S_LatticeN S_Colour
  L_MathInt L_Grid L_Bravais L_Lattice L_LatticeN.
Import ListNotations.
Open Scope Z_scope.

Fixpoint weigh (w c : list Z) : Z :=
  match w, c with
  | v :: w', x :: c' => v * x + weigh w' c'
  | _, _ => 0
  end.

Lemma weigh_shifted w : forall c d, length c = length w -> length d = length w -> weigh w (shifted c d) = weigh w c + weigh w d.
Proof.
  induction w as [|v w IH]; intros [|x c] [|y d] Lc Ld; try discriminate Lc; try discriminate Ld; [reflexivity|].
  cbn [shifted zip_with weigh]. fold (shifted c d). rewrite IH by (cbn [length] in *; lia). ring.
Qed.

Lemma weigh_reduced q size w : Forall (fun s => 0 < s /\ (q | s)) size -> forall c, length w = length size -> length c = length size ->
  (q | weigh w (reduced_mod size c) - weigh w c).
Proof.
  revert w. induction size as [|s size IH]; intros [|v w] F [|x c] Lw Lc; try discriminate Lw; try discriminate Lc; [exists 0; reflexivity|].
  inversion F as [|? ? [Hs [k Hk]] F']; subst. change (reduced_mod (k * q :: size) (x :: c)) with (x mod (k * q) :: reduced_mod size c).
  cbn [weigh]. destruct (IH w F' c ltac:(now injection Lw) ltac:(now injection Lc)) as [m Hm].
  exists (m - v * (x / (k * q)) * k). pose proof (Z.div_mod x (k * q) ltac:(lia)). nia.
Qed.

Lemma weigh_total n : forall c, length c = n -> weigh (repeat 1 n) c = total c.
Proof. induction n as [|n IH]; intros [|x c] L; try discriminate L; [reflexivity|]. cbn [repeat weigh total fold_right]. rewrite IH by now injection L. unfold total. lia. Qed.

Lemma total_odd d : exists k, total d = l1 d + 2 * k.
Proof.
  induction d as [|x d [k IH]]; [exists 0; reflexivity|]. rewrite l1_cons. cbn [total fold_right]. fold (total d). rewrite IH.
  destruct (Z.abs_spec x) as [[_ ->]|[_ ->]]; [exists k; lia|exists (k + x); lia].
Qed.

Lemma axis_shift d k x y : (k < d)%nat -> shifted (axis d k x) (axis d k y) = axis d k (x + y).
Proof.
  revert k. induction d as [|d IH]; intros [|k] Hk; try lia; cbn [axis shifted zip_with].
  - f_equal. fold (shifted (repeat 0 d) (repeat 0 d)). rewrite <- (repeat_length 0 d) at 2. apply shifted_zero.
  - f_equal. apply IH. lia.
Qed.

Lemma axis_reduced size : forall k, (k < length size)%nat ->
  reduced_mod size (axis (length size) k (nth k size 0)) = reduced_mod size (axis (length size) k 0).
Proof.
  induction size as [|s size IH]; intros [|k] Hk; cbn [length] in *; try lia; cbn [axis nth].
  - unfold reduced_mod. cbn [map3]. now rewrite Z_mod_same_full, Zmod_0_l.
  - change (0 mod s :: reduced_mod size (axis (length size) k (nth k size 0)) = 0 mod s :: reduced_mod size (axis (length size) k 0)).
    f_equal. apply IH. lia.
Qed.

Section Colour.
Context {T : Type} (N : num T) (pi : T) (B : bravais T) (size : list Z).
Hypothesis H : lattice_ok B size.
Let ok : sizes_ok size. Proof. apply H. Qed.
Let pos : Forall (fun s => 0 < s) size. Proof. apply sizes_pos. apply H. Qed.

(** Neighbours differ by a step, up to periods. *)
Lemma neighbor_step cl a b : valid_site size a -> AreNeighbors (built N pi B size cl) a b = Ok true ->
  exists d, In d (steps B) /\ coords_of size b = if cl then hop size (coords_of size a) d else shifted (coords_of size a) d.
Proof.
  intros Ha E. rewrite are_neighbors_built in E by assumption. injection E as E. apply existsb_In in E.
  destruct (coords_of_spec size a ok Ha) as (_ & Ga & _). destruct cl.
  - apply nbrs_closed in E as (d & Hd & ->); [|assumption..]. exists d. split; [exact Hd|]. apply coords_of_row_major; [exact ok|].
    apply hop_on_grid; [exact pos|now apply on_grid_length|now apply (steps_length B size H)].
  - apply nbrs_open in E as (d & Hd & Gd & ->); [|assumption..]. exists d. split; [exact Hd|]. now apply coords_of_row_major.
Qed.

Lemma neighbor_weight cl q w a b : (cl = true -> Forall (fun s => (q | s)) size) -> length w = length size ->
  valid_site size a -> AreNeighbors (built N pi B size cl) a b = Ok true ->
  exists d, In d (steps B) /\ (q | weigh w (coords_of size b) - weigh w (coords_of size a) - weigh w d).
Proof.
  intros Q Lw Ha E. destruct (neighbor_step cl a b Ha E) as (d & Hd & Ec). exists d. split; [exact Hd|].
  destruct (coords_of_spec size a ok Ha) as (_ & Ga & _). pose proof (on_grid_length _ _ Ga) as La.
  pose proof (steps_length B size H d Hd) as Ld. rewrite Ec. destruct cl.
  - unfold hop. pose proof (shifted_length size _ _ La Ld) as Ls.
    assert (F : Forall (fun s => 0 < s /\ (q | s)) size).
    { specialize (Q eq_refl). rewrite Forall_forall in *. intros s Hs. split; [now apply pos|now apply Q]. }
    destruct (weigh_reduced q size w F (shifted (coords_of size a) d) Lw Ls) as [m Hm].
    rewrite weigh_shifted in Hm by congruence. exists m. lia.
  - rewrite weigh_shifted by congruence. exists 0. lia.
Qed.

Lemma neighbor_parity cl a b : axis_lattice B -> (cl = true -> Forall (fun s => (2 | s)) size) ->
  valid_site size a -> valid_site size b -> AreNeighbors (built N pi B size cl) a b = Ok true ->
  (total (coords_of size a) + total (coords_of size b)) mod 2 = 1.
Proof.
  intros X Q Ha Hb E. destruct (neighbor_weight cl 2 (repeat 1 (length size)) a b Q (repeat_length _ _) Ha E) as (d & Hd & [m Hm]).
  pose proof (steps_length B size H d Hd) as Ld. apply X in Hd as [_ Hd].
  destruct (coords_of_spec size a ok Ha) as (_ & Ga & _). destruct (coords_of_spec size b ok Hb) as (_ & Gb & _).
  rewrite !weigh_total in Hm by ((exact Ld) || (now apply on_grid_length)). destruct (total_odd d) as [k Hk]. rewrite Hd in Hk.
  replace (total (coords_of size a) + total (coords_of size b)) with (1 + (total (coords_of size a) + k + m) * 2) by lia.
  now rewrite Z.mod_add.
Qed.

(** Colourings of closed lattices, read as functions of all points. *)
Lemma lifted q f x d : colouring q (built N pi B size true) size f -> length x = length size -> In d (steps B) ->
  0 <= f (row_major size (reduced_mod size x)) < q /\
  f (row_major size (reduced_mod size x)) <> f (row_major size (reduced_mod size (shifted x d))).
Proof.
  intros [C P] Lx Hd. pose proof (steps_length B size H d Hd) as Ld.
  pose proof (reduced_on_grid size x pos (eq_sym Lx)) as G. pose proof (row_major_valid _ _ G) as V.
  pose proof (reduced_on_grid size (shifted x d) pos (eq_sym (shifted_length size _ _ Lx Ld))) as G'.
  split; [now apply C|]. apply P; [exact V|now apply row_major_valid|]. rewrite are_neighbors_built by assumption. f_equal.
  apply existsb_In. apply nbrs_closed; [exact V|]. exists d. split; [exact Hd|]. rewrite coords_of_row_major by assumption.
  now rewrite <- reduced_shift.
Qed.

Lemma two_colours_even f : axis_lattice B -> colouring 2 (built N pi B size true) size f -> Forall (fun s => (2 | s)) size.
Proof.
  intros X C. apply Forall_forall. intros s Hs. apply (In_nth _ _ 0) in Hs. destruct Hs as (k & Hk & <-).
  set (F := fun e => f (row_major size (reduced_mod size (axis (length size) k e)))).
  assert (S1 : forall e, 0 <= F e < 2 /\ F e <> F (e + 1)).
  { intros e. unfold F. rewrite <- (axis_shift (length size) k e 1 Hk). apply (lifted 2 f _ _ C); [apply axis_length|].
    apply X. split; [rewrite axis_length; destruct (ok_dims _ _ H); lia|]. now apply axis_l1. }
  assert (E : forall n : nat, F (Z.of_nat n) = if Nat.even n then F 0 else 1 - F 0).
  { induction n as [|n IH]; [reflexivity|]. destruct (S1 (Z.of_nat n)) as [R D]. replace (Z.of_nat n + 1) with (Z.of_nat (S n)) in D by lia.
    destruct (S1 (Z.of_nat (S n))) as [R' _]. rewrite Nat.even_succ, <- Nat.negb_even. destruct (Nat.even n); cbn [negb]; lia. }
  assert (Ps : 0 < nth k size 0) by (rewrite Forall_forall in pos; apply pos, nth_In, Hk).
  assert (K : F (nth k size 0) = F 0) by (unfold F; now rewrite axis_reduced).
  rewrite <- (Z2Nat.id (nth k size 0)) in K by lia. rewrite E in K. destruct (S1 0) as [R _].
  destruct (Nat.even (Z.to_nat (nth k size 0))) eqn:V; [|lia]. apply Nat.even_spec in V as [m V]. exists (Z.of_nat m). lia.
Qed.

Lemma parity_walk cl n a b : axis_lattice B -> (cl = true -> Forall (fun s => (2 | s)) size) ->
  valid_site size a -> walk (built N pi B size cl) n a b -> (total (coords_of size a) + total (coords_of size b) + Z.of_nat n) mod 2 = 0.
Proof.
  intros X Q Ha W. revert Ha. induction W as [a|n a b c nn En Hb W IH]; intros Ha.
  - replace (_ + Z.of_nat 0) with (total (coords_of size a) * 2) by lia. apply Z.mod_mul. lia.
  - assert (Hv : walk (built N pi B size cl) 1 a b) by (econstructor; [exact En|exact Hb|constructor]).
    pose proof (walk_valid N pi B size H cl 1 a b Ha Hv) as Vb. specialize (IH Vb).
    assert (E : AreNeighbors (built N pi B size cl) a b = Ok true).
    { rewrite are_neighbors_built by assumption. rewrite get_neighbors in En by assumption. injection En as ->. f_equal. now apply existsb_In. }
    pose proof (neighbor_parity cl a b X Q Ha Vb E) as Pb. rewrite Nat2Z.inj_succ. Z.div_mod_to_equations. lia.
Qed.

(** On a closed lattice of even extents both sublattices have the same number of sites. *)
Lemma filter_inj_le {A} (p q : A -> bool) (g : A -> A) l : NoDup l -> (forall x, In x l -> In (g x) l) ->
  (forall x y, In x l -> In y l -> g x = g y -> x = y) -> (forall x, In x l -> p x = true -> q (g x) = true) ->
  (length (filter p l) <= length (filter q l))%nat.
Proof.
  intros D V I Q. rewrite <- (map_length g (filter p l)). apply NoDup_incl_length.
  - apply NoDup_map_on; [now apply NoDup_filter|]. intros x y Hx Hy. apply filter_In in Hx as [Hx _]. apply filter_In in Hy as [Hy _]. now apply I.
  - intros y Hy. apply in_map_iff in Hy as (x & <- & Hx). apply filter_In in Hx as [Hx Px]. apply filter_In. split; [now apply V|now apply Q].
Qed.

Lemma filter_complement {A} (p : A -> bool) l : (length (filter p l) + length (filter (fun x => negb (p x)) l) = length l)%nat.
Proof. induction l as [|x l IH]; [reflexivity|]. cbn [filter]. destruct (p x); cbn [negb length]; lia. Qed.

Lemma upto_nodup n : NoDup (upto n).
Proof. unfold upto. apply NoDup_map_on; [apply seq_NoDup|intros; lia]. Qed.

Lemma halves : axis_lattice B -> Forall (fun s => (2 | s)) size ->
  2 * vsize (filter (fun a => on_even (coords_of size a)) (upto (prodZ size))) = prodZ size /\
  2 * vsize (filter (fun a => negb (on_even (coords_of size a))) (upto (prodZ size))) = prodZ size.
Proof.
  intros X Q. destruct (ok_dims _ _ H) as [D0 D].
  set (d := axis (length size) 0 1). assert (Hd : In d (steps B)).
  { apply X. unfold d. split; [rewrite axis_length; lia|apply axis_l1; lia]. }
  assert (Ld : length d = length size) by apply axis_length.
  set (g := fun a => row_major size (hop size (coords_of size a) d)).
  assert (G : forall a, valid_site size a -> on_grid size (hop size (coords_of size a) d)).
  { intros a Ha. destruct (coords_of_spec size a ok Ha) as (_ & Ga & _). apply hop_on_grid; [exact pos|now apply on_grid_length|exact Ld]. }
  assert (V : forall a, valid_site size a -> valid_site size (g a)) by (intros a Ha; apply row_major_valid, G, Ha).
  assert (I : forall a b, valid_site size a -> valid_site size b -> g a = g b -> a = b).
  { intros a b Ha Hb E. apply (row_major_inj B size H) in E; [|now apply G|now apply G].
    destruct (coords_of_spec size a ok Ha) as (_ & Ga & Ra). destruct (coords_of_spec size b ok Hb) as (_ & Gb & Rb).
    rewrite <- Ra, <- Rb. f_equal. rewrite <- (reduced_back size (coords_of size a) d Ga Ld), <- (reduced_back size (coords_of size b) d Gb Ld).
    unfold hop in E. now rewrite E. }
  assert (P : forall a, valid_site size a -> on_even (coords_of size (g a)) = negb (on_even (coords_of size a))).
  { intros a Ha. assert (E : AreNeighbors (built N pi B size true) a (g a) = Ok true).
    { rewrite are_neighbors_built by assumption. f_equal. apply existsb_In. apply nbrs_closed; [exact Ha|]. now exists d. }
    pose proof (neighbor_parity true a (g a) X (fun _ => Q) Ha (V a Ha) E) as M. unfold on_even.
    rewrite Zmod_odd in M. destruct (Z.odd _) eqn:O; [|discriminate M]. rewrite Z.odd_add, <- !Z.negb_even in O.
    destruct (Z.even (total (coords_of size a))), (Z.even (total (coords_of size (g a)))); cbn in *; congruence. }
  set (l := upto (prodZ size)).
  assert (In_l : forall a, In a l <-> valid_site size a) by (intros a; apply upto_In).
  pose proof (filter_complement (fun a => on_even (coords_of size a)) l) as C.
  pose proof (filter_inj_le (fun a => on_even (coords_of size a)) (fun a => negb (on_even (coords_of size a))) g l (upto_nodup _)) as A1.
  pose proof (filter_inj_le (fun a => negb (on_even (coords_of size a))) (fun a => on_even (coords_of size a)) g l (upto_nodup _)) as A2.
  assert (Q1 : forall x, In x l -> In (g x) l) by (intros x Hx; apply In_l, V, In_l, Hx).
  assert (Q2 : forall x y, In x l -> In y l -> g x = g y -> x = y) by (intros x y Hx Hy; apply I; now apply In_l).
  specialize (A1 Q1 Q2). specialize (A2 Q1 Q2).
  assert (B1 : forall x, In x l -> on_even (coords_of size x) = true -> negb (on_even (coords_of size (g x))) = true).
  { intros x Hx E. apply In_l in Hx. rewrite P by exact Hx. now rewrite E. }
  assert (B2 : forall x, In x l -> negb (on_even (coords_of size x)) = true -> on_even (coords_of size (g x)) = true).
  { intros x Hx E. apply In_l in Hx. now rewrite P. }
  specialize (A1 B1). specialize (A2 B2).
  assert (Ll : Z.of_nat (length l) = prodZ size).
  { unfold l, upto. rewrite map_length, seq_length. destruct (grid_sites size true ok). lia. }
  unfold vsize. lia.
Qed.
End Colour.

(** ** The triangular lattice *)
Section Tri.
Context {T : Type} (N : num T) (pi : T).
Local Notation Tri := (TriangularLattice N).

Lemma tri_weight d : In d (steps Tri) -> ~ (3 | weigh [1; -1] d).
Proof.
  rewrite triangular_steps. intros I. repeat (destruct I as [<-|I]; [cbn [weigh]; intros [k Hk]; lia|]). destruct I.
Qed.

Lemma three_colours_three size f : lattice_ok Tri size -> colouring 3 (built N pi Tri size true) size f -> Forall (fun s => (3 | s)) size.
Proof.
  intros H C. pose proof (tri_size N size H) as L2. destruct size as [|s [|t [|]]]; try discriminate L2. clear L2.
  pose proof (sizes_pos _ (proj1 (proj2 (proj2 (proj2 H))))) as PS. inversion PS as [|? ? Ps PS']; subst. inversion PS' as [|? ? Pt _]; subst.
  set (F := fun x y => f (row_major [s; t] (reduced_mod [s; t] [x; y]))).
  assert (A : forall x y dx dy, In [dx; dy] (steps Tri) -> 0 <= F x y < 3 /\ F x y <> F (x + dx) (y + dy)).
  { intros x y dx dy Hd. exact (lifted N pi Tri [s; t] H 3 f [x; y] [dx; dy] C eq_refl Hd). }
  rewrite triangular_steps in A.
  assert (R : forall x y, 0 <= F x y < 3) by (intros x y; apply (A x y 1 0); now left).
  assert (U : forall x y, F x y <> F (x + 1) y).
  { intros x y. pose proof (proj2 (A x y 1 0 ltac:(now left))) as Q. now rewrite Z.add_0_r in Q. }
  assert (W : forall x y, F x y <> F x (y + 1)).
  { intros x y. pose proof (proj2 (A x y 0 1 ltac:(do 2 right; now left))) as Q. now rewrite Z.add_0_r in Q. }
  assert (D : forall x y, F x (y + 1) <> F (x + 1) y).
  { intros x y. pose proof (proj2 (A x (y + 1) 1 (-1) ltac:(do 4 right; now left))) as Q. now replace (y + 1 + -1) with y in Q by lia. }
  clear A.
  assert (E1 : forall x y, F (x + 1) (y + 1) = F x y).
  { intros x y. pose proof (U x y). pose proof (W x y). pose proof (D x y). pose proof (U x (y + 1)). pose proof (W (x + 1) y).
    pose proof (R x y). pose proof (R (x + 1) y). pose proof (R x (y + 1)). pose proof (R (x + 1) (y + 1)). lia. }
  assert (E2 : forall x y, F (x + 1) y = F x (y + 2)).
  { intros x y. pose proof (D x (y + 1)) as D1. replace (y + 1 + 1) with (y + 2) in D1 by lia.
    pose proof (W x (y + 1)) as W1. replace (y + 1 + 1) with (y + 2) in W1 by lia.
    pose proof (U x (y + 1)). pose proof (W (x + 1) y). pose proof (D x y).
    pose proof (R x (y + 2)). pose proof (R (x + 1) y). pose proof (R x (y + 1)). pose proof (R (x + 1) (y + 1)). lia. }
  assert (Y3 : forall x y, F x (y + 3) = F x y).
  { intros x y. rewrite <- (E1 x y), (E2 x (y + 1)). f_equal. lia. }
  assert (X3 : forall x y, F (x + 3) y = F x y).
  { intros x y. replace (x + 3) with (x + 2 + 1) by lia. rewrite E2. replace (x + 2) with (x + 1 + 1) by lia.
    replace (y + 2) with (y + 1 + 1) by lia. rewrite E1. apply E1. }
  assert (Xn : forall (n : nat) x y, F (x + 3 * Z.of_nat n) y = F x y).
  { induction n as [|n IH]; intros x y; [f_equal; lia|]. replace (x + 3 * Z.of_nat (S n)) with (x + 3 * Z.of_nat n + 3) by lia. now rewrite X3. }
  assert (Yn : forall (n : nat) x y, F x (y + 3 * Z.of_nat n) = F x y).
  { induction n as [|n IH]; intros x y; [f_equal; lia|]. replace (y + 3 * Z.of_nat (S n)) with (y + 3 * Z.of_nat n + 3) by lia. now rewrite Y3. }
  assert (Xs : forall x y, F (x + s) y = F x y).
  { intros x y. unfold F, reduced_mod. cbn [map3]. replace (x + s) with (x + 1 * s) by lia. now rewrite Z.mod_add by lia. }
  assert (Yt : forall x y, F x (y + t) = F x y).
  { intros x y. unfold F, reduced_mod. cbn [map3]. replace (y + t) with (y + 1 * t) by lia. now rewrite Z.mod_add by lia. }
  assert (G : forall (h : Z -> Z) m, 0 < m -> (forall x, h x <> h (x + 1)) -> (forall x, h (x + 3) = h x) ->
    (forall (n : nat) x, h (x + 3 * Z.of_nat n) = h x) -> (forall x, h (x + m) = h x) -> (3 | m)).
  { intros h m Hm Q1 Q3 Qn Qm. pose proof (Z.div_mod m 3 ltac:(lia)) as DM. pose proof (Z.mod_pos_bound m 3 ltac:(lia)) as MB.
    pose proof (Z.div_pos m 3 ltac:(lia) ltac:(lia)) as DP.
    assert (Z0 : forall x, h (x + m mod 3) = h x).
    { intros x. rewrite <- (Qn (Z.to_nat (m / 3)) (x + m mod 3)). rewrite <- (Qm x). f_equal. lia. }
    assert (m mod 3 = 0 \/ m mod 3 = 1 \/ m mod 3 = 2) as [M|[M|M]] by lia; rewrite M in Z0.
    - exists (m / 3). lia.
    - exfalso. apply (Q1 0). symmetry. apply (Z0 0).
    - exfalso. apply (Q1 0). rewrite <- (Q3 0). rewrite <- (Z0 (0 + 1)). f_equal. }
  constructor; [|constructor; [|constructor]].
  - apply (G (fun x => F x 0)); auto.
  - apply (G (fun y => F 0 y)); auto.
Qed.

(** Three sites around a triangle. *)
Lemma tri_triangle size cl : lattice_ok Tri size -> Forall (fun s => 2 <= s) size ->
  exists a b c, valid_site size a /\ valid_site size b /\ valid_site size c /\
  AreNeighbors (built N pi Tri size cl) a b = Ok true /\ AreNeighbors (built N pi Tri size cl) a c = Ok true /\
  AreNeighbors (built N pi Tri size cl) c b = Ok true.
Proof.
  intros H F. pose proof (tri_size N size H) as L2. destruct size as [|s [|t [|]]]; try discriminate L2. clear L2.
  inversion F as [|? ? Fs F']; subst. inversion F' as [|? ? Ft _]; subst.
  pose proof (proj1 (proj2 (proj2 (proj2 H)))) as ok.
  assert (G : forall x y, 0 <= x < 2 -> 0 <= y < 2 -> on_grid [s; t] [x; y]) by (intros; repeat constructor; lia).
  assert (K : forall x y dx dy, 0 <= x < 2 -> 0 <= y < 2 -> 0 <= x + dx < 2 -> 0 <= y + dy < 2 -> In [dx; dy] (steps Tri) ->
    AreNeighbors (built N pi Tri [s; t] cl) (row_major [s; t] [x; y]) (row_major [s; t] [x + dx; y + dy]) = Ok true).
  { intros x y dx dy Hx Hy Hx' Hy' Hd. rewrite are_neighbors_built; [|exact H|apply row_major_valid; now apply G]. f_equal. apply existsb_In.
    destruct cl.
    - apply nbrs_closed; [apply row_major_valid; now apply G|]. exists [dx; dy]. split; [exact Hd|]. rewrite coords_of_row_major by auto.
      unfold hop. change (shifted [x; y] [dx; dy]) with [x + dx; y + dy]. now rewrite reduced_fixed by auto.
    - apply nbrs_open; [apply row_major_valid; now apply G|]. exists [dx; dy]. split; [exact Hd|]. rewrite coords_of_row_major by auto.
      change (shifted [x; y] [dx; dy]) with [x + dx; y + dy]. split; [auto|reflexivity]. }
  rewrite triangular_steps in K.
  exists (row_major [s; t] [0; 0]), (row_major [s; t] [1; 0]), (row_major [s; t] [0; 1]).
  repeat (split; [apply row_major_valid, G; lia|]).
  split; [apply (K 0 0 1 0); try lia; now left|]. split; [apply (K 0 0 0 1); try lia; do 2 right; now left|].
  apply (K 0 1 1 (-1)); try lia. do 4 right. now left.
Qed.
End Tri.
