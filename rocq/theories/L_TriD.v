(** Lemmas about distances on closed triangular lattices. *)
From Coq Require Import ZArith Zwf Reals List Bool Lia Lra.
From Flocq Require Import Core.
From Verif Require Import Base F64 Num S_Math S_Accum M_MathInt M_Grid M_Bravais M_Lattice S_Grid S_Bravais S_Lattice S_LatticeN S_Geom S_TriD
  L_MathInt L_Grid L_MathF L_Bravais L_Lattice L_LatticeD L_LatticeN L_LatticeV L_Geom L_Fourier.
Import ListNotations.
Open Scope Z_scope.

Lemma in_range s x i : 0 <= x < s -> (s | i - x) -> - s <= i < 2 * s -> exists u, - 1 <= u <= 1 /\ i = x + u * s.
Proof.
  intros Hx [u Hu] Hi. exists u. split; [|lia]. split.
  - destruct (Z_le_gt_dec (-1) u); [assumption|]. assert (u <= -2) by lia. nia.
  - destruct (Z_le_gt_dec u 1); [assumption|]. assert (2 <= u) by lia. nia.
Qed.

Lemma hex_corner s t k j : 0 < k -> s < t -> t <= 2 * s -> s + 2 * k <= j -> 2 * j <= t + s + k -> 3 * k <= t - s ->
  hex_square [- k; j - t] < hex_square [- s - k; j].
Proof.
  unfold hex_square. intros Hk Hst Ht Hj Hj' H3. set (w := t - j). replace (j - t) with (- w) by (unfold w; lia).
  assert (W1 : w <= s - 2 * k) by (unfold w; lia). assert (W2 : - k <= 2 * w) by (unfold w; lia). clearbody w.
  assert (A : - k * - k + - k * - w + - w * - w <= s * s).
  { assert (0 <= s - 2 * k - w) by lia. destruct (Z_le_gt_dec 0 w).
    - assert (w * w <= (s - 2 * k) * (s - 2 * k)) by nia. assert (k * w <= k * (s - 2 * k)) by nia. nia.
    - assert (- w * - w <= k * k) by nia. assert (k <= s) by lia. nia. }
  assert (B : s * s < (- s - k) * (- s - k) + (- s - k) * j + j * j).
  { set (z := j - s - 2 * k). assert (0 <= z) by (unfold z; lia). replace j with (z + s + 2 * k) by (unfold z; lia). clearbody z. nia. }
  lia.
Qed.

Lemma hex_shell s t x y : 0 <= x < s -> 0 <= y < t -> s <= 2 * t -> t <= 2 * s ->
  forall i j, (s | i - x) -> (t | j - y) -> exists u v, - 1 <= u <= 1 /\ - 1 <= v <= 1 /\ hex_square [x + u * s; y + v * t] <= hex_square [i; j].
Proof.
  intros Hx Hy Hs Ht i j. remember (hex_square [i; j]) as q eqn:Eq. revert i j Eq.
  induction q as [q IH] using (well_founded_induction (Zwf_well_founded 0)). intros i j -> Di Dj.
  assert (Go : forall i' j', (s | i' - x) -> (t | j' - y) -> hex_square [i'; j'] < hex_square [i; j] ->
    exists u v, - 1 <= u <= 1 /\ - 1 <= v <= 1 /\ hex_square [x + u * s; y + v * t] <= hex_square [i; j]).
  { intros i' j' Di' Dj' Lt. destruct (IH (hex_square [i'; j'])) with (i := i') (j := j') as (u & v & Hu & Hv & L).
    - split; [apply hex_square_pos|exact Lt].
    - reflexivity.
    - exact Di'.
    - exact Dj'.
    - exists u, v. split; [exact Hu|]. split; [exact Hv|]. lia. }
  assert (Dm : (s | i - s - x)) by (replace (i - s - x) with (i - x - s) by lia; apply Z.divide_sub_r; [exact Di|apply Z.divide_refl]).
  assert (Dp : (s | i + s - x)) by (replace (i + s - x) with (i - x + s) by lia; apply Z.divide_add_r; [exact Di|apply Z.divide_refl]).
  assert (Em : (t | j - t - y)) by (replace (j - t - y) with (j - y - t) by lia; apply Z.divide_sub_r; [exact Dj|apply Z.divide_refl]).
  assert (Ep : (t | j + t - y)) by (replace (j + t - y) with (j - y + t) by lia; apply Z.divide_add_r; [exact Dj|apply Z.divide_refl]).
  destruct (Z_lt_ge_dec s (2 * i + j)) as [C|C1]; [apply (Go (i - s) j); [exact Dm|exact Dj|unfold hex_square; nia]|].
  destruct (Z_lt_ge_dec (2 * i + j) (- s)) as [C|C2]; [apply (Go (i + s) j); [exact Dp|exact Dj|unfold hex_square; nia]|].
  destruct (Z_lt_ge_dec t (2 * j + i)) as [C|C3]; [apply (Go i (j - t)); [exact Di|exact Em|unfold hex_square; nia]|].
  destruct (Z_lt_ge_dec (2 * j + i) (- t)) as [C|C4]; [apply (Go i (j + t)); [exact Di|exact Ep|unfold hex_square; nia]|].
  destruct (Z_lt_ge_dec i (- s)) as [Ci|Ci].
  { apply (Go (i + s) (j - t)); [exact Dp|exact Em|]. set (k := - s - i). replace i with (- s - k) by (unfold k; lia). replace (- s - k + s) with (- k) by lia.
    apply hex_corner; unfold k; lia. }
  destruct (Z_lt_ge_dec j (- t)) as [Cj|Cj].
  { apply (Go (i - s) (j + t)); [exact Dm|exact Ep|]. set (k := - t - j). replace j with (- t - k) by (unfold k; lia). replace (- t - k + t) with (- k) by lia.
    pose proof (hex_corner t s k i ltac:(unfold k; lia) ltac:(lia) ltac:(lia) ltac:(unfold k; lia) ltac:(unfold k; lia) ltac:(unfold k; lia)) as L.
    unfold hex_square in *. lia. }
  destruct (in_range s x i Hx Di ltac:(lia)) as (u & Hu & ->). destruct (in_range t y j Hy Dj ltac:(lia)) as (v & Hv & ->).
  exists u, v. split; [exact Hu|]. split; [exact Hv|]. lia.
Qed.

Lemma least_hex_unique size d q q' : least_hex size d q -> least_hex size d q' -> q = q'.
Proof. intros [(e & Le & <-) M] [(e' & Le' & <-) M']. specialize (M e' Le'). specialize (M' e Le). lia. Qed.

(** The two coordinates, and the least image in the first shell. *)
Lemma two_dims {T} (N : num T) size : lattice_ok (TriangularLattice N) size -> exists s t, size = [s; t] /\ 0 < s /\ 0 < t.
Proof.
  intros (_ & E & _ & O & _). change (vsize size = 2) in E. destruct (two_list size E) as (s & t & ->). pose proof (sizes_pos _ O) as F.
  inversion F as [|? ? F1 F']; subst. inversion F'; subst. exists s, t. auto.
Qed.

Definition least_seen (s t : Z) (c : list Z) (q : Z) : Prop :=
  (exists e, shell [s; t] e /\ hex_square (image [s; t] c e) = q) /\ forall e, length e = 2%nat -> q <= hex_square (image [s; t] c e).

Lemma least_exists (l : list (list Z)) (f : list Z -> Z) : l <> [] -> exists e, In e l /\ forall e', In e' l -> f e <= f e'.
Proof.
  induction l as [|e l IH]; intros Hl; [now elim Hl|]. destruct l as [|e1 l]; [exists e; split; [now left|intros e' [<-|[]]; lia]|].
  destruct IH as (e0 & I0 & M); [discriminate|]. destruct (Z_le_gt_dec (f e) (f e0)).
  - exists e. split; [now left|]. intros e' [<-|I]; [lia|]. specialize (M e' I). lia.
  - exists e0. split; [now right|]. intros e' [<-|I]; [lia|]. now apply M.
Qed.

Lemma least_shell s t x y : 0 <= x < s -> 0 <= y < t -> compact [s; t] -> exists q, least_seen s t [x; y] q.
Proof.
  intros Hx Hy [C1 C2].
  destruct (least_exists [[-1; -1]; [-1; 0]; [-1; 1]; [0; -1]; [0; 0]; [0; 1]; [1; -1]; [1; 0]; [1; 1]] (fun e => hex_square (image [s; t] [x; y] e))) as (e & I & M); [discriminate|].
  exists (hex_square (image [s; t] [x; y] e)). split.
  - exists e. split; [|reflexivity]. split.
    + repeat (destruct I as [<-|I]; [reflexivity|]). destruct I.
    + repeat (destruct I as [<-|I]; [repeat constructor; lia|]). destruct I.
  - intros [|i [|j [|]]] L; try discriminate L. unfold image at 2. cbn [zip_with].
    destruct (hex_shell s t x y Hx Hy C1 C2 (x + i * s) (y + j * t)) as (u & v & Hu & Hv & Le).
    + exists i. lia.
    + exists j. lia.
    + eapply Z.le_trans; [|exact Le]. apply (M [u; v]).
      assert (u = -1 \/ u = 0 \/ u = 1) as [->|[->| ->]] by lia; assert (v = -1 \/ v = 0 \/ v = 1) as [->|[->| ->]] by lia; cbn; tauto.
Qed.

Lemma least_transfer s t x x' y y' q : 0 < s -> 0 < t -> least_seen s t (seen_from [s; t] [x; x'] [y; y']) q -> least_hex [s; t] [y - x; y' - x'] q.
Proof.
  intros Hs Ht [(e & [Le _] & E) M]. change (seen_from [s; t] [x; x'] [y; y']) with [(y - x) mod s; (y' - x') mod t] in *.
  pose proof (Z.div_mod (y - x) s ltac:(lia)) as D. pose proof (Z.div_mod (y' - x') t ltac:(lia)) as D'.
  set (d := y - x) in *. set (d' := y' - x') in *. clearbody d d'. split.
  - destruct e as [|i [|j [|]]]; try discriminate Le. exists [i - d / s; j - d' / t]. split; [reflexivity|]. rewrite <- E. unfold image. cbn [zip_with]. f_equal. f_equal; [nia|f_equal; nia].
  - intros [|i [|j [|]]] L; try discriminate L. specialize (M [i + d / s; j + d' / t] eq_refl). unfold image in *. cbn [zip_with] in *.
    replace (d + i * s) with (d mod s + (i + d / s) * s) by nia. replace (d' + j * t) with (d' mod t + (j + d' / t) * t) by nia. exact M.
Qed.

Lemma tri_coords {T} (N : num T) size a b : lattice_ok (TriangularLattice N) size -> valid_site size a -> valid_site size b -> compact size ->
  exists s t x x' y y' q, size = [s; t] /\ 0 < s /\ 0 < t /\ coords_of size a = [x; x'] /\ coords_of size b = [y; y'] /\ 0 <= x < s /\ 0 <= x' < t /\ 0 <= y < s /\ 0 <= y' < t /\
  least_seen s t (seen_from size [x; x'] [y; y']) q /\ least_hex size [y - x; y' - x'] q.
Proof.
  intros H Ha Hb C. destruct (two_dims N size H) as (s & t & -> & Hs & Ht). pose proof H as (_ & _ & _ & ok & _).
  destruct (coords_of_spec _ a ok Ha) as (_ & Ga & _). destruct (coords_of_spec _ b ok Hb) as (_ & Gb & _).
  inversion Ga as [|? x ? la Hx Ga' E1 E2]; subst. inversion Ga' as [|? x' ? la' Hx' Ga'' E3 E4]; subst. inversion Ga''; subst.
  inversion Gb as [|? y ? lb Hy Gb' E5 E6]; subst. inversion Gb' as [|? y' ? lb' Hy' Gb'' E7 E8]; subst. inversion Gb''; subst.
  destruct (least_shell s t ((y - x) mod s) ((y' - x') mod t)) as [q Q]; [apply Z.mod_pos_bound; lia|apply Z.mod_pos_bound; lia|exact C|].
  exists s, t, x, x', y, y', q. do 9 (split; [auto|]). split; [exact Q|]. now apply least_transfer.
Qed.

(** ** Exact arithmetic *)
Lemma tri_closed_exact size : lattice_ok (TriangularLattice numR) size -> compact size ->
  exists L, Lattice numR PI (TriangularLattice numR) size true = Ok L /\ forall a b ca cb, valid_site size a -> valid_site size b ->
  GetCoordinates (l_grid L) a = Ok ca -> GetCoordinates (l_grid L) b = Ok cb ->
  exists q, least_hex size (zip_with Z.sub cb ca) q /\ GetDistance L a b = Ok (sqrt (IZR q)).
Proof.
  intros H C. exists (built numR PI (TriangularLattice numR) size true). split; [now apply lattice_built|]. intros a b ca cb Ha Hb Ea Eb.
  pose proof H as (_ & _ & _ & ok & _). change (l_grid (built numR PI (TriangularLattice numR) size true)) with (HyperCubicGrid size true) in *.
  rewrite grid_coords in Ea, Eb by assumption. injection Ea as <-. injection Eb as <-.
  destruct (closed_distance numR PI _ size a b H Ha Hb) as (Gc & _ & D). rewrite D. clear D.
  destruct (tri_coords numR size a b H Ha Hb C) as (s & t & x & x' & y & y' & q & -> & Hs & Ht & -> & -> & _ & _ & _ & _ & [(e1 & S1 & Q1) M] & Q). exists q. split; [exact Q|]. f_equal.
  destruct (best_spec numR Rlt_trans_b Rlt_irrefl_b (TriangularLattice numR) [s; t] (seen_from [s; t] [x; x'] [y; y']) eq_refl ltac:(cbn; lia)) as (N & (e & [Le Fe] & Ee) & F).
  rewrite Ee. specialize (F e1 S1). rewrite N, Ee in F. specialize (M e Le). rewrite <- Q1 in *. clear Q1 N Ee Q. destruct S1 as [L1 _].
  change (seen_from [s; t] [x; x'] [y; y']) with [(y - x) mod s; (y' - x') mod t] in *.
  destruct e as [|i [|j [|]]]; try discriminate Le. destruct e1 as [|i1 [|j1 [|]]]; try discriminate L1.
  unfold image in *. cbn [zip_with] in *. rewrite !tri_norm in *. cbn [numR n_lt] in F.
  match type of F with Rlt_bool ?u ?v = false => destruct (Rlt_bool_spec u v) as [|G]; [discriminate F|] end.
  apply Rle_antisym; [exact G|]. apply sqrt_le_1_alt, IZR_le, M.
Qed.

(** ** Metric *)
Lemma hex_triangle i j k l : (sqrt (IZR (hex_square [(i + k)%Z; (j + l)%Z])) <= sqrt (IZR (hex_square [i; j])) + sqrt (IZR (hex_square [k; l])))%R.
Proof.
  set (p := hex_square [i; j]). set (q := hex_square [k; l]).
  assert (Pp : (0 <= IZR p)%R) by (apply IZR_le, hex_square_pos). assert (Pq : (0 <= IZR q)%R) by (apply IZR_le, hex_square_pos).
  assert (E : IZR (hex_square [i + k; j + l]) = (IZR p + IZR q + IZR (2 * i * k + i * l + j * k + 2 * j * l))%R).
  { rewrite <- !plus_IZR. f_equal. unfold p, q, hex_square. ring. }
  set (m := 2 * i * k + i * l + j * k + 2 * j * l) in *.
  assert (CS : m * m <= 4 * (p * q)).
  { assert (4 * (p * q) - m * m = 3 * ((i * l - j * k) * (i * l - j * k))) by (unfold p, q, m, hex_square; ring).
    pose proof (Z.square_nonneg (i * l - j * k)). lia. }
  assert (CS' : (IZR m <= 2 * (sqrt (IZR p) * sqrt (IZR q)))%R).
  { apply IZR_le in CS. rewrite !mult_IZR in CS. rewrite <- sqrt_mult by assumption.
    replace 2%R with (sqrt 4) by (replace 4%R with (2 * 2)%R by lra; apply sqrt_square; lra).
    rewrite <- sqrt_mult by (lra || now apply Rmult_le_pos). apply Rle_trans with (Rabs (IZR m)); [apply Rle_abs|]. rewrite <- sqrt_Rsqr_abs. apply sqrt_le_1_alt. exact CS. }
  rewrite E. pose proof (sqrt_pos (IZR p)) as S1. pose proof (sqrt_pos (IZR q)) as S2. rewrite <- (sqrt_square (sqrt (IZR p) + sqrt (IZR q))) by lra. apply sqrt_le_1_alt.
  rewrite <- (sqrt_sqrt (IZR p)) at 1 by assumption. rewrite <- (sqrt_sqrt (IZR q)) at 1 by assumption. lra.
Qed.

Lemma least_triangle s t x x' y y' z z' p q r : least_hex [s; t] [y - x; y' - x'] p -> least_hex [s; t] [z - y; z' - y'] q -> least_hex [s; t] [z - x; z' - x'] r ->
  (sqrt (IZR r) <= sqrt (IZR p) + sqrt (IZR q))%R.
Proof.
  intros [(e & Le & <-) _] [(f & Lf & <-) _] [_ M]. destruct e as [|i [|j [|]]]; try discriminate Le. destruct f as [|k [|l [|]]]; try discriminate Lf.
  specialize (M [i + k; j + l] eq_refl). unfold image in *. cbn [zip_with] in *.
  apply Rle_trans with (sqrt (IZR (hex_square [y - x + i * s + (z - y + k * s); y' - x' + j * t + (z' - y' + l * t)]))); [|apply hex_triangle].
  apply sqrt_le_1_alt, IZR_le. eapply Z.le_trans; [exact M|]. apply Z.eq_le_incl. f_equal. f_equal; [ring|f_equal; ring].
Qed.

Lemma least_back s t x x' y y' q : least_hex [s; t] [y - x; y' - x'] q -> least_hex [s; t] [x - y; x' - y'] q.
Proof.
  intros [(e & Le & E) M]. destruct e as [|i [|j [|]]]; try discriminate Le. split.
  - exists [- i; - j]. split; [reflexivity|]. rewrite <- E. unfold image, hex_square. cbn [zip_with]. ring.
  - intros [|k [|l [|]]] L; try discriminate L. specialize (M [- k; - l] eq_refl). unfold image, hex_square in *. cbn [zip_with] in *. lia.
Qed.

Lemma least_zero s t x x' y y' q : 0 <= x < s -> 0 <= y < s -> 0 <= x' < t -> 0 <= y' < t -> least_hex [s; t] [y - x; y' - x'] q ->
  0 <= q /\ (q = 0 <-> [x; x'] = [y; y']).
Proof.
  intros Hx Hy Hx' Hy' [(e & Le & E) M]. destruct e as [|i [|j [|]]]; try discriminate Le. unfold image in *. cbn [zip_with] in *. split; [rewrite <- E; apply hex_square_pos|]. split.
  - intros ->. apply hex_square_zero in E as [E1 E2]. assert (i = 0) by nia. assert (j = 0) by nia. f_equal; [lia|f_equal; lia].
  - intros H. injection H as -> ->. specialize (M [0; 0] eq_refl). cbn [zip_with] in M. rewrite !Z.sub_diag in M. change (hex_square _) with 0 in M. pose proof (hex_square_pos (y - y + i * s) (y' - y' + j * t)). lia.
Qed.

Lemma tri_closed_metric size : lattice_ok (TriangularLattice numR) size -> compact size ->
  exists L d, Lattice numR PI (TriangularLattice numR) size true = Ok L /\
  (forall a b, valid_site size a -> valid_site size b -> GetDistance L a b = Ok (d a b) /\ d b a = d a b /\ (d a b = 0%R <-> a = b) /\ (a <> b -> 1 <= d a b)%R) /\
  (forall a b c, valid_site size a -> valid_site size b -> valid_site size c -> d a c <= d a b + d b c)%R.
Proof.
  intros H C. destruct (tri_closed_exact size H C) as (L & EL & D).
  exists L, (fun a b => match GetDistance L a b with Ok x => x | _ => 0%R end). split; [exact EL|].
  rewrite lattice_built in EL by exact H. injection EL as <-. pose proof H as (_ & _ & _ & ok & _).
  change (l_grid (built numR PI (TriangularLattice numR) size true)) with (HyperCubicGrid size true) in D.
  assert (G : forall a b, valid_site size a -> valid_site size b ->
    exists q, GetDistance (built numR PI (TriangularLattice numR) size true) a b = Ok (sqrt (IZR q)) /\ least_hex size (zip_with Z.sub (coords_of size b) (coords_of size a)) q).
  { intros a b Ha Hb. destruct (D a b _ _ Ha Hb (grid_coords size true a ok Ha) (grid_coords size true b ok Hb)) as (q & Q & E). now exists q. }
  split.
  - intros a b Ha Hb. destruct (G a b Ha Hb) as (q & -> & Q). destruct (G b a Hb Ha) as (q' & -> & Q').
    destruct (tri_coords numR size a b H Ha Hb C) as (s & t & x & x' & y & y' & _ & -> & Hs & Ht & Ea & Eb & Hx & Hx' & Hy & Hy' & _ & _).
    rewrite Ea, Eb in Q, Q'. cbn [zip_with] in Q, Q'. apply least_back in Q'. rewrite (least_hex_unique _ _ _ _ Q' Q).
    destruct (least_zero s t x x' y y' q Hx Hy Hx' Hy' Q) as [P Z0].
    assert (I : [x; x'] = [y; y'] <-> a = b).
    { split; [|intros ->; congruence]. intros E. destruct (coords_of_spec _ a ok Ha) as (_ & _ & <-). destruct (coords_of_spec _ b ok Hb) as (_ & _ & <-). congruence. }
    split; [reflexivity|]. split; [reflexivity|]. split.
    + rewrite <- I, <- Z0. split; [|intros ->; apply sqrt_0]. intros E. apply sqrt_eq_0 in E; [now apply eq_IZR|now apply (IZR_le 0)].
    + intros N. apply sqrt_one_iff; [exact P|]. assert (q <> 0) by (intros E; apply N, I, Z0, E). lia.
  - intros a b c Ha Hb Hc. destruct (G a b Ha Hb) as (p & -> & P). destruct (G b c Hb Hc) as (q & -> & Q). destruct (G a c Ha Hc) as (r & -> & R).
    destruct (tri_coords numR size a b H Ha Hb C) as (s & t & x & x' & y & y' & _ & -> & _ & _ & Ea & Eb & _).
    destruct (tri_coords numR [s; t] a c H Ha Hc C) as (s0 & t0 & x0 & x0' & z & z' & _ & _ & _ & _ & _ & Ec & _).
    rewrite Ea, Eb, Ec in *. cbn [zip_with] in *. eapply least_triangle; eassumption.
Qed.

(** ** Doubles *)
Lemma tri_closed_double size : lattice_ok (TriangularLattice numF) size -> compact size -> Forall (fun s => s <= 2 ^ 50) size ->
  forall a b, valid_site size a -> valid_site size b ->
  exists q x, least_hex size (zip_with Z.sub (coords_of size b) (coords_of size a)) q /\
  GetDistance (built numF pi_d (TriangularLattice numF) size true) a b = Ok x /\ fin x /\ grow 5 (RR x) (sqrt (IZR q)).
Proof.
  intros H C Big a b Ha Hb.
  destruct (closed_distance numF pi_d _ size a b H Ha Hb) as (Gc & _ & D). rewrite D. clear D.
  destruct (tri_coords numF size a b H Ha Hb C) as (s & t & x & x' & y & y' & q & -> & Hs & Ht & -> & -> & _ & _ & _ & _ & [(e1 & S1 & Q1) M] & Q). exists q. eexists. split; [exact Q|]. split; [reflexivity|].
  destruct (best_spec numF flt_trans flt_irrefl (TriangularLattice numF) [s; t] (seen_from [s; t] [x; x'] [y; y']) eq_refl ltac:(cbn; lia)) as (N & (e & [Le Fe] & Ee) & F).
  rewrite Ee. specialize (F e1 S1). rewrite N, Ee in F. specialize (M e Le). rewrite <- Q1 in *. clear Q1 N Ee Q. destruct S1 as [L1 F1].
  change (seen_from [s; t] [x; x'] [y; y']) with [(y - x) mod s; (y' - x') mod t] in *.
  pose proof (Z.mod_pos_bound (y - x) s ltac:(lia)) as B1. pose proof (Z.mod_pos_bound (y' - x') t ltac:(lia)) as B2.
  inversion Big as [|? ? Bs Big']; subst. inversion Big' as [|? ? Bt _]; subst.
  set (u := (y - x) mod s) in *. set (v := (y' - x') mod t) in *. clearbody u v.
  destruct e as [|i [|j [|]]]; try discriminate Le. destruct e1 as [|i1 [|j1 [|]]]; try discriminate L1.
  inversion Fe as [|? ? I1 Fe']; subst. inversion Fe' as [|? ? J1 _]; subst. inversion F1 as [|? ? I2 F1']; subst. inversion F1' as [|? ? J2 _]; subst.
  unfold image in *. cbn [zip_with] in *.
  assert (Z51 : forall w k r, 0 <= w < r -> r <= 2 ^ 50 -> -1 <= k <= 1 -> Z.abs (w + k * r) <= 2 ^ 51) by (clear; intros; nia).
  destruct (tri_double (u + i * s) (v + j * t)) as [Fd Gd]; [now apply Z51|now apply Z51|].
  destruct (tri_double (u + i1 * s) (v + j1 * t)) as [Fd1 Gd1]; [now apply Z51|now apply Z51|].
  unfold pv in *. change (b_dim (TriangularLattice numF)) with 2 in *.
  set (d := norm numF (map (row numF (TriangularLattice numF) [u + i * s; v + j * t]) (upto 2))) in *.
  set (d1 := norm numF (map (row numF (TriangularLattice numF) [u + i1 * s; v + j1 * t]) (upto 2))) in *. clearbody d d1.
  split; [exact Fd|]. cbn [numF n_lt] in F. apply flt_R_false in F; [|assumption|assumption].
  destruct Gd as [Gl Gh]. destruct Gd1 as [Gl1 Gh1]. split.
  - eapply Rle_trans; [|exact Gl]. apply Rmult_le_compat_l; [destruct (pw 5); lra|]. apply sqrt_le_1_alt, IZR_le, M.
  - lra.
Qed.

Lemma step_lists {T} (N : num T) d : In d (steps (TriangularLattice N)) -> exists i j, d = [i; j].
Proof. rewrite triangular_steps. intros I. repeat (destruct I as [<-|I]; [do 2 eexists; reflexivity|]). destruct I. Qed.

Lemma least_step {T} (N : num T) s t x x' y y' q : lattice_ok (TriangularLattice N) [s; t] -> 2 <= s -> 2 <= t -> 0 <= x < s -> 0 <= y < s -> 0 <= x' < t -> 0 <= y' < t ->
  least_hex [s; t] [y - x; y' - x'] q ->
  (q = 1 <-> exists d, In d (steps (TriangularLattice N)) /\ row_major [s; t] [y; y'] = row_major [s; t] (hop [s; t] [x; x'] d)).
Proof.
  intros H Hs Ht Hx Hy Hx' Hy' Q. pose proof (least_zero s t x x' y y' q Hx Hy Hx' Hy' Q) as [P Z0]. destruct Q as [(e & Le & E) M].
  assert (G : on_grid [s; t] [y; y']) by (constructor; [lia|constructor; [lia|constructor]]). split.
  - intros ->. destruct e as [|i [|j [|]]]; try discriminate Le. unfold image in E. cbn [zip_with] in E. apply (hex_square_one N) in E. eexists. split; [exact E|].
    f_equal. unfold hop, shifted, reduced_mod. cbn [zip_with map3].
    replace (x + (y - x + i * s)) with (y + i * s) by ring. replace (x' + (y' - x' + j * t)) with (y' + j * t) by ring. rewrite !Z.mod_add, !Z.mod_small by lia. reflexivity.
  - intros (d & Hd & R). pose proof (step_lists N d Hd) as (i & j & ->). apply (L_MathInt.row_major_inj [s; t]) in R; [|exact G|].
    + unfold hop, shifted, reduced_mod in R. cbn [zip_with map3] in R. injection R as Ry Ry'.
      pose proof (Z.div_mod (x + i) s ltac:(lia)) as D1. pose proof (Z.div_mod (x' + j) t ltac:(lia)) as D2. rewrite <- Ry in D1. rewrite <- Ry' in D2.
      specialize (M [(x + i) / s; (x' + j) / t] eq_refl). unfold image in M. cbn [zip_with] in M.
      replace (y - x + (x + i) / s * s) with i in M by lia. replace (y' - x' + (x' + j) / t * t) with j in M by lia.
      pose proof (proj2 (hex_square_one N i j) Hd) as O. rewrite O in M. assert (q <> 0); [|lia]. intros Eq. apply Z0 in Eq. injection Eq as -> ->.
      assert (Hi : Z.abs i <= 1 /\ Z.abs j <= 1) by (unfold hex_square in O; nia).
      assert (i = 0) by (set (k := (y + i) / s) in *; clearbody k; assert (i = s * k) by lia; assert (k = 0) by nia; lia).
      assert (j = 0) by (set (k := (y' + j) / t) in *; clearbody k; assert (j = t * k) by lia; assert (k = 0) by nia; lia).
      subst i j. discriminate O.
    + apply hop_on_grid; [constructor; [lia|constructor; [lia|constructor]]|reflexivity|reflexivity].
Qed.

Lemma tri_doubles size : lattice_ok (TriangularLattice numF) size -> compact size -> Forall (fun s => s <= 2 ^ 50) size ->
  exists L, Lattice numF pi_d (TriangularLattice numF) size true = Ok L /\ forall a b ca cb, valid_site size a -> valid_site size b ->
  GetCoordinates (l_grid L) a = Ok ca -> GetCoordinates (l_grid L) b = Ok cb ->
  exists q x, least_hex size (zip_with Z.sub cb ca) q /\ GetDistance L a b = Ok x /\ fin x /\
  ((1 - uro) ^ 5 * sqrt (IZR q) <= RR x <= (1 + uro) ^ 5 * sqrt (IZR q))%R.
Proof.
  intros H C Big. exists (built numF pi_d (TriangularLattice numF) size true). split; [now apply lattice_built|]. intros a b ca cb Ha Hb Ea Eb.
  pose proof H as (_ & _ & _ & ok & _). change (l_grid (built numF pi_d (TriangularLattice numF) size true)) with (HyperCubicGrid size true) in *.
  rewrite grid_coords in Ea, Eb by assumption. injection Ea as <-. injection Eb as <-. now apply tri_closed_double.
Qed.

Lemma tri_neighbors_doubles size : lattice_ok (TriangularLattice numF) size -> compact size -> Forall (fun s => 2 <= s <= 2 ^ 50) size ->
  exists L, Lattice numF pi_d (TriangularLattice numF) size true = Ok L /\ forall a b, valid_site size a -> valid_site size b ->
  exists r x, AreNeighbors L a b = Ok r /\ GetDistance L a b = Ok x /\ (r = true <-> (/ 2 < RR x < 3 / 2)%R) /\ (a <> b -> (/ 2 < RR x)%R) /\ (a = b -> RR x = 0%R).
Proof.
  intros H C Big. exists (built numF pi_d (TriangularLattice numF) size true). split; [now apply lattice_built|]. intros a b Ha Hb.
  destruct (tri_closed_double size H C) with (a := a) (b := b) as (q & x & Q & Ex & _ & Gx); [eapply Forall_impl; [|exact Big]; cbv beta; intros; lia|assumption|assumption|].
  rewrite are_neighbors_built by assumption. eexists. exists x. split; [reflexivity|]. split; [exact Ex|]. rewrite existsb_In. rewrite nbrs_closed by assumption.
  pose proof H as (_ & _ & _ & ok & _).
  destruct (tri_coords numF size a b H Ha Hb C) as (s & t & z & z' & y & y' & _ & -> & Hs & Ht & Ea & Eb & Hz & Hz' & Hy & Hy' & _ & _).
  destruct (coords_of_spec _ a ok Ha) as (_ & _ & Ra). destruct (coords_of_spec _ b ok Hb) as (_ & _ & Rb).
  inversion Big as [|? ? Bs Big']; subst. inversion Big' as [|? ? Bt _]; subst.
  rewrite Ea, Eb in *. cbn [zip_with] in Q. pose proof (least_step numF s t z z' y y' q H ltac:(lia) ltac:(lia) Hz Hy Hz' Hy' Q) as St. rewrite Rb in St.
  rewrite <- St. pose proof (least_zero s t z z' y y' q Hz Hy Hz' Hy' Q) as [P Z0].
  assert (N2 : q <> 2). { destruct Q as [(e & Le & E) _]. destruct e as [|i [|j [|]]]; try discriminate Le. rewrite <- E. apply hex_square_two. }
  assert (I : [z; z'] = [y; y'] <-> a = b) by (split; [congruence|intros ->; congruence]). rewrite I in Z0.
  destruct Gx as [G1 G2]. set (d := RR x) in *. clearbody d. pose proof uro_pos as U0. pose proof uro_small as U1.
  assert (A : (0.9 <= (1 - uro) ^ 5)%R) by (cbn [pow]; nra). assert (B : ((1 + uro) ^ 5 <= 1.1)%R) by (cbn [pow]; nra).
  set (l := ((1 - uro) ^ 5)%R) in *. set (h := ((1 + uro) ^ 5)%R) in *. clearbody l h.
  assert (Three : 3 <= q -> (3 / 2 < d)%R).
  { intros Hq. assert (1.7 <= sqrt (IZR q))%R.
    { apply Rle_trans with (sqrt (IZR 3)); [|now apply sqrt_IZR_le]. rewrite <- (sqrt_square 1.7) by lra. apply sqrt_le_1_alt. lra. }
    nra. }
  assert (q = 0 \/ q = 1 \/ 3 <= q) as [->|[->|Hq]] by lia.
  - rewrite sqrt_0 in *. assert (d = 0%R) by lra. split; [split; [discriminate|lra]|]. split; [intros Nab; elim Nab; now apply Z0|auto].
  - rewrite sqrt_1 in *. split; [split; [lra|reflexivity]|]. split; [lra|]. intros E. apply Z0 in E. discriminate E.
  - specialize (Three Hq). split; [split; [lia|lra]|]. split; [lra|]. intros E. apply Z0 in E. lia.
Qed.

Lemma tri_triangle_doubles size : lattice_ok (TriangularLattice numF) size -> compact size -> Forall (fun s => s <= 2 ^ 50) size ->
  exists L, Lattice numF pi_d (TriangularLattice numF) size true = Ok L /\ forall a b c, valid_site size a -> valid_site size b -> valid_site size c ->
  exists x y z w, GetDistance L a b = Ok x /\ GetDistance L b c = Ok y /\ GetDistance L a c = Ok z /\ GetDistance L b a = Ok w /\
  ((1 - uro) ^ 5 * RR z <= (1 + uro) ^ 5 * (RR x + RR y))%R /\ ((1 - uro) ^ 5 * RR w <= (1 + uro) ^ 5 * RR x)%R.
Proof.
  intros H C Big. exists (built numF pi_d (TriangularLattice numF) size true). split; [now apply lattice_built|]. intros a b c Ha Hb Hc.
  destruct (tri_closed_double size H C Big a b Ha Hb) as (p & x & P & Ex & _ & Gx). destruct (tri_closed_double size H C Big b c Hb Hc) as (q & y & Q & Ey & _ & Gy).
  destruct (tri_closed_double size H C Big a c Ha Hc) as (r & z & R & Ez & _ & Gz). destruct (tri_closed_double size H C Big b a Hb Ha) as (p' & w & P' & Ew & _ & Gw).
  exists x, y, z, w. repeat (split; [assumption|]).
  destruct (tri_coords numF size a b H Ha Hb C) as (s & t & u & u' & v & v' & _ & -> & _ & _ & Ea & Eb & _).
  destruct (tri_coords numF [s; t] a c H Ha Hc C) as (s0 & t0 & x0 & x0' & k & k' & _ & _ & _ & _ & _ & Ec & _).
  rewrite Ea, Eb, Ec in *. cbn [zip_with] in *. pose proof (least_triangle _ _ _ _ _ _ _ _ _ _ _ P Q R) as Tr. apply least_back in P'. rewrite (least_hex_unique _ _ _ _ P' P) in Gw.
  destruct Gx as [X1 X2]. destruct Gy as [Y1 Y2]. destruct Gz as [Z1 Z2]. destruct Gw as [W1 W2]. destruct (pw 5) as [[L0 L1] H1].
  set (l := ((1 - uro) ^ 5)%R) in *. set (h := ((1 + uro) ^ 5)%R) in *. clearbody l h.
  assert (M : forall A B, (A <= h * B -> l * A <= h * (l * B))%R) by (intros A B HA; replace (h * (l * B))%R with (l * (h * B))%R by ring; apply Rmult_le_compat_l; lra).
  split.
  - eapply Rle_trans; [apply (M _ (sqrt (IZR p) + sqrt (IZR q))%R)|].
    + eapply Rle_trans; [exact Z2|]. apply Rmult_le_compat_l; lra.
    + apply Rmult_le_compat_l; [lra|]. rewrite Rmult_plus_distr_l. lra.
  - eapply Rle_trans; [apply (M _ _ W2)|]. apply Rmult_le_compat_l; lra.
Qed.
