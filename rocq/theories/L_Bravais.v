(** Lemmas about Bravais lattices. *)
From Coq Require Import ZArith Reals List Bool Lia Lra.
From Flocq Require Import Core.Core IEEE754.BinarySingleNaN.
From Verif Require Import Base F64 Num S_Accum M_Bravais S_Bravais L_Hist L_MathF L_Accum L_Sum L_Approx L_Space.
Import ListNotations.
Open Scope Z_scope.

(** * Loops without effects *)

Lemma ofold_pure {A S} (f : S -> A -> out S) (g : S -> A -> S) l : forall s,
  (forall s a, In a l -> f s a = Ok (g s a)) -> ofold f l s = Ok (fold_left g l s).
Proof.
  induction l as [|a l IH]; intros s H; [reflexivity|]. cbn [ofold fold_left]. rewrite H by now left. cbn [bind].
  apply IH. intros s' a' Ha. apply H. now right.
Qed.

Lemma omapl_pure {A B} (f : A -> out B) (g : A -> B) l :
  (forall a, In a l -> f a = Ok (g a)) -> omapl f l = Ok (map g l).
Proof.
  induction l as [|a l IH]; intros H; [reflexivity|]. cbn [omapl map]. rewrite H by now left. cbn [bind].
  rewrite IH; [reflexivity|]. intros a' Ha. apply H. now right.
Qed.

Lemma vget_at {A} (l : list A) i d : 0 <= i < vsize l -> vget l i = Ok (nth (Z.to_nat i) l d).
Proof. intros H. now apply vget_nth. Qed.

Lemma map_nth_upto {A} (l : list A) d : map (fun i => nth (Z.to_nat i) l d) (upto (vsize l)) = l.
Proof.
  unfold upto, vsize. rewrite Nat2Z.id, map_map. rewrite (map_ext _ (fun n => nth n l d)) by (intros; now rewrite Nat2Z.id).
  induction l as [|a l IH]; [reflexivity|]. cbn [length seq map nth]. f_equal. rewrite <- seq_shift, map_map. exact IH.
Qed.

Lemma nth_map_upto {B} (f : Z -> B) n i d : 0 <= i < n -> nth (Z.to_nat i) (map f (upto n)) d = f i.
Proof.
  intros H. rewrite (nth_indep _ d (f 0)) by (rewrite map_length, upto_length; lia).
  rewrite (map_nth f). rewrite upto_nth by lia. now rewrite Z2Nat.id by lia.
Qed.

Lemma vsize_map_upto {B} (f : Z -> B) n : 0 <= n -> vsize (map f (upto n)) = n.
Proof. intros H. unfold vsize. rewrite map_length, upto_length. lia. Qed.

(** for (i < d) n[i] = f(i, n[i]) *)
Lemma update_each {A} (d0 : A) (f : Z -> A -> out A) (g : Z -> A -> A) l :
  (forall i, 0 <= i < vsize l -> f i (nth (Z.to_nat i) l d0) = Ok (g i (nth (Z.to_nat i) l d0))) ->
  ofold (fun n i => x <- vget n i ;; y <- f i x ;; vset n i y) (upto (vsize l)) l =
  Ok (map (fun i => g i (nth (Z.to_nat i) l d0)) (upto (vsize l))).
Proof.
  unfold upto, vsize. rewrite Nat2Z.id. intros H.
  assert (G : forall m pre suf, l = pre ++ suf -> length suf = m ->
    ofold (fun n i => x <- vget n i ;; y <- f i x ;; vset n i y) (map Z.of_nat (seq (length pre) m))
      (map (fun i => g i (nth (Z.to_nat i) l d0)) (map Z.of_nat (seq 0 (length pre))) ++ suf) =
    Ok (map (fun i => g i (nth (Z.to_nat i) l d0)) (map Z.of_nat (seq 0 (length l))))).
  { induction m as [|m IH]; intros pre suf El Hl.
    - destruct suf; [|discriminate]. rewrite app_nil_r in *. subst pre. reflexivity.
    - destruct suf as [|x suf]; [discriminate|]. injection Hl as Hl. cbn [seq map ofold].
      set (done := map _ (map Z.of_nat (seq 0 (length pre)))).
      assert (Ld : length done = length pre) by (unfold done; now rewrite !map_length, seq_length).
      assert (Nx : nth (length pre) l d0 = x) by (rewrite El, app_nth2, Nat.sub_diag by lia; reflexivity).
      assert (Ll : (length pre < length l)%nat) by (rewrite El, app_length; cbn [length]; lia).
      rewrite (vget_at _ _ d0) by (unfold vsize; rewrite app_length, Ld; cbn [length]; lia). cbn [bind].
      rewrite Nat2Z.id, app_nth2, Ld, Nat.sub_diag by lia. cbn [nth].
      pose proof (H (Z.of_nat (length pre)) ltac:(lia)) as Hf. rewrite Nat2Z.id, Nx in Hf. rewrite Hf. cbn [bind].
      unfold vset. replace ((0 <=? Z.of_nat (length pre)) && (Z.of_nat (length pre) <? vsize (done ++ x :: suf))) with true.
      2:{ symmetry. apply andb_true_iff. rewrite Z.leb_le, Z.ltb_lt. unfold vsize. rewrite app_length, Ld. cbn [length]. lia. }
      cbn [bind]. rewrite Nat2Z.id.
      assert (Es : list_set (done ++ x :: suf) (length pre) (g (Z.of_nat (length pre)) x) = (done ++ [g (Z.of_nat (length pre)) x]) ++ suf).
      { rewrite <- Ld. generalize (g (Z.of_nat (length done)) x). intros y. clearbody done. clear. induction done as [|a done IH]; cbn [app length list_set]; [reflexivity|]. now rewrite IH. }
      rewrite Es.
      assert (Ed : done ++ [g (Z.of_nat (length pre)) x] =
        map (fun i => g i (nth (Z.to_nat i) l d0)) (map Z.of_nat (seq 0 (length (pre ++ [x]))))).
      { unfold done. rewrite app_length. cbn [length]. rewrite Nat.add_1_r, seq_S, !map_app. cbn [map Nat.add].
        now rewrite Nat2Z.id, Nx. }
      rewrite Ed. replace (S (length pre)) with (length (pre ++ [x])) by (rewrite app_length; cbn [length]; lia).
      apply IH; [rewrite <- app_assoc; exact El|exact Hl]. }
  exact (G (length l) [] l eq_refl eq_refl).
Qed.

(** * The effect-free forms *)
Section Pure.
Context {T : Type} (N : num T).
Let zero := n_ofZ N 0.

Definition row (B : bravais T) (c : list Z) (i : Z) : T :=
  fold_left (fun p j => n_add N p (n_mul N (n_ofZ N (nth (Z.to_nat j) c 0)) (entry zero (b_p B) (b_dim B) i j))) (upto (b_dim B)) zero.

Lemma entry_bounds d i j : 0 <= i < d -> 0 <= j < d -> 0 <= i + j * d < d * d.
Proof. nia. Qed.

Lemma entry_ok (B : bravais T) m i j : well_formed B -> vsize m = b_dim B * b_dim B -> 0 <= i < b_dim B -> 0 <= j < b_dim B ->
  vget m (u64 (i + j * b_dim B)) = Ok (entry zero m (b_dim B) i j).
Proof.
  intros (Hd & _) Hm Hi Hj. pose proof (entry_bounds _ _ _ Hi Hj). unfold entry, u64.
  rewrite Z.mod_small by (rewrite two64_eq; nia). apply vget_at. lia.
Qed.

Lemma real_space_pure B c : well_formed B -> vsize c = b_dim B ->
  GetRealSpace N B c = Ok (map (row B c) (upto (b_dim B))).
Proof.
  intros W Hc. unfold GetRealSpace. apply omapl_pure. intros i Hi. apply upto_In in Hi. unfold real_row, row.
  apply (ofold_pure _ (fun p j => n_add N p (n_mul N (n_ofZ N (nth (Z.to_nat j) c 0)) (entry zero (b_p B) (b_dim B) i j)))).
  intros p j Hj. apply upto_In in Hj. rewrite (vget_at c j 0) by lia. cbn [bind].
  rewrite (entry_ok B) by (auto; apply W). reflexivity.
Qed.

Definition rrow (pi : T) (B : bravais T) (c : list Z) (i : Z) : T :=
  fold_left (fun p j => n_add N p (n_mul N (n_mul N (n_ofZ N (nth (Z.to_nat j) c 0 * 2)) pi) (entry zero (b_pi B) (b_dim B) i j))) (upto (b_dim B)) zero.

Lemma reciprocal_pure pi B c : well_formed B -> vsize c = b_dim B -> Forall (fun x => - 2 ^ 62 <= x < 2 ^ 62) c ->
  GetReciprocalSpace N pi B c = Ok (map (rrow pi B c) (upto (b_dim B))).
Proof.
  intros W Hc F. unfold GetReciprocalSpace. apply omapl_pure. intros i Hi. apply upto_In in Hi. unfold reciprocal_row, rrow.
  apply (ofold_pure _ (fun p j => n_add N p (n_mul N (n_mul N (n_ofZ N (nth (Z.to_nat j) c 0 * 2)) pi) (entry zero (b_pi B) (b_dim B) i j)))).
  intros p j Hj. apply upto_In in Hj. rewrite (vget_at c j 0) by lia. cbn [bind].
  assert (R : - 2 ^ 62 <= nth (Z.to_nat j) c 0 < 2 ^ 62).
  { rewrite Forall_forall in F. apply F. apply nth_In. unfold vsize in Hc. lia. }
  rewrite s64_ok by (rewrite two63_eq; lia). cbn [bind].
  rewrite (entry_ok B) by (auto; apply W). reflexivity.
Qed.

Definition irow (B : bravais T) (x : list T) (i : Z) : T :=
  fold_left (fun p j => n_add N p (n_mul N (nth (Z.to_nat i) x zero) (nth (Z.to_nat (i * b_dim B + j)) (b_pi B) zero))) (upto (b_dim B)) zero.

Lemma inverse_pure B x : well_formed B -> vsize x = b_dim B ->
  GetInverseVector N B x = Ok (map (irow B x) (upto (b_dim B))).
Proof.
  intros W Hx. unfold GetInverseVector. apply omapl_pure. intros i Hi. apply upto_In in Hi. unfold inverse_row, irow.
  apply (ofold_pure _ (fun p j => n_add N p (n_mul N (nth (Z.to_nat i) x zero) (nth (Z.to_nat (i * b_dim B + j)) (b_pi B) zero)))).
  intros p j Hj. apply upto_In in Hj. rewrite (vget_at x i zero) by lia. cbn [bind].
  destruct W as (Hd & _ & _ & Hp & _). pose proof (entry_bounds (b_dim B) j i Hj Hi) as E.
  unfold u64. rewrite Z.mod_small by (rewrite two64_eq; nia). rewrite (vget_at _ _ zero) by lia. reflexivity.
Qed.

Definition diff (d : Z) (a b : list Z) : list Z := map (fun i => nth (Z.to_nat i) b 0 - nth (Z.to_nat i) a 0) (upto d).

Definition diff_ok (a b : list Z) : Prop := Forall in_long (zip_with Z.sub b a).

Lemma zip_nth (f : Z -> Z -> Z) a : forall b i, (i < length a)%nat -> (i < length b)%nat ->
  nth i (zip_with f a b) 0 = f (nth i a 0) (nth i b 0) /\ (i < length (zip_with f a b))%nat.
Proof.
  induction a as [|x a IH]; intros [|y b] [|i] Ha Hb; cbn [length nth zip_with] in *; try (exfalso; lia); [split; [reflexivity|lia]|].
  destruct (IH b i) as [E L]; [lia|lia|]. split; [exact E|lia].
Qed.

Lemma difference_pure (B : bravais T) a b : well_formed B -> vsize a = b_dim B -> vsize b = b_dim B -> diff_ok a b ->
  coords_difference B a b = Ok (diff (b_dim B) a b).
Proof.
  intros W Ha Hb D. unfold coords_difference, diff. apply omapl_pure. intros i Hi. apply upto_In in Hi.
  rewrite (vget_at b i 0), (vget_at a i 0) by lia. cbn [bind]. apply s64_ok. rewrite two63_eq.
  unfold diff_ok in D. rewrite Forall_forall in D. unfold vsize in *.
  destruct (zip_nth Z.sub b a (Z.to_nat i)) as [E L]; [lia|lia|].
  specialize (D (nth (Z.to_nat i) (zip_with Z.sub b a) 0) (nth_In _ _ L)). rewrite E in D. exact D.
Qed.

Lemma vector_pure B a b : well_formed B -> vsize a = b_dim B -> vsize b = b_dim B -> diff_ok a b ->
  BGetVector N B a b = Ok (map (row B (diff (b_dim B) a b)) (upto (b_dim B))).
Proof.
  intros W Ha Hb D. unfold BGetVector. rewrite difference_pure by assumption. cbn [bind].
  apply real_space_pure; [exact W|]. unfold diff. apply vsize_map_upto. destruct W. lia.
Qed.

Definition norm (p : list T) : T := n_sqrt N (fold_left (fun d x => n_add N d (n_mul N x x)) p zero).

Lemma fold_left_map {A B C} (f : A -> B -> A) (g : C -> B) l : forall a, fold_left f (map g l) a = fold_left (fun a c => f a (g c)) l a.
Proof. induction l as [|c l IH]; intros a; [reflexivity|]. cbn [map fold_left]. apply IH. Qed.

Lemma length_pure (B : bravais T) p : vsize p = b_dim B -> length_of N B p = Ok (norm p).
Proof.
  intros Hp. unfold length_of, norm.
  assert (E : fold_left (fun d x => n_add N d (n_mul N x x)) p zero =
    fold_left (fun d i => n_add N d (n_mul N (nth (Z.to_nat i) p zero) (nth (Z.to_nat i) p zero))) (upto (b_dim B)) zero).
  { rewrite <- Hp. rewrite <- (fold_left_map (fun d x => n_add N d (n_mul N x x)) (fun i => nth (Z.to_nat i) p zero)).
    now rewrite map_nth_upto. }
  rewrite E.
  rewrite (ofold_pure _ (fun d i => n_add N d (n_mul N (nth (Z.to_nat i) p zero) (nth (Z.to_nat i) p zero)))); [reflexivity|].
  intros s i Hi. apply upto_In in Hi. rewrite (vget_at p i zero) by lia. reflexivity.
Qed.

Lemma distance_pure B a b : well_formed B -> vsize a = b_dim B -> vsize b = b_dim B -> diff_ok a b ->
  let p := map (row B (diff (b_dim B) a b)) (upto (b_dim B)) in
  BGetVector N B a b = Ok p /\ BGetDistance N B a b = Ok (norm p) /\ GetDistanceVector N B a b = Ok (norm p, p).
Proof.
  intros W Ha Hb D p. assert (Hp : vsize p = b_dim B) by (apply vsize_map_upto; destruct W; lia).
  pose proof (vector_pure B a b W Ha Hb D) as E. fold p in E.
  unfold BGetDistance, GetDistanceVector. rewrite E. cbn [bind]. rewrite length_pure by exact Hp. auto.
Qed.
End Pure.

Lemma diff_swap d a b : diff d b a = map Z.opp (diff d a b).
Proof. unfold diff. rewrite map_map. apply map_ext. intros i. lia. Qed.

Lemma diff_zip d a b : vsize a = d -> vsize b = d -> diff d a b = zip_with Z.sub b a.
Proof.
  unfold diff, vsize, upto. intros Ha Hb. rewrite <- Ha, Nat2Z.id, map_map.
  rewrite (map_ext _ (fun n => nth n b 0 - nth n a 0)) by (intros; now rewrite Nat2Z.id).
  assert (L : length a = length b) by lia. clear - L. revert b L.
  induction a as [|x a IH]; intros [|y b] L; try discriminate L; [reflexivity|]. cbn [length seq map nth zip_with].
  f_equal. rewrite <- seq_shift, map_map. apply IH. now injection L.
Qed.

(** * Neighbours *)

Lemma direction_nth {T} (B : bravais T) k i : well_formed B -> 0 <= k < b_gamma B / 2 -> 0 <= i < b_dim B ->
  nth (Z.to_nat i) (direction B k) 0 = nth (Z.to_nat (k * b_dim B + i)) (b_nn B) 0.
Proof.
  intros (Hd & Hg & _ & _ & Hn & _) Hk Hi. unfold direction, vsize in *.
  assert (L : forall m (l : list Z) n, (n < m)%nat -> nth n (firstn m l) 0 = nth n l 0).
  { induction m as [|m IH]; intros l n H; [lia|]. destruct l as [|x l], n as [|n]; try reflexivity. cbn [firstn nth]. apply IH. lia. }
  rewrite L by lia.
  assert (L2 : forall m (l : list Z) n, nth n (skipn m l) 0 = nth (m + n) l 0).
  { induction m as [|m IH]; intros l n; [reflexivity|]. destruct l as [|x l]; [cbn [skipn]; destruct n; reflexivity|]. cbn [skipn Nat.add nth]. apply IH. }
  rewrite L2. f_equal. nia.
Qed.

Lemma direction_length {T} (B : bravais T) k : well_formed B -> 0 <= k < b_gamma B / 2 -> vsize (direction B k) = b_dim B.
Proof.
  intros (Hd & Hg & _ & _ & Hn & _) Hk. unfold direction, vsize in *. rewrite firstn_length, skipn_length. nia.
Qed.

Lemma zip_upto {A B C} (da : A) (db : B) (f : A -> B -> C) a b : vsize b = vsize a ->
  map (fun i => f (nth (Z.to_nat i) a da) (nth (Z.to_nat i) b db)) (upto (vsize a)) = zip_with f a b.
Proof.
  unfold vsize, upto. intros L. rewrite Nat2Z.id, map_map.
  rewrite (map_ext _ (fun n => f (nth n a da) (nth n b db))) by (intros; now rewrite Nat2Z.id).
  assert (L' : length a = length b) by lia. clear L. revert b L'.
  induction a as [|x a IH]; intros [|y b] L; try discriminate L; [reflexivity|]. cbn [length seq map nth zip_with].
  f_equal. rewrite <- seq_shift, map_map. apply IH. now injection L.
Qed.

Lemma neighbor_spec {T} (B : bravais T) p k (s : bool) : well_formed B -> vsize p = b_dim B -> 0 <= k < b_gamma B / 2 ->
  let d := map (fun v => if s then v else - v) (direction B k) in
  Forall in_long d -> Forall in_long (zip_with Z.add p d) ->
  GetNeighbor B p (2 * k + if s then 0 else 1) = Ok (zip_with Z.add p d).
Proof.
  intros W Hp Hk d Hd1 Hd2. pose proof (direction_length B k W Hk) as DL.
  assert (Ld : vsize d = b_dim B) by (unfold d, vsize in *; rewrite map_length; exact DL).
  unfold GetNeighbor.
  assert (E1 : (2 * k + (if s then 0 else 1)) / 2 = k) by (destruct s; [rewrite Z.add_0_r, Z.mul_comm; now apply Z.div_mul|Z.to_euclidean_division_equations; lia]).
  assert (E2 : (if (2 * k + (if s then 0 else 1)) mod 2 =? 0 then 1 else -1) = if s then 1 else -1).
  { destruct s; [replace ((2 * k + 0) mod 2) with 0 by (Z.to_euclidean_division_equations; lia)|replace ((2 * k + 1) mod 2) with 1 by (Z.to_euclidean_division_equations; lia)]; reflexivity. }
  rewrite E1, E2. rewrite <- Hp.
  set (f := fun i x => v <- vget (b_nn B) (u64 (u64 (k * vsize p) + i)) ;; e <- s64 ((if s then 1 else -1) * v) ;; s64 (x + e)).
  assert (EF : forall l st, ofold (fun n i => x <- vget n i ;; v <- vget (b_nn B) (u64 (u64 (k * vsize p) + i)) ;;
      e <- s64 ((if s then 1 else -1) * v) ;; y <- s64 (x + e) ;; vset n i y) l st =
    ofold (fun n i => x <- vget n i ;; y <- f i x ;; vset n i y) l st).
  { induction l as [|i l IH]; intros st; [reflexivity|]. cbn [ofold]. unfold f at 1.
    destruct (vget st i) as [x| | |]; cbn [bind]; try reflexivity.
    destruct (vget (b_nn B) _) as [v| | |]; cbn [bind]; try reflexivity.
    destruct (s64 ((if s then 1 else -1) * v)) as [e| | |]; cbn [bind]; try reflexivity.
    destruct (s64 (x + e)) as [y| | |]; cbn [bind]; try reflexivity.
    destruct (vset st i y) as [st'| | |]; cbn [bind]; try reflexivity. apply IH. }
  rewrite EF. rewrite (update_each 0 f (fun i x => x + nth (Z.to_nat i) d 0)).
  - f_equal. apply (zip_upto 0 0 Z.add). lia.
  - intros i Hi. unfold f.
    assert (Dn : nth (Z.to_nat i) d 0 = if s then nth (Z.to_nat (k * b_dim B + i)) (b_nn B) 0 else - nth (Z.to_nat (k * b_dim B + i)) (b_nn B) 0).
    { unfold d. rewrite (nth_indep _ 0 ((fun v => if s then v else - v) 0)) by (unfold d, vsize in *; lia).
      rewrite (map_nth (fun v => if s then v else - v)), direction_nth by (auto; lia). reflexivity. }
    destruct W as (Hdm & Hg & _ & _ & Hn & Hnb). rewrite Hp in *.
    assert (U1 : u64 (k * b_dim B) = k * b_dim B) by (unfold u64; rewrite Z.mod_small; [reflexivity|rewrite two64_eq; nia]).
    assert (U2 : u64 (k * b_dim B + i) = k * b_dim B + i) by (unfold u64; rewrite Z.mod_small; [reflexivity|rewrite two64_eq; nia]).
    rewrite U1, U2. rewrite (vget_at _ _ 0) by nia. cbn [bind].
    rewrite Forall_forall in Hd1, Hd2. unfold vsize in *.
    assert (I1 : in_long (nth (Z.to_nat i) d 0)) by (apply Hd1, nth_In; lia).
    assert (I2 : in_long (nth (Z.to_nat i) p 0 + nth (Z.to_nat i) d 0)).
    { destruct (zip_nth Z.add p d (Z.to_nat i)) as [E L]; [lia|lia|]. rewrite <- E. apply Hd2, nth_In, L. }
    unfold in_long in I1, I2. rewrite Dn in I1, I2 |- *.
    rewrite s64_ok by (rewrite two63_eq; destruct s; lia). cbn [bind].
    rewrite s64_ok by (rewrite two63_eq; destruct s; lia). f_equal. destruct s; lia.
Qed.

Lemma neighbor_oob {T} (B : bravais T) p idx : well_formed B -> vsize p = b_dim B -> 2 * (b_gamma B / 2) <= idx ->
  idx / 2 * b_dim B < 2 ^ 64 -> GetNeighbor B p idx = UB.
Proof.
  intros (Hd & Hg & _ & _ & Hn & _) Hp Hi Hu. unfold GetNeighbor.
  assert (E : upto (b_dim B) = 0 :: map Z.of_nat (seq 1 (Z.to_nat (b_dim B) - 1))).
  { unfold upto. replace (Z.to_nat (b_dim B)) with (S (Z.to_nat (b_dim B) - 1)) at 1 by lia. reflexivity. }
  rewrite E. cbn [ofold]. rewrite (vget_at p 0 0) by lia. cbn [bind].
  assert (Q : b_gamma B / 2 <= idx / 2) by (apply Z.div_le_lower_bound; lia).
  assert (Q0 : 0 <= b_gamma B / 2) by (apply Z.div_pos; lia).
  assert (Q1 : 0 <= b_gamma B / 2 * b_dim B <= idx / 2 * b_dim B) by nia.
  rewrite vget_oob; [reflexivity|]. rewrite Z.add_0_r. unfold u64. rewrite Z.mod_mod by (rewrite two64_eq; lia).
  rewrite Z.mod_small by (rewrite two64_eq; lia). lia.
Qed.

(** * Negation up to the sign of zero *)

Lemma fin_split x : fin x \/ ~ fin x.
Proof. unfold fin. destruct (is_finite x); auto. Qed.

Lemma fopp_fopp x : fopp (fopp x) = x. Proof. apply Bopp_involutive. Qed.

Lemma B2SF_overflow s : binary_overflow 53 1024 mode_NE s = SpecFloat.S754_infinity s.
Proof. reflexivity. Qed.

Lemma fmul_opp_l x y : fmul (fopp x) y = fopp (fmul x y).
Proof.
  destruct (fin_split x) as [Fx|Nx], (fin_split y) as [Fy|Ny].
  2-4: destruct x as [[]|[]| |[] m e b], y as [[]|[]| |[] m' e' b']; try (now exfalso; apply Nx); try (now exfalso; apply Ny); reflexivity.
  assert (Fo : fin (fopp x)) by now apply fin_fopp.
  pose proof (Bmult_correct 53 1024 _ _ mode_NE x y) as C. pose proof (Bmult_correct 53 1024 _ _ mode_NE (fopp x) y) as C'.
  change (round radix2 (SpecFloat.fexp 53 1024) (round_mode mode_NE) (B2R x * B2R y)) with (rnd (RR x * RR y)) in C.
  change (round radix2 (SpecFloat.fexp 53 1024) (round_mode mode_NE) (B2R (fopp x) * B2R y)) with (rnd (RR (fopp x) * RR y)) in C'.
  assert (E : rnd (RR (fopp x) * RR y) = (- rnd (RR x * RR y))%R) by (rewrite RR_fopp, Ropp_mult_distr_l_reverse; apply rnd_opp).
  rewrite E, Rabs_Ropp in C'.
  assert (So : Bsign (fopp x) = negb (Bsign x)) by (destruct x; reflexivity || discriminate Fx).
  destruct (Rlt_bool_spec (Rabs (rnd (RR x * RR y))) (bpow radix2 1024)) as [H|H].
  - destruct C as (A & B & S), C' as (A' & B' & S').
    change (Bmult mode_NE x y) with (fmul x y) in *. change (Bmult mode_NE (fopp x) y) with (fmul (fopp x) y) in *.
    unfold fin in Fx, Fy, Fo. rewrite Fx, Fy in B. rewrite Fo, Fy in B'.
    assert (N1 : is_nan (fmul x y) = false) by (destruct (fmul x y); cbn in *; congruence).
    assert (N2 : is_nan (fmul (fopp x) y) = false) by (destruct (fmul (fopp x) y); cbn in *; congruence).
    specialize (S N1). specialize (S' N2).
    apply B2R_Bsign_inj.
    + exact B'.
    + unfold fopp. rewrite is_finite_Bopp. exact B.
    + change (RR (fmul (fopp x) y) = RR (fopp (fmul x y))). rewrite RR_fopp. unfold RR in *. now rewrite A, A'.
    + rewrite S', So. unfold fopp. rewrite (Bsign_Bopp _ _ (fmul x y) N1). rewrite S. now destruct (Bsign x), (Bsign y).
  - apply B2SF_inj. change (Bmult mode_NE x y) with (fmul x y) in *. change (Bmult mode_NE (fopp x) y) with (fmul (fopp x) y) in *.
    rewrite C', So, B2SF_overflow. rewrite B2SF_overflow in C.
    destruct (fmul x y) as [|s| |]; try discriminate C. cbn in C. injection C as ->. cbn. now destruct (Bsign x), (Bsign y).
Qed.

Lemma fmul_opp_r x y : fmul x (fopp y) = fopp (fmul x y).
Proof.
  destruct (fin_split x) as [Fx|Nx], (fin_split y) as [Fy|Ny].
  2-4: destruct x as [[]|[]| |[] m e b], y as [[]|[]| |[] m' e' b']; try (now exfalso; apply Nx); try (now exfalso; apply Ny); reflexivity.
  assert (Fo : fin (fopp y)) by now apply fin_fopp.
  pose proof (Bmult_correct 53 1024 _ _ mode_NE x y) as C. pose proof (Bmult_correct 53 1024 _ _ mode_NE x (fopp y)) as C'.
  change (round radix2 (SpecFloat.fexp 53 1024) (round_mode mode_NE) (B2R x * B2R y)) with (rnd (RR x * RR y)) in C.
  change (round radix2 (SpecFloat.fexp 53 1024) (round_mode mode_NE) (B2R x * B2R (fopp y))) with (rnd (RR x * RR (fopp y))) in C'.
  assert (E : rnd (RR x * RR (fopp y)) = (- rnd (RR x * RR y))%R) by (rewrite RR_fopp, Ropp_mult_distr_r_reverse; apply rnd_opp).
  rewrite E, Rabs_Ropp in C'.
  assert (So : Bsign (fopp y) = negb (Bsign y)) by (destruct y; reflexivity || discriminate Fy).
  destruct (Rlt_bool_spec (Rabs (rnd (RR x * RR y))) (bpow radix2 1024)) as [H|H].
  - destruct C as (A & B & S), C' as (A' & B' & S').
    change (Bmult mode_NE x y) with (fmul x y) in *. change (Bmult mode_NE x (fopp y)) with (fmul x (fopp y)) in *.
    unfold fin in Fx, Fy, Fo. rewrite Fx, Fy in B. rewrite Fo, Fx in B'.
    assert (N1 : is_nan (fmul x y) = false) by (destruct (fmul x y); cbn in *; congruence).
    assert (N2 : is_nan (fmul x (fopp y)) = false) by (destruct (fmul x (fopp y)); cbn in *; congruence).
    specialize (S N1). specialize (S' N2).
    apply B2R_Bsign_inj.
    + exact B'.
    + unfold fopp. rewrite is_finite_Bopp. exact B.
    + change (RR (fmul x (fopp y)) = RR (fopp (fmul x y))). rewrite RR_fopp. unfold RR in *. now rewrite A, A'.
    + rewrite S', So. unfold fopp. rewrite (Bsign_Bopp _ _ (fmul x y) N1). rewrite S. now destruct (Bsign x), (Bsign y).
  - apply B2SF_inj. change (Bmult mode_NE x y) with (fmul x y) in *. change (Bmult mode_NE x (fopp y)) with (fmul x (fopp y)) in *.
    rewrite C', So, B2SF_overflow. rewrite B2SF_overflow in C.
    destruct (fmul x y) as [|s| |]; try discriminate C. cbn in C. injection C as ->. cbn. now destruct (Bsign x), (Bsign y).
Qed.

Lemma fin_zero x : fin x -> RR x = 0%R -> exists s, x = B754_zero s.
Proof.
  intros F E. destruct x as [s|s| |s m e b]; try discriminate F; [now exists s|]. exfalso.
  apply (F2R_neq_0 radix2 (Float radix2 (cond_Zopp s (Zpos m)) e)); [now destruct s|exact E].
Qed.

Lemma negated_RR x y : negated x y -> fin x -> fin y /\ RR y = (- RR x)%R.
Proof.
  intros [->|(Fx & Fy & Ex & Ey)] F; [split; [now apply fin_fopp|apply RR_fopp]|]. split; [exact Fy|lra].
Qed.

Lemma negated_fin x y : fin x -> fin y -> RR y = (- RR x)%R -> negated x y.
Proof.
  intros Fx Fy E. destruct (Req_dec (RR x) 0) as [Z|Z]; [right; repeat split; auto; lra|].
  left. apply RR_inj; [rewrite RR_fopp; exact E|lra].
Qed.

Lemma negated_sign x y : negated x y -> RR x <> 0%R -> Bsign y = negb (Bsign x).
Proof. intros [->|(_ & _ & E & _)] N; [|contradiction]. destruct x; try reflexivity. now cbn in N. Qed.

Lemma inf_signs x y : inf x -> inf y -> Bsign y = negb (Bsign x) -> y = fopp x.
Proof. unfold inf. destruct x as [|[]| |], y as [|[]| |]; cbn; intros; try discriminate; reflexivity. Qed.

Lemma negated_add x y x' y' : negated x y -> negated x' y' -> negated (fadd x x') (fadd y y').
Proof.
  intros H H'. destruct (fin_split x) as [Fx|Nx]; [destruct (fin_split x') as [Fx'|Nx']|].
  - destruct (negated_RR _ _ H Fx) as [Fy Ey]. destruct (negated_RR _ _ H' Fx') as [Fy' Ey'].
    assert (E : rnd (RR y + RR y') = (- rnd (RR x + RR x'))%R) by (rewrite Ey, Ey', <- rnd_opp; f_equal; ring).
    destruct (fadd_cases x x' Fx Fx') as [[F1 E1]|(I1 & B1 & S1 & S1')], (fadd_cases y y' Fy Fy') as [[F2 E2]|(I2 & B2 & S2 & S2')].
    + apply negated_fin; auto. rewrite E2, E1. exact E.
    + exfalso. rewrite E, Rabs_Ropp in B2. pose proof (RR_lt_fmax (fadd x x')) as L. rewrite E1 in L. lra.
    + exfalso. pose proof (RR_lt_fmax (fadd y y')) as L. rewrite E2, E, Rabs_Ropp in L. lra.
    + left. apply inf_signs; auto. rewrite S1, S2. apply negated_sign; [exact H|]. intros Z.
      rewrite Z, Rplus_0_l, rnd_fmt in B1 by apply fmt_RR. pose proof (RR_lt_fmax x'). lra.
  - destruct H' as [->|(F & _)]; [|contradiction]. destruct (negated_RR _ _ H Fx) as [Fy _]. left.
    destruct x' as [|[]| |]; try (now exfalso; apply Nx'); destruct x; try discriminate Fx; destruct y; try discriminate Fy; reflexivity.
  - destruct H as [->|(F & _)]; [|contradiction]. left.
    destruct (fin_split x') as [Fx'|Nx'].
    + destruct (negated_RR _ _ H' Fx') as [Fy' _].
      destruct x as [|[]| |]; try (now exfalso; apply Nx); destruct x'; try discriminate Fx'; destruct y'; try discriminate Fy'; reflexivity.
    + destruct H' as [->|(F & _)]; [|contradiction].
      destruct x as [|[]| |]; try (now exfalso; apply Nx); destruct x' as [|[]| |]; try (now exfalso; apply Nx'); reflexivity.
Qed.

Lemma negated_mul x y v : negated x y -> negated (fmul x v) (fmul y v).
Proof.
  intros [->|(Fx & Fy & Ex & Ey)]; [left; apply fmul_opp_l|].
  destruct (fin_zero x Fx Ex) as [s ->]. destruct (fin_zero y Fy Ey) as [s' ->].
  destruct v as [sv|sv| |sv m e b].
  - right. now repeat split.
  - left. reflexivity.
  - left. reflexivity.
  - right. now repeat split.
Qed.

Lemma negated_square x y : negated x y -> fmul y y = fmul x x.
Proof.
  intros [->|(Fx & Fy & Ex & Ey)]; [rewrite fmul_opp_l, fmul_opp_r; apply fopp_fopp|].
  destruct (fin_zero x Fx Ex) as [[] ->], (fin_zero y Fy Ey) as [[] ->]; reflexivity.
Qed.

Lemma negated_of_Z z : Z.abs z <= 2 ^ 1023 -> negated (of_Z z) (of_Z (- z)).
Proof.
  intros H. destruct (of_Z_ok z H) as [E F]. destruct (of_Z_ok (- z)) as [E' F']; [lia|].
  apply negated_fin; auto. rewrite E', E, opp_IZR. apply rnd_opp.
Qed.

Lemma negated_fold {A} (f g : A -> f64) l : forall x y, (forall a, In a l -> negated (f a) (g a)) -> negated x y ->
  negated (fold_left (fun p a => fadd p (f a)) l x) (fold_left (fun p a => fadd p (g a)) l y).
Proof.
  induction l as [|a l IH]; intros x y H H0; [exact H0|]. cbn [fold_left]. apply IH; [intros; apply H; now right|].
  apply negated_add; [exact H0|]. apply H. now left.
Qed.

Lemma row_negated B c i : Forall (fun z => Z.abs z <= 2 ^ 64) c -> negated (row numF B c i) (row numF B (map Z.opp c) i).
Proof.
  intros F. unfold row. cbn [numF n_add n_mul n_ofZ].
  apply (negated_fold (fun j => fmul (of_Z (nth (Z.to_nat j) c 0)) (entry (of_Z 0) (b_p B) (b_dim B) i j))
    (fun j => fmul (of_Z (nth (Z.to_nat j) (map Z.opp c) 0)) (entry (of_Z 0) (b_p B) (b_dim B) i j))).
  - intros j _. apply negated_mul. change 0 with (Z.opp 0) at 2. rewrite map_nth. apply negated_of_Z.
    destruct (Nat.lt_ge_cases (Z.to_nat j) (length c)) as [L|L].
    + rewrite Forall_forall in F. assert (Z.abs (nth (Z.to_nat j) c 0) <= 2 ^ 64) by (apply F, nth_In, L).
      assert (2 ^ 64 <= 2 ^ 1023) by (apply Z.pow_le_mono_r; lia). lia.
    + rewrite nth_overflow by exact L. rewrite Z.abs_0. apply Z.pow_nonneg. lia.
  - right. repeat split; reflexivity.
Qed.

Lemma norm_negated a b : Forall2 negated a b -> norm numF b = norm numF a.
Proof.
  intros H. unfold norm. f_equal. cbn [numF n_add n_mul n_ofZ]. generalize (of_Z 0).
  induction H as [|x y a b E H IH]; intros s; [reflexivity|]. cbn [fold_left]. rewrite (negated_square x y E). apply IH.
Qed.

Lemma diff_long d a b : vsize a = d -> vsize b = d -> diff_ok a b -> Forall (fun z => Z.abs z <= 2 ^ 64) (diff d a b).
Proof.
  intros Ha Hb D. rewrite diff_zip by assumption. unfold diff_ok in D. eapply Forall_impl; [|exact D].
  intros z. unfold in_long. intros H. cbn in H |- *. lia.
Qed.

Lemma Forall2_map_in {A B C} (R : B -> C -> Prop) (f : A -> B) (g : A -> C) l :
  (forall a, In a l -> R (f a) (g a)) -> Forall2 R (map f l) (map g l).
Proof.
  induction l as [|a l IH]; intros H; [constructor|]. cbn [map]. constructor; [apply H; now left|].
  apply IH. intros; apply H. now right.
Qed.

Lemma distance_sym B a b : well_formed B -> vsize a = b_dim B -> vsize b = b_dim B -> diff_ok a b -> diff_ok b a ->
  (exists u v, BGetVector numF B a b = Ok u /\ BGetVector numF B b a = Ok v /\ Forall2 negated u v) /\
  (exists x, BGetDistance numF B a b = Ok x /\ BGetDistance numF B b a = Ok x).
Proof.
  intros W Ha Hb D D'.
  destruct (distance_pure numF B a b W Ha Hb D) as (V & L & _). destruct (distance_pure numF B b a W Hb Ha D') as (V' & L' & _).
  rewrite diff_swap in V', L'.
  assert (N : Forall2 negated (map (row numF B (diff (b_dim B) a b)) (upto (b_dim B)))
    (map (row numF B (map Z.opp (diff (b_dim B) a b))) (upto (b_dim B)))).
  { apply Forall2_map_in. intros i _. apply row_negated. now apply diff_long. }
  split; eexists; [eexists; repeat split; eauto|]. split; [exact L|]. rewrite L'. f_equal. now apply norm_negated.
Qed.

Lemma zip_length {A B C} (f : A -> B -> C) a : forall b, length (zip_with f a b) = Nat.min (length a) (length b).
Proof. induction a as [|x a IH]; intros [|y b]; cbn [zip_with length Nat.min]; auto. Qed.

Lemma zip_sub_shift a : forall b t, length b = length a -> length t = length a ->
  zip_with Z.sub (zip_with Z.add b t) (zip_with Z.add a t) = zip_with Z.sub b a.
Proof.
  induction a as [|x a IH]; intros [|y b] [|z t] Hb Ht; try discriminate; [reflexivity|]. cbn [zip_with]. f_equal; [lia|].
  apply IH; [now injection Hb|now injection Ht].
Qed.

(** A finite matrix gives a zero row on the zero vector. *)
Lemma zero_row B c i : Forall (fun z => z = 0) c -> Forall fin (b_p B) -> RR (row numF B c i) = 0%R /\ fin (row numF B c i).
Proof.
  intros Hc Hp. unfold row. cbn [numF n_add n_mul n_ofZ].
  assert (Hz : forall j, nth j c 0 = 0).
  { intros j. destruct (Nat.lt_ge_cases j (length c)) as [L|L]; [|now apply nth_overflow].
    rewrite Forall_forall in Hc. apply Hc, nth_In, L. }
  assert (He : forall j, fin (entry (of_Z 0) (b_p B) (b_dim B) i j)).
  { intros j. unfold entry. destruct (Nat.lt_ge_cases (Z.to_nat (i + j * b_dim B)) (length (b_p B))) as [L|L]; [|rewrite nth_overflow by exact L; reflexivity].
    rewrite Forall_forall in Hp. apply Hp, nth_In, L. }
  assert (G : forall l s, RR s = 0%R -> fin s ->
    let r := fold_left (fun p j => fadd p (fmul (of_Z (nth (Z.to_nat j) c 0)) (entry (of_Z 0) (b_p B) (b_dim B) i j))) l s in
    RR r = 0%R /\ fin r).
  { induction l as [|j l IH]; intros s E F; [now split|]. cbn [fold_left]. apply IH.
    - rewrite Hz. destruct (fin_zero s F E) as [ss ->]. specialize (He j).
      destruct (entry (of_Z 0) (b_p B) (b_dim B) i j) as [[]|?| |[] ? ? ?]; try discriminate He; destruct ss; reflexivity.
    - rewrite Hz. destruct (fin_zero s F E) as [ss ->]. specialize (He j).
      destruct (entry (of_Z 0) (b_p B) (b_dim B) i j) as [[]|?| |[] ? ? ?]; try discriminate He; destruct ss; reflexivity. }
  apply G; reflexivity.
Qed.

Lemma norm_zero v : Forall (fun x => RR x = 0%R /\ fin x) v -> norm numF v = f0.
Proof.
  intros H. unfold norm. cbn [numF n_add n_mul n_ofZ n_sqrt]. rewrite of_Z_0.
  assert (E : fold_left (fun d x => fadd d (fmul x x)) v f0 = f0).
  { induction H as [|x v [E F] H IH]; [reflexivity|]. cbn [fold_left]. destruct (fin_zero x F E) as [[] ->]; exact IH. }
  rewrite E. reflexivity.
Qed.

Lemma diff_self d a : Forall (fun z => z = 0) (diff d a a).
Proof. unfold diff. apply Forall_map, Forall_forall. intros i _. lia. Qed.

Lemma zip_self a : zip_with Z.sub a a = repeat 0 (length a).
Proof. induction a as [|x a IH]; [reflexivity|]. cbn [zip_with length repeat]. rewrite IH. f_equal. lia. Qed.

Lemma diff_ok_self a : diff_ok a a.
Proof.
  unfold diff_ok. rewrite zip_self. apply Forall_forall. intros z H. apply repeat_spec in H. subst. unfold in_long. lia.
Qed.

Lemma distance_self B a : well_formed B -> vsize a = b_dim B -> Forall fin (b_p B) -> BGetDistance numF B a a = Ok f0.
Proof.
  intros W Ha Hp. destruct (distance_pure numF B a a W Ha Ha (diff_ok_self a)) as (_ & L & _). rewrite L. f_equal.
  apply norm_zero, Forall_map, Forall_forall. intros i _. apply zero_row; [apply diff_self|exact Hp].
Qed.

(** * Unit lattices in doubles *)

Lemma of_Z_bits x z : fin x -> RR x = IZR z -> Z.abs z <= 2 ^ 53 -> (z = 0 -> x = f0) -> x = of_Z z.
Proof.
  intros F E H H0. destruct (Z.eq_dec z 0) as [->|N]; [now rewrite H0|].
  destruct (of_Z_exact z H) as [E' F']. apply RR_inj; [congruence|]. rewrite E. now apply IZR_neq.
Qed.

Lemma fmul_Z x y a b : fin x -> fin y -> RR x = IZR a -> RR y = IZR b -> Z.abs (a * b) <= 2 ^ 53 ->
  fin (fmul x y) /\ RR (fmul x y) = IZR (a * b).
Proof.
  intros Fx Fy Ex Ey H.
  assert (E : rnd (RR x * RR y) = IZR (a * b)) by (rewrite Ex, Ey, <- mult_IZR; now apply rnd_IZR).
  destruct (fmul_ok x y Fx Fy) as [A B]; [rewrite E; now apply small_fmax|].
  split; [assumption|]. now rewrite A.
Qed.

Lemma fadd_zero z x : Z.abs z <= 2 ^ 53 -> fin x -> RR x = 0%R -> fadd (of_Z z) x = of_Z z.
Proof.
  intros H F E. destruct (of_Z_exact z H) as [Ez Fz].
  destruct (fadd_Z (of_Z z) x z 0 Fz F Ez E) as [Fa Ea]; [lia|]. rewrite Z.add_0_r in Ea.
  apply of_Z_bits; auto. intros ->. destruct (fin_zero x F E) as [[] ->]; reflexivity.
Qed.

Lemma fadd_from_zero z x : Z.abs z <= 2 ^ 53 -> fin x -> RR x = IZR z -> fadd (of_Z 0) x = of_Z z.
Proof.
  intros H F E. destruct (fadd_Z (of_Z 0) x 0 z eq_refl F eq_refl E) as [Fa Ea]; [lia|].
  apply of_Z_bits; auto. intros ->. destruct (fin_zero x F E) as [[] ->]; reflexivity.
Qed.

Lemma unit_row B c i : unit_lattice f0 f1 B -> vsize c = b_dim B -> Forall (fun z => Z.abs z <= 2 ^ 53) c ->
  0 <= i < b_dim B -> row numF B c i = of_Z (nth (Z.to_nat i) c 0).
Proof.
  intros (W & U) Hc F Hi. unfold row. cbn [numF n_add n_mul n_ofZ].
  assert (Fn : forall j, Z.abs (nth j c 0) <= 2 ^ 53).
  { intros j. destruct (Nat.lt_ge_cases j (length c)) as [L|L]; [|rewrite nth_overflow by exact L; cbn; lia].
    rewrite Forall_forall in F. apply F, nth_In, L. }
  assert (G : forall n, 0 <= n -> n <= b_dim B ->
    fold_left (fun p j => fadd p (fmul (of_Z (nth (Z.to_nat j) c 0)) (entry (of_Z 0) (b_p B) (b_dim B) i j))) (upto n) (of_Z 0) =
    of_Z (if i <? n then nth (Z.to_nat i) c 0 else 0)).
  { refine (natlike_ind _ _ _).
    - intros _. destruct (Z.ltb_spec i 0); [lia|reflexivity].
    - intros n Hn IH Hle. unfold Z.succ. rewrite upto_S by exact Hn. rewrite fold_left_app, IH by lia. cbn [fold_left].
      change (entry (of_Z 0)) with (entry f0). destruct (U i n Hi ltac:(lia)) as [-> _]. destruct (of_Z_exact _ (Fn (Z.to_nat n))) as [En Fin].
      destruct (Z.eqb_spec i n) as [->|Ne].
      + replace (n <? n) with false by (symmetry; apply Z.ltb_irrefl). replace (n <? n + 1) with true by (symmetry; apply Z.ltb_lt; lia).
        destruct (fmul_Z (of_Z (nth (Z.to_nat n) c 0)) f1 (nth (Z.to_nat n) c 0) 1 Fin fin_f1 En RR_f1) as [Fm Em]; [rewrite Z.mul_1_r; apply Fn|].
        rewrite Z.mul_1_r in Em. apply fadd_from_zero; auto.
      + replace (i <? n + 1) with (i <? n) by (destruct (Z.ltb_spec i n), (Z.ltb_spec i (n + 1)); lia).
        destruct (fmul_Z (of_Z (nth (Z.to_nat n) c 0)) f0 (nth (Z.to_nat n) c 0) 0 Fin fin_f0 En RR_f0) as [Fm Em]; [rewrite Z.mul_0_r; cbn; lia|].
        rewrite Z.mul_0_r in Em. apply fadd_zero; auto. destruct (i <? n); [apply Fn|cbn; lia]. }
  rewrite G by lia. replace (i <? b_dim B) with true by (symmetry; apply Z.ltb_lt; lia). reflexivity.
Qed.

Lemma unit_real_space B c : unit_lattice f0 f1 B -> vsize c = b_dim B -> Forall (fun z => Z.abs z <= 2 ^ 53) c ->
  GetRealSpace numF B c = Ok (map of_Z c).
Proof.
  intros U Hc F. rewrite real_space_pure by (auto; apply U). f_equal.
  rewrite <- (map_nth_upto c 0) at 2. rewrite map_map, Hc. apply map_ext_in. intros i Hi. apply upto_In in Hi. now apply unit_row.
Qed.

Lemma sum_squares_nonneg l : 0 <= sum_squares l.
Proof. induction l as [|z l IH]; cbn [sum_squares fold_right]; [lia|]. fold (sum_squares l). nia. Qed.

Lemma norm_of_Z l : sum_squares l <= 2 ^ 53 ->
  fin (norm numF (map of_Z l)) /\ RR (norm numF (map of_Z l)) = rnd (sqrt (IZR (sum_squares l))).
Proof.
  intros H. unfold norm. cbn [numF n_add n_mul n_ofZ n_sqrt].
  assert (G : forall l s, 0 <= s -> s + sum_squares l <= 2 ^ 53 ->
    fold_left (fun d x => fadd d (fmul x x)) (map of_Z l) (of_Z s) = of_Z (s + sum_squares l)).
  { induction l0 as [|z l0 IH]; intros s Hs Hb; [cbn; now rewrite Z.add_0_r|].
    cbn [map fold_left]. cbn [sum_squares fold_right] in Hb |- *. fold (sum_squares l0) in Hb |- *.
    pose proof (sum_squares_nonneg l0). assert (Z.abs z <= 2 ^ 53) by nia.
    destruct (of_Z_exact z) as [Ez Fz]; [assumption|]. destruct (of_Z_exact s) as [Es Fs]; [nia|].
    destruct (fmul_Z _ _ z z Fz Fz Ez Ez) as [Fm Em]; [nia|].
    destruct (fadd_Z _ _ s (z * z) Fs Fm Es Em) as [Fa Ea]; [nia|].
    assert (E : fadd (of_Z s) (fmul (of_Z z) (of_Z z)) = of_Z (s + z * z)).
    { apply of_Z_bits; auto; [nia|]. intros Z0. assert (z = 0) by nia. assert (s = 0) by nia. subst. reflexivity. }
    rewrite E, IH by nia. f_equal. lia. }
  pose proof (sum_squares_nonneg l) as P. rewrite G by lia. rewrite Z.add_0_l.
  destruct (of_Z_exact (sum_squares l)) as [E F]; [lia|].
  destruct (fsqrt_ok (of_Z (sum_squares l)) F) as [A B]; [rewrite E; now apply IZR_le|].
  split; [exact B|]. now rewrite A, E.
Qed.

Lemma sum_squares_bound l n : sum_squares l <= n -> Forall (fun z => z * z <= n) l.
Proof.
  revert n. induction l as [|z l IH]; intros n H; [constructor|]. cbn [sum_squares fold_right] in H. fold (sum_squares l) in H.
  pose proof (sum_squares_nonneg l). constructor; [nia|]. apply IH. nia.
Qed.

Lemma unit_distance B a b : unit_lattice f0 f1 B -> vsize a = b_dim B -> vsize b = b_dim B ->
  sum_squares (zip_with Z.sub b a) <= 2 ^ 53 ->
  exists x, BGetDistance numF B a b = Ok x /\ fin x /\ RR x = rnd (sqrt (IZR (sum_squares (zip_with Z.sub b a)))).
Proof.
  intros U Ha Hb H. pose proof (sum_squares_bound _ _ H) as S.
  assert (S' : Forall (fun z => Z.abs z <= 2 ^ 53) (zip_with Z.sub b a)) by (eapply Forall_impl; [|exact S]; intros z; cbn beta; nia).
  assert (D : diff_ok a b).
  { unfold diff_ok. eapply Forall_impl; [|exact S']. intros z. unfold in_long. intros Hz. cbn in Hz |- *. lia. }
  destruct U as [W U]. destruct (distance_pure numF B a b W Ha Hb D) as (_ & L & _).
  assert (E : map (row numF B (diff (b_dim B) a b)) (upto (b_dim B)) = map of_Z (zip_with Z.sub b a)).
  { rewrite <- (diff_zip (b_dim B)) by assumption.
    assert (Hd : vsize (diff (b_dim B) a b) = b_dim B) by (apply vsize_map_upto; destruct W; lia).
    pose proof (unit_real_space B (diff (b_dim B) a b) (conj W U) Hd) as R. rewrite diff_zip in R at 1 by assumption. specialize (R S').
    rewrite real_space_pure in R by auto. injection R as R. exact R. }
  rewrite E in L. eexists. split; [exact L|]. now apply norm_of_Z.
Qed.

(** The inverse map in doubles *)
Lemma unit_inverse B c : unit_lattice f0 f1 B -> vsize c = b_dim B -> Forall (fun z => Z.abs z <= 2 ^ 53) c ->
  GetInverseVector numF B (map of_Z c) = Ok (map of_Z c).
Proof.
  intros (W & U) Hc F. rewrite inverse_pure; [|exact W|unfold vsize in *; now rewrite map_length]. f_equal.
  rewrite <- (map_nth_upto c 0) at 2. rewrite map_map, Hc. apply map_ext_in. intros i Hi. apply upto_In in Hi.
  unfold irow. cbn [numF n_add n_mul n_ofZ].
  assert (Fi : Z.abs (nth (Z.to_nat i) c 0) <= 2 ^ 53) by (rewrite Forall_forall in F; apply F, nth_In; unfold vsize in Hc; lia).
  rewrite (map_nth of_Z). destruct (of_Z_exact _ Fi) as [Ei Fin].
  assert (G : forall n, 0 <= n -> n <= b_dim B ->
    fold_left (fun p j => fadd p (fmul (of_Z (nth (Z.to_nat i) c 0)) (nth (Z.to_nat (i * b_dim B + j)) (b_pi B) (of_Z 0)))) (upto n) (of_Z 0) =
    of_Z (if i <? n then nth (Z.to_nat i) c 0 else 0)).
  { refine (natlike_ind _ _ _).
    - intros _. destruct (Z.ltb_spec i 0); [lia|reflexivity].
    - intros n Hn IH Hle. unfold Z.succ. rewrite upto_S by exact Hn. rewrite fold_left_app, IH by lia. cbn [fold_left].
      destruct (U n i ltac:(lia) Hi) as [_ E]. unfold entry in E. rewrite Z.add_comm in E. change f0 with (of_Z 0) in E at 1. rewrite E.
      destruct (Z.eqb_spec n i) as [->|Ne].
      + rewrite Z.ltb_irrefl. replace (i <? i + 1) with true by (symmetry; apply Z.ltb_lt; lia).
        destruct (fmul_Z _ f1 _ 1 Fin fin_f1 Ei RR_f1) as [Fm Em]; [rewrite Z.mul_1_r; apply Fi|].
        rewrite Z.mul_1_r in Em. apply fadd_from_zero; auto.
      + replace (i <? n + 1) with (i <? n) by (destruct (Z.ltb_spec i n), (Z.ltb_spec i (n + 1)); lia).
        destruct (fmul_Z _ f0 _ 0 Fin fin_f0 Ei RR_f0) as [Fm Em]; [rewrite Z.mul_0_r; cbn; lia|].
        rewrite Z.mul_0_r in Em. apply fadd_zero; auto. destruct (i <? n); [apply Fi|cbn; lia]. }
  rewrite G by lia. replace (i <? b_dim B) with true by (symmetry; apply Z.ltb_lt; lia). reflexivity.
Qed.

(** * The built-in lattices *)
Lemma range1 i : 0 <= i < 1 -> i = 0. Proof. lia. Qed.
Lemma range2 i : 0 <= i < 2 -> i = 0 \/ i = 1. Proof. lia. Qed.
Lemma range3 i : 0 <= i < 3 -> i = 0 \/ i = 1 \/ i = 2. Proof. lia. Qed.

Section Builtin.
Context {T : Type} (N : num T).
Lemma chain_wf : well_formed (ChainLattice N).
Proof. unfold well_formed, ChainLattice, vsize. cbn. lia. Qed.
Lemma square_wf : well_formed (SquareLattice N).
Proof. unfold well_formed, SquareLattice, vsize. cbn. lia. Qed.
Lemma cubic_wf : well_formed (CubicLattice N).
Proof. unfold well_formed, CubicLattice, vsize. cbn. lia. Qed.
Lemma triangular_wf : well_formed (TriangularLattice N).
Proof. unfold well_formed, TriangularLattice, vsize. cbn. lia. Qed.

Lemma chain_unit : unit_lattice (n_ofZ N 0) (n_ofZ N 1) (ChainLattice N).
Proof.
  split; [apply chain_wf|]. cbn [ChainLattice b_dim]. intros i j Hi Hj. apply range1 in Hi, Hj. subst. split; reflexivity.
Qed.
Lemma square_unit : unit_lattice (n_ofZ N 0) (n_ofZ N 1) (SquareLattice N).
Proof.
  split; [apply square_wf|]. cbn [SquareLattice b_dim]. intros i j Hi Hj. apply range2 in Hi, Hj.
  destruct Hi as [->| ->], Hj as [->| ->]; split; reflexivity.
Qed.
Lemma cubic_unit : unit_lattice (n_ofZ N 0) (n_ofZ N 1) (CubicLattice N).
Proof.
  split; [apply cubic_wf|]. cbn [CubicLattice b_dim]. intros i j Hi Hj. apply range3 in Hi, Hj.
  destruct Hi as [->|[->| ->]], Hj as [->|[->| ->]]; split; reflexivity.
Qed.
End Builtin.

(** * Exact arithmetic *)
Open Scope R_scope.

Lemma fold_sum {A} (f : A -> R) l : forall s, fold_left (fun p a => p + f a) l s = s + sumR (map f l).
Proof.
  induction l as [|a l IH]; intros s; unfold sumR in *; cbn [fold_left map fold_right]; [ring|]. rewrite IH. unfold sumR. ring.
Qed.

Lemma sumR_ext {A} (f g : A -> R) l : (forall a, In a l -> f a = g a) -> sumR (map f l) = sumR (map g l).
Proof. intros H. f_equal. now apply map_ext_in. Qed.
Lemma sumR_scal {A} c (f : A -> R) l : sumR (map (fun a => c * f a) l) = c * sumR (map f l).
Proof. induction l as [|a l IH]; unfold sumR in *; cbn [map fold_right]; [ring|]. rewrite IH. ring. Qed.
Lemma sumR_plus {A} (f g : A -> R) l : sumR (map (fun a => f a + g a) l) = sumR (map f l) + sumR (map g l).
Proof. induction l as [|a l IH]; unfold sumR in *; cbn [map fold_right]; [ring|]. rewrite IH. ring. Qed.
Lemma sumR_zero {A} (l : list A) : sumR (map (fun _ => 0) l) = 0.
Proof. induction l as [|a l IH]; unfold sumR in *; cbn [map fold_right]; [ring|]. rewrite IH. ring. Qed.
Lemma sumR_swap {A B} (f : A -> B -> R) l m :
  sumR (map (fun a => sumR (map (f a) m)) l) = sumR (map (fun b => sumR (map (fun a => f a b) l)) m).
Proof.
  induction l as [|a l IH].
  - cbn [map]. symmetry. exact (sumR_zero m).
  - cbn [map]. unfold sumR at 1. cbn [fold_right]. fold (sumR (map (fun a => sumR (map (f a) m)) l)). rewrite IH.
    rewrite <- sumR_plus. apply sumR_ext. intros b _. reflexivity.
Qed.

Lemma sum_delta n j (f : Z -> R) : (0 <= j < n)%Z -> sumR (map (fun l => (if (j =? l)%Z then 1 else 0) * f l) (upto n)) = f j.
Proof.
  intros H. assert (G : forall n, (0 <= n)%Z -> sumR (map (fun l => (if (j =? l)%Z then 1 else 0) * f l) (upto n)) = if (j <? n)%Z then f j else 0).
  { refine (natlike_ind _ _ _).
    - destruct (Z.ltb_spec j 0); [lia|reflexivity].
    - intros m Hm IH. unfold Z.succ. rewrite upto_S by exact Hm. rewrite map_app. cbn [map]. rewrite sumR_snoc, IH.
      destruct (Z.eqb_spec j m) as [<-|Ne].
      + rewrite Z.ltb_irrefl. replace (j <? j + 1)%Z with true by (symmetry; apply Z.ltb_lt; lia). ring.
      + replace (j <? m + 1)%Z with (j <? m)%Z by (destruct (Z.ltb_spec j m), (Z.ltb_spec j (m + 1)); lia). destruct (j <? m)%Z; ring. }
  rewrite G by lia. replace (j <? n)%Z with true by (symmetry; apply Z.ltb_lt; lia). reflexivity.
Qed.

Lemma row_R B c i : row numR B c i = sum_upto (b_dim B) (fun j => IZR (nth (Z.to_nat j) c 0%Z) * entry 0 (b_p B) (b_dim B) i j).
Proof. unfold row, sum_upto. cbn [numR n_add n_mul n_ofZ]. rewrite fold_sum. ring. Qed.

Lemma rrow_R pi B c i : rrow numR pi B c i =
  sum_upto (b_dim B) (fun j => 2 * pi * (IZR (nth (Z.to_nat j) c 0%Z) * entry 0 (b_pi B) (b_dim B) i j)).
Proof.
  unfold rrow, sum_upto. cbn [numR n_add n_mul n_ofZ]. rewrite fold_sum, Rplus_0_l. apply sumR_ext. intros j _.
  rewrite mult_IZR. ring.
Qed.

Lemma zip_map {A B C D} (f : A -> B -> C) (g : D -> A) (h : D -> B) l : zip_with f (map g l) (map h l) = map (fun d => f (g d) (h d)) l.
Proof. induction l as [|d l IH]; [reflexivity|]. cbn [map zip_with]. now rewrite IH. Qed.

Lemma duality B k c : well_formed B -> inverse_matrices B -> vsize k = b_dim B -> vsize c = b_dim B ->
  Forall (fun x => - 2 ^ 62 <= x < 2 ^ 62)%Z k ->
  exists r x, GetReciprocalSpace numR PI B k = Ok r /\ GetRealSpace numR B c = Ok x /\
  dot r x = 2 * PI * sum_upto (b_dim B) (fun j => IZR (nth (Z.to_nat j) k 0%Z) * IZR (nth (Z.to_nat j) c 0%Z)).
Proof.
  intros W I Hk Hc Fk. do 2 eexists. split; [now apply reciprocal_pure|]. split; [now apply real_space_pure|].
  unfold dot. rewrite zip_map. set (n := b_dim B).
  transitivity (sumR (map (fun j => 2 * PI * IZR (nth (Z.to_nat j) k 0%Z) * sumR (map (fun l => IZR (nth (Z.to_nat l) c 0%Z) *
     sum_upto n (fun i => entry 0 (b_pi B) n i j * entry 0 (b_p B) n i l)) (upto n))) (upto n))).
  - transitivity (sumR (map (fun i => sumR (map (fun j => sumR (map (fun l =>
      2 * PI * IZR (nth (Z.to_nat j) k 0%Z) * (IZR (nth (Z.to_nat l) c 0%Z) * (entry 0 (b_pi B) n i j * entry 0 (b_p B) n i l))) (upto n))) (upto n))) (upto n))).
    + apply sumR_ext. intros i _. rewrite rrow_R, row_R. unfold sum_upto. fold n. rewrite Rmult_comm, <- sumR_scal.
      apply sumR_ext. intros j _. rewrite Rmult_comm, <- sumR_scal. apply sumR_ext. intros l _. ring.
    + rewrite sumR_swap. apply sumR_ext. intros j _. rewrite sumR_swap, <- sumR_scal. apply sumR_ext. intros l _.
      rewrite sumR_scal. f_equal. unfold sum_upto. now rewrite sumR_scal.
  - unfold sum_upto at 2. rewrite <- sumR_scal. apply sumR_ext. intros j Hj. apply upto_In in Hj.
    rewrite Rmult_assoc. f_equal. f_equal. rewrite <- (sum_delta n j (fun l => IZR (nth (Z.to_nat l) c 0%Z))) by exact Hj.
    apply sumR_ext. intros l Hl. apply upto_In in Hl. rewrite I by assumption. ring.
Qed.

Lemma sqrt3_pos : 0 < sqrt 3. Proof. apply sqrt_lt_R0. lra. Qed.

Lemma chain_inverse : inverse_matrices (ChainLattice numR).
Proof.
  unfold inverse_matrices. cbn [ChainLattice b_dim]. intros j l Hj Hl. apply range1 in Hj, Hl. subst. cbv. lra.
Qed.
Ltac eval_sum :=
  unfold sum_upto, upto, sumR, entry;
  repeat (cbn -[IZR Pos.to_nat];
    progress repeat match goal with |- context [Pos.to_nat ?p] => let n := eval compute in (Pos.to_nat p) in change (Pos.to_nat p) with n end); cbn -[IZR].
Lemma square_inverse : inverse_matrices (SquareLattice numR).
Proof.
  unfold inverse_matrices. cbn [SquareLattice b_dim]. intros j l Hj Hl. apply range2 in Hj, Hl.
  destruct Hj as [->| ->], Hl as [->| ->]; eval_sum; lra.
Qed.
Lemma cubic_inverse : inverse_matrices (CubicLattice numR).
Proof.
  unfold inverse_matrices. cbn [CubicLattice b_dim]. intros j l Hj Hl. apply range3 in Hj, Hl.
  destruct Hj as [->|[->| ->]], Hl as [->|[->| ->]]; eval_sum; lra.
Qed.
Lemma triangular_inverse : inverse_matrices (TriangularLattice numR).
Proof.
  unfold inverse_matrices. cbn [TriangularLattice b_dim]. intros j l Hj Hl. apply range2 in Hj, Hl. pose proof sqrt3_pos.
  destruct Hj as [->| ->], Hl as [->| ->]; eval_sum; field; lra.
Qed.

(** What GetInverseVector computes: each component times a row sum. *)
Lemma inverse_exact B x : well_formed B -> vsize x = b_dim B ->
  GetInverseVector numR B x = Ok (map (fun i => nth (Z.to_nat i) x 0 * sum_upto (b_dim B) (fun j => entry 0 (b_pi B) (b_dim B) j i)) (upto (b_dim B))).
Proof.
  intros W Hx. rewrite inverse_pure by assumption. f_equal. apply map_ext. intros i. unfold irow. cbn [numR n_add n_mul n_ofZ].
  rewrite fold_sum, Rplus_0_l, sumR_scal. f_equal. unfold sum_upto, entry. apply sumR_ext. intros j _. now rewrite Z.add_comm.
Qed.

Lemma unit_R_real B c : unit_lattice 0 1 B -> vsize c = b_dim B -> GetRealSpace numR B c = Ok (map IZR c).
Proof.
  intros (W & U) Hc. rewrite real_space_pure by assumption. f_equal.
  transitivity (map IZR (map (fun i => nth (Z.to_nat i) c 0%Z) (upto (vsize c)))); [|now rewrite map_nth_upto].
  rewrite map_map, Hc. apply map_ext_in. intros i Hi. apply upto_In in Hi.
  rewrite row_R. unfold sum_upto. rewrite <- (sum_delta (b_dim B) i (fun l => IZR (nth (Z.to_nat l) c 0%Z))) by exact Hi.
  apply sumR_ext. intros j Hj. apply upto_In in Hj. destruct (U i j Hi Hj) as [-> _]. apply Rmult_comm.
Qed.

Lemma unit_R_inverse B c : unit_lattice 0 1 B -> vsize c = b_dim B -> GetInverseVector numR B (map IZR c) = Ok (map IZR c).
Proof.
  intros (W & U) Hc. rewrite inverse_exact; [|exact W|unfold vsize in *; now rewrite map_length]. f_equal.
  transitivity (map IZR (map (fun i => nth (Z.to_nat i) c 0%Z) (upto (vsize c)))); [|now rewrite map_nth_upto].
  rewrite map_map, Hc. apply map_ext_in. intros i Hi. apply upto_In in Hi.
  change 0 with (IZR 0%Z) at 1. rewrite (map_nth IZR).
  replace (sum_upto (b_dim B) (fun j => entry 0 (b_pi B) (b_dim B) j i)) with 1; [ring|]. symmetry.
  unfold sum_upto. rewrite <- (sum_delta (b_dim B) i (fun _ => 1)) by exact Hi. apply sumR_ext. intros j Hj. apply upto_In in Hj.
  destruct (U j i Hj Hi) as [_ ->]. rewrite Z.eqb_sym. ring.
Qed.

Open Scope Z_scope.
Lemma zip_opp a : forall d, zip_with Z.add a (map Z.opp d) = zip_with Z.sub a d.
Proof. induction a as [|x a IH]; intros [|y d]; cbn [zip_with map]; auto. rewrite IH. reflexivity. Qed.
Lemma zip_back a : forall d, length d = length a -> zip_with Z.sub (zip_with Z.add a d) d = a /\ zip_with Z.add (zip_with Z.sub a d) d = a.
Proof.
  induction a as [|x a IH]; intros [|y d] H; try discriminate H; [split; reflexivity|]. cbn [zip_with].
  destruct (IH d) as [E1 E2]; [now injection H|]. split; f_equal; auto; lia.
Qed.

Lemma neighbors_opposite {T} (B : bravais T) p k : well_formed B -> vsize p = b_dim B -> 0 <= k < b_gamma B / 2 ->
  let d := direction B k in
  Forall in_long p -> Forall in_long d -> Forall in_long (map Z.opp d) -> Forall in_long (shifted p d) -> Forall in_long (shifted_back p d) ->
  GetNeighbor B p (2 * k) = Ok (shifted p d) /\ GetNeighbor B p (2 * k + 1) = Ok (shifted_back p d) /\
  GetNeighbor B (shifted p d) (2 * k + 1) = Ok p /\ GetNeighbor B (shifted_back p d) (2 * k) = Ok p.
Proof.
  intros W Hp Hk d Fp Fd Fo Fs Fb. unfold shifted, shifted_back in *.
  assert (Ld : vsize d = b_dim B) by now apply direction_length.
  assert (Z1 : zip_with Z.sub (zip_with Z.add p d) d = p /\ zip_with Z.add (zip_with Z.sub p d) d = p) by (apply zip_back; unfold vsize in *; lia).
  destruct Z1 as [Z1 Z2].
  assert (L1 : vsize (zip_with Z.add p d) = b_dim B) by (unfold vsize in *; rewrite zip_length; lia).
  assert (L2 : vsize (zip_with Z.sub p d) = b_dim B) by (unfold vsize in *; rewrite zip_length; lia).
  assert (Mid : map (fun v => v) d = d) by apply map_id.
  pose proof (neighbor_spec B p k true W Hp Hk) as A1. pose proof (neighbor_spec B p k false W Hp Hk) as A2.
  pose proof (neighbor_spec B _ k false W L1 Hk) as A3. pose proof (neighbor_spec B _ k true W L2 Hk) as A4.
  cbv beta iota zeta in A1, A2, A3, A4. fold d in A1, A2, A3, A4. rewrite Mid in A1, A4. change (map (fun v => - v) d) with (map Z.opp d) in A2, A3.
  rewrite zip_opp in A2, A3. rewrite Z.add_0_r in *. rewrite Z1 in A3. rewrite Z2 in A4. auto.
Qed.

Lemma distance_shift {T} (N : num T) B a b t : well_formed B -> vsize a = b_dim B -> vsize b = b_dim B -> vsize t = b_dim B ->
  diff_ok a b ->
  BGetVector N B (shifted a t) (shifted b t) = BGetVector N B a b /\
  BGetDistance N B (shifted a t) (shifted b t) = BGetDistance N B a b.
Proof.
  intros W Ha Hb Ht D. unfold shifted.
  assert (La : vsize (zip_with Z.add a t) = b_dim B) by (unfold vsize in *; rewrite zip_length; lia).
  assert (Lb : vsize (zip_with Z.add b t) = b_dim B) by (unfold vsize in *; rewrite zip_length; lia).
  assert (E : zip_with Z.sub (zip_with Z.add b t) (zip_with Z.add a t) = zip_with Z.sub b a) by (apply zip_sub_shift; unfold vsize in *; lia).
  assert (D' : diff_ok (zip_with Z.add a t) (zip_with Z.add b t)) by (unfold diff_ok in *; now rewrite E).
  destruct (distance_pure N B a b W Ha Hb D) as (V & L & _). destruct (distance_pure N B _ _ W La Lb D') as (V' & L' & _).
  rewrite V, L, V', L'. rewrite !diff_zip, E by assumption. auto.
Qed.
