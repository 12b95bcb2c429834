(** Lemmas about the addition of momenta and plane waves. *)
From Coq Require Import ZArith Reals List Bool Lia Lra Permutation.
From Flocq Require Import Core.
From Verif Require Import Base F64 Num S_Math S_Accum M_MathInt M_MathF M_Pairs M_Grid M_Bravais M_Lattice S_Grid S_Bravais S_Lattice
  S_Geom S_Fourier S_Waves L_MathInt L_Grid L_MathF L_Bravais L_Lattice L_Sum L_LatticeK L_Geom L_Fourier.
Import ListNotations.
Open Scope Z_scope.

Lemma momentum_sum_on_grid size : Forall (fun s => 0 < s) size -> forall c c', length c = length size -> length c' = length size ->
  on_grid size (momentum_sum size c c').
Proof.
  unfold momentum_sum, on_grid. induction 1 as [|s l Hs SP IH]; intros [|x c] [|y c'] L1 L2; try discriminate; [constructor|].
  cbn [map3]. constructor; [apply Z.mod_pos_bound; lia|]. apply IH; cbn [length] in *; lia.
Qed.

Lemma frac_added size : Forall (fun s => 0 < s) size -> forall x y d, length x = length size -> length y = length size -> length d = length size ->
  exists z, frac size (centred size (momentum_sum size x y)) d = (frac size (centred size x) d + frac size (centred size y) d + IZR z)%R.
Proof.
  unfold centred, momentum_sum. induction 1 as [|s l Hs SP IH]; intros [|a x] [|b y] [|e d] L1 L2 L3; try discriminate.
  - exists 0. cbn. ring.
  - destruct (IH x y d) as [z Ez]; [cbn [length] in *; lia..|]. cbn [map3 zip_with frac]. rewrite Ez. exists (- ((a + b - s / 2) / s) * e + z).
    replace ((a + b - s / 2) mod s) with (a + b - s / 2 - s * ((a + b - s / 2) / s)) by (pose proof (Z.div_mod (a + b - s / 2) s ltac:(lia)); lia).
    rewrite plus_IZR, !mult_IZR, !minus_IZR, plus_IZR, mult_IZR, opp_IZR. field. apply IZR_neq. lia.
Qed.

Lemma sum_middle size : Forall (fun s => 0 < s) size -> forall x y, length x = length size -> length y = length size ->
  (momentum_sum size x y = halves size <-> opposite_points size x y).
Proof.
  unfold momentum_sum, halves, opposite_points. induction 1 as [|s l Hs SP IH]; intros [|a x] [|b y] L1 L2; try discriminate; [cbn; split; constructor|].
  cbn [map3 map]. assert (Hh : 0 <= s / 2 < s) by (split; [apply Z.div_pos; lia|apply Z.div_lt; lia]).
  pose proof (Z.div_mod (a + b - s / 2) s ltac:(lia)) as Dm. split.
  - intros E. injection E as E1 E2. constructor; [|apply IH; [cbn [length] in *; lia..|exact E2]].
    exists ((a + b - s / 2) / s). lia.
  - intros F. inversion F as [|? ? ? ? ? ? [q Hq] F']; subst. f_equal; [|apply IH; [cbn [length] in *; lia..|exact F']].
    symmetry. apply (Z.mod_unique _ _ q); lia.
Qed.

Definition negated (size c : list Z) : list Z := map3 (fun s x _ => (2 * (s / 2) - x) mod s) size c c.

Lemma negated_spec size : Forall (fun s => 0 < s) size -> forall c, length c = length size ->
  on_grid size (negated size c) /\ opposite_points size c (negated size c).
Proof.
  unfold negated, on_grid, opposite_points. induction 1 as [|s l Hs SP IH]; intros [|x c] L1; try discriminate; [split; constructor|].
  destruct (IH c) as [G O]; [cbn [length] in *; lia|]. cbn [map3]. pose proof (Z.div_mod (2 * (s / 2) - x) s ltac:(lia)) as Dm.
  split; constructor; try assumption; [apply Z.mod_pos_bound; lia|]. exists (- ((2 * (s / 2) - x) / s)). lia.
Qed.

Lemma opposite_sym size c d : opposite_points size c d -> opposite_points size d c.
Proof. unfold opposite_points. induction 1; constructor; [now rewrite (Z.add_comm c b)|assumption]. Qed.

Lemma opposite_unique size x y y' : on_grid size y -> on_grid size y' -> opposite_points size x y -> opposite_points size x y' -> y = y'.
Proof.
  intros G G' O. revert y' G'. unfold opposite_points, on_grid in *. revert G. induction O as [|s a b l la lb [q Hq] O IH]; intros G y' G' O'.
  - inversion G'. reflexivity.
  - inversion O' as [|? ? b' ? ? lb' [q' Hq'] O'']; subst. inversion G; inversion G'; subst. f_equal; [|now apply IH].
    assert (E : b - b' = (q - q') * s) by lia. assert (q - q' = 0) by nia. nia.
Qed.

Section Waves.
Variables (B : bravais R) (size : list Z).
Hypothesis H : lattice_ok B size.
Hypothesis FB : fourier B size.
Let L := built numR PI B size true.
Let P := prodZ size.
Let c (j : Z) := coords_of size j.
Let m (i : Z) := centred size (c i).
Let th (i j : Z) := (2 * PI * frac size (m i) (c j))%R.
Let SP := Spos B size H.
Let clen : forall j, valid_site size j -> length (c j) = length size := c_len B size H.
Let con : forall j, valid_site size j -> on_grid size (c j) := c_on B size H.

Definition plus (i i' : Z) : Z := row_major size (momentum_sum size (coords_of size i) (coords_of size i')).
Definition minus (i : Z) : Z := row_major size (negated size (coords_of size i)).

Lemma plus_valid i i' : valid_site size i -> valid_site size i' ->
  valid_site size (plus i i') /\ c (plus i i') = momentum_sum size (c i) (c i').
Proof.
  intros Hi Hi'. pose proof (momentum_sum_on_grid size SP _ _ (clen i Hi) (clen i' Hi')) as G. unfold plus. split; [now apply row_major_range|].
  unfold c. apply coords_of_row_major; [apply (Hok B size H)|exact G].
Qed.

Lemma minus_valid i : valid_site size i -> valid_site size (minus i) /\ c (minus i) = negated size (c i).
Proof.
  intros Hi. destruct (negated_spec size SP (c i) (clen i Hi)) as [G _]. unfold minus. split; [now apply row_major_range|].
  unfold c. apply coords_of_row_major; [apply (Hok B size H)|exact G].
Qed.

Lemma minus_opposite i : valid_site size i -> opposite_points size (c i) (c (minus i)).
Proof. intros Hi. destruct (minus_valid i Hi) as [_ ->]. apply negated_spec; [exact SP|now apply clen]. Qed.

Lemma opposite_site i q q' : valid_site size i -> valid_site size q -> valid_site size q' -> opposite_points size (c q) (c q') ->
  (opposite_points size (c i) (c q) <-> i = q').
Proof.
  intros Hi Hq Hq' O. split; [|intros ->; now apply opposite_sym]. intros O'. apply (c_inj B size H); [assumption|assumption|].
  apply (opposite_unique size (c q)); [now apply con|now apply con|now apply opposite_sym|exact O].
Qed.

Lemma plus_phase i i' j : valid_site size i -> valid_site size i' -> valid_site size j ->
  exists z, th (plus i i') j = (th i j + th i' j + 2 * PI * IZR z)%R.
Proof.
  intros Hi Hi' Hj. unfold th, m. destruct (plus_valid i i' Hi Hi') as [_ ->].
  destruct (frac_added size SP (c i) (c i') (c j) (clen i Hi) (clen i' Hi') (clen j Hj)) as [z ->]. exists z. ring.
Qed.

Lemma plus_middle i i' : valid_site size i -> valid_site size i' -> (plus i i' = middle size <-> opposite_points size (c i) (c i')).
Proof.
  intros Hi Hi'. rewrite <- (sum_middle size SP) by now apply clen. destruct (plus_valid i i' Hi Hi') as [V E]. rewrite <- E.
  assert (G : on_grid size (halves size)) by (apply half_on_grid, SP). split.
  - intros ->. unfold middle. apply coords_of_row_major; [apply (Hok B size H)|exact G].
  - intros Ec. unfold middle. fold (halves size). rewrite <- Ec. symmetry. now destruct (coords_of_spec size _ (Hok B size H) V) as (_ & _ & R).
Qed.

Lemma minus_phase i i' j : valid_site size i -> valid_site size i' -> valid_site size j -> opposite_points size (c i) (c i') ->
  exists z, th i' j = (- th i j + 2 * PI * IZR z)%R.
Proof.
  intros Hi Hi' Hj O. unfold th, m. destruct (frac_opposite size SP (c i) (c i') (c j) O (clen j Hj)) as [z ->]. exists z. ring.
Qed.

(** Sums over the sites. *)
Lemma sum_of_waves theta i q q' : valid_site size i -> valid_site size q -> valid_site size q' -> opposite_points size (c q) (c q') ->
  sumR (map (fun j => cos (theta + (th q j + th i j))) (upto P)) = ((if i =? q' then 1 else 0) * (IZR P * cos theta))%R.
Proof.
  intros Hi Hq Hq' O. destruct (plus_valid q i Hq Hi) as [V _].
  rewrite (sumR_ext _ (fun j => cos (theta + th (plus q i) j))).
  - unfold th, P, m, c. rewrite (constant_sum B size H) by exact V. f_equal. assert (E : plus q i = middle size <-> i = q').
    { rewrite plus_middle by assumption. rewrite <- (opposite_site i q q') by assumption. split; apply opposite_sym. }
    destruct (plus q i =? middle size) eqn:E1, (i =? q') eqn:E2; try reflexivity.
    + apply Z.eqb_eq in E1. apply E in E1. apply Z.eqb_neq in E2. contradiction.
    + apply Z.eqb_eq in E2. apply E in E2. apply Z.eqb_neq in E1. contradiction.
  - intros j Hj. apply upto_In in Hj. destruct (plus_phase q i j Hq Hi Hj) as [z ->].
    replace (theta + (th q j + th i j + 2 * PI * IZR z))%R with (theta + (th q j + th i j) + 2 * PI * IZR z)%R by ring. now rewrite cos_turns.
Qed.

Lemma difference_of_waves theta i q : valid_site size i -> valid_site size q ->
  sumR (map (fun j => cos (theta + (th q j - th i j))) (upto P)) = ((if i =? q then 1 else 0) * (IZR P * cos theta))%R.
Proof.
  intros Hi Hq. destruct (minus_valid i Hi) as [Vi _]. pose proof (minus_opposite i Hi) as Oi. destruct (minus_valid q Hq) as [Vq _]. pose proof (minus_opposite q Hq) as Oq.
  rewrite (sumR_ext _ (fun j => cos (theta + (th q j + th (minus i) j)))).
  - rewrite (sum_of_waves theta (minus i) q (minus q)) by assumption. f_equal.
    destruct (i =? q) eqn:E.
    + apply Z.eqb_eq in E. subst q. now rewrite Z.eqb_refl.
    + apply Z.eqb_neq in E. destruct (minus i =? minus q) eqn:E'; [|reflexivity]. apply Z.eqb_eq in E'. exfalso. apply E. apply (proj1 (opposite_site i (minus q) q Hi Vq Hq (opposite_sym _ _ _ Oq))).
      rewrite <- E'. exact Oi.
  - intros j Hj. apply upto_In in Hj. destruct (minus_phase i (minus i) j Hi Vi Hj Oi) as [z ->].
    replace (theta + (th q j + (- th i j + 2 * PI * IZR z)))%R with (theta + (th q j - th i j) + 2 * PI * IZR z)%R by ring. now rewrite cos_turns.
Qed.

(** Sums over the momenta, with an angle. *)
Lemma sum_over_momenta theta j l : valid_site size j -> valid_site size l ->
  sumR (map (fun i => cos (theta + (th i j - th i l))) (upto P)) = ((if j =? l then 1 else 0) * (IZR P * cos theta))%R.
Proof.
  intros Hj Hl. set (d := zip_with Z.sub (c j) (c l)).
  assert (Ld : length d = length size) by (unfold d; rewrite zip_length; rewrite ?(clen j), ?(clen l) by assumption; lia).
  transitivity (sumR (map (fun x => cos (theta + 2 * PI * frac size (zip_with Z.sub x (halves size)) d)) (points size)))%R.
  - rewrite <- (sites_sum size (fun x => cos (theta + 2 * PI * frac size (zip_with Z.sub x (halves size)) d))%R (Hok B size H)).
    apply sumR_ext. intros i Hi. apply upto_In in Hi. unfold th, m, c. rewrite (phase_difference B size H) by assumption. fold (c j) (c l) d.
    unfold c. rewrite centred_sub by now apply clen. reflexivity.
  - rewrite points_sum by (try exact SP; try exact Ld; apply map_length).
    destruct (j =? l) eqn:E.
    + apply Z.eqb_eq in E. subst l. destruct (grid_difference size (c j) (c j)) as [_ G]; [now apply con|now apply con|].
      unfold d. rewrite G by reflexivity. unfold P. ring.
    + destruct (divides_all size d) eqn:D; [|ring]. apply Z.eqb_neq in E. exfalso. apply E. apply (c_inj B size H); [assumption|assumption|].
      apply (grid_difference size); [now apply con|now apply con|exact D].
Qed.

(** The same for the vectors and momenta themselves. *)
Let k := kvec B size.
Let x := vec B size.

Lemma cos_shift theta a b u v : (exists z, a = (u + 2 * PI * IZR z)%R) -> (exists z, b = (v + 2 * PI * IZR z)%R) -> cos (theta + (a - b)) = cos (theta + (u - v)).
Proof.
  intros [z ->] [w ->]. replace (theta + (u + 2 * PI * IZR z - (v + 2 * PI * IZR w)))%R with (theta + (u - v) + 2 * PI * IZR (z - w))%R by (rewrite minus_IZR; ring).
  apply cos_turns.
Qed.

Lemma orthogonal theta i q : valid_site size i -> valid_site size q ->
  sumR (map (fun j => cos (theta + (dot (k q) (x j) - dot (k i) (x j)))) (upto P)) = ((if i =? q then 1 else 0) * (IZR P * cos theta))%R.
Proof.
  intros Hi Hq. rewrite <- difference_of_waves by assumption. apply sumR_ext. intros j Hj. apply upto_In in Hj.
  apply cos_shift; now apply (site_phase B size H FB).
Qed.

Lemma complete theta j l : valid_site size j -> valid_site size l ->
  sumR (map (fun i => cos (theta + (dot (k i) (x j) - dot (k i) (x l)))) (upto P)) = ((if j =? l then 1 else 0) * (IZR P * cos theta))%R.
Proof.
  intros Hj Hl. rewrite <- sum_over_momenta by assumption. apply sumR_ext. intros i Hi. apply upto_In in Hi.
  apply cos_shift; now apply (site_phase B size H FB).
Qed.

Lemma sin_cos_shift y : sin y = cos (- (PI / 2) + y).
Proof. rewrite cos_plus, cos_neg, sin_neg, cos_PI2, sin_PI2. ring. Qed.

Lemma plus_adds i i' : valid_site size i -> valid_site size i' -> adds_up B size (k i) (k i') (k (plus i i')).
Proof.
  intros Hi Hi' d p Ld Ep. destruct (ok_dims _ _ H) as [Dm DS]. rewrite real_space_pure in Ep; [|apply H|unfold vsize; lia]. injection Ep as <-. fold (pv numR B d).
  destruct (plus_valid i i' Hi Hi') as [V E]. unfold k, kvec. rewrite !FB by (try assumption; now apply con). change (coords_of size (plus i i')) with (c (plus i i')). rewrite E.
  destruct (frac_added size SP (c i) (c i') d (clen i Hi) (clen i' Hi') Ld) as [z Ez]. rewrite Ez. exists z. unfold c. ring.
Qed.

Lemma adds_unique i i' l : valid_site size i -> valid_site size i' -> valid_site size l -> adds_up B size (k i) (k i') (k l) -> l = plus i i'.
Proof.
  intros Hi Hi' Hl A. destruct (plus_valid i i' Hi Hi') as [V _].
  assert (E : sumR (map (fun j => cos (0 + (th l j - th (plus i i') j))) (upto P)) = sumR (map (fun _ => 1%R * 1)%R (upto P))).
  { apply sumR_ext. intros j Hj. apply upto_In in Hj. destruct (ok_dims _ _ H) as [Dm DS].
    destruct (A (c j) (pv numR B (c j)) (clen j Hj)) as [z Ez].
    { pose proof (clen j Hj). rewrite real_space_pure; [reflexivity|apply H|unfold vsize; lia]. }
    destruct (plus_phase i i' j Hi Hi' Hj) as [w Ew]. unfold k, kvec in Ez. rewrite !FB in Ez by (try apply clen, Hj; now apply con).
    fold (c l) (c i) (c i') in Ez. fold (m l) (m i) (m i') in Ez. fold (th l j) (th i j) (th i' j) in Ez. rewrite Ez, Ew.
    replace (0 + (th i j + th i' j + 2 * PI * IZR z - (th i j + th i' j + 2 * PI * IZR w)))%R with (0 + 2 * PI * IZR (z - w))%R by (rewrite minus_IZR; ring).
    rewrite cos_turns, cos_0. ring. }
  rewrite difference_of_waves in E by assumption. rewrite sumR_scal in E.
  destruct (plus i i' =? l) eqn:Q; [apply Z.eqb_eq in Q; now symmetry|]. exfalso.
  assert (S : forall n : list Z, (sumR (map (fun _ => 1) n) = INR (length n))%R).
  { induction n as [|a n IH]; [reflexivity|]. cbn [map length]. rewrite S_INR. unfold sumR in *. cbn [fold_right]. rewrite IH. ring. }
  rewrite S, upto_length, INR_IZR_INZ in E. assert (0 < P) by (apply (proj2 (grid_sites size true (Hok B size H)))).
  rewrite Z2Nat.id in E by lia. assert (0 < IZR P)%R by (apply IZR_lt; lia). lra.
Qed.

Lemma amplitude_sum (f : R -> R) occ i : vsize occ = P ->
  sumR (zip_with (fun n x => n * f (dot (k i) x))%R occ (map x (upto P))) = sumR (map (fun j => nth (Z.to_nat j) occ 0 * f (dot (k i) (x j)))%R (upto P)).
Proof. intros Ho. rewrite <- Ho. now rewrite (zip_sites 0%R (fun n x => n * f (dot (k i) x))%R). Qed.

Lemma inversion_sum occ j : vsize occ = P -> valid_site size j ->
  sumR (map (fun i => cos_amplitude occ (k i) (map x (upto P)) * cos (dot (k i) (x j)) + sin_amplitude occ (k i) (map x (upto P)) * sin (dot (k i) (x j)))%R (upto P))
  = (IZR P * nth (Z.to_nat j) occ 0)%R.
Proof.
  intros Ho Hj. unfold cos_amplitude, sin_amplitude.
  rewrite (sumR_ext _ (fun i => sumR (map (fun l => nth (Z.to_nat l) occ 0 * cos (0 + (dot (k i) (x j) - dot (k i) (x l)))) (upto P)))%R).
  - rewrite sumR_swap. rewrite (sumR_ext _ (fun l => (if j =? l then 1 else 0) * (nth (Z.to_nat l) occ 0 * IZR P))%R).
    + rewrite (sum_delta P j (fun l => nth (Z.to_nat l) occ 0 * IZR P)%R) by exact Hj. ring.
    + intros l Hl. apply upto_In in Hl. rewrite sumR_scal, complete by assumption. rewrite cos_0. ring.
  - intros i Hi. rewrite (amplitude_sum cos), (amplitude_sum sin) by exact Ho.
    rewrite (Rmult_comm _ (cos _)), (Rmult_comm _ (sin _)), <- !sumR_scal, <- sumR_plus. apply sumR_ext. intros l _. rewrite Rplus_0_l, cos_minus. ring.
Qed.

Lemma wave_intensity occ a b phi q q' i : vsize occ = P -> valid_site size i -> valid_site size q -> valid_site size q' -> opposite_points size (c q) (c q') ->
  (forall j, valid_site size j -> nth (Z.to_nat j) occ 0 = b + a * cos (dot (k q) (x j) + phi))%R -> (b = 0%R \/ i <> middle size) ->
  intensity occ (k i) (map x (upto P)) =
  (IZR P * IZR P * a ^ 2 * ((cos phi * ((if i =? q' then 1 else 0) + (if i =? q then 1 else 0)) / 2) ^ 2 + (sin phi * ((if i =? q' then 1 else 0) - (if i =? q then 1 else 0)) / 2) ^ 2))%R.
Proof.
  intros Ho Hi Hq Hq' O W Hb. unfold k, x, P. rewrite (site_intensity B size H FB) by assumption. unfold amp. fold P.
  assert (W' : forall j, valid_site size j -> (nth (Z.to_nat j) occ 0 = b + a * cos (phi + th q j))%R).
  { intros j Hj. rewrite W by exact Hj. destruct (site_phase B size H FB q j Hq Hj) as [z Ez]. unfold k, x. rewrite Ez.
    fold (c q) (c j). fold (m q). fold (th q j).
    replace (th q j + 2 * PI * IZR z + phi)%R with (phi + th q j + 2 * PI * IZR z)%R by ring. now rewrite cos_turns. }
  assert (Bz : forall theta, (b * sumR (map (fun j => cos (theta + th i j)) (upto P)) = 0)%R).
  { intros theta. destruct Hb as [-> |Hm]; [ring|]. unfold th, P, m, c. rewrite (constant_sum B size H) by exact Hi.
    apply Z.eqb_neq in Hm. rewrite Hm. ring. }
  set (dq' := (if i =? q' then 1 else 0)%R). set (dq := (if i =? q then 1 else 0)%R).
  assert (C : sumR (map (fun j => nth (Z.to_nat j) occ 0 * cos (2 * PI * frac size (centred size (coords_of size i)) (coords_of size j))) (upto P))%R = (IZR P * a * (cos phi * (dq' + dq) / 2))%R).
  { rewrite (sumR_ext _ (fun j => b * cos (0 + th i j) + (a / 2 * cos (phi + (th q j + th i j)) + a / 2 * cos (phi + (th q j - th i j))))%R).
    - rewrite sumR_plus, sumR_plus, !sumR_scal, Bz, (sum_of_waves phi i q q'), (difference_of_waves phi i q) by assumption. fold dq dq'. field.
    - intros j Hj. apply upto_In in Hj. rewrite W' by exact Hj. fold (c i) (c j). fold (m i). fold (th i j).
      replace (phi + (th q j + th i j))%R with ((phi + th q j) + th i j)%R by ring. replace (phi + (th q j - th i j))%R with ((phi + th q j) - th i j)%R by ring.
      rewrite Rplus_0_l, (cos_plus (phi + th q j)), cos_minus. field. }
  assert (S : sumR (map (fun j => nth (Z.to_nat j) occ 0 * sin (2 * PI * frac size (centred size (coords_of size i)) (coords_of size j))) (upto P))%R = (IZR P * a * (sin phi * (dq' - dq) / 2))%R).
  { rewrite (sumR_ext _ (fun j => b * cos (- (PI / 2) + th i j) + (a / 2 * cos ((phi - PI / 2) + (th q j + th i j)) + (- a / 2) * cos ((phi - PI / 2) + (th q j - th i j))))%R).
    - rewrite sumR_plus, sumR_plus, !sumR_scal, Bz, (sum_of_waves _ i q q'), (difference_of_waves _ i q) by assumption. fold dq dq'.
      rewrite cos_minus, cos_PI2, sin_PI2. field.
    - intros j Hj. apply upto_In in Hj. rewrite W' by exact Hj. fold (c i) (c j). fold (m i). fold (th i j).
      replace (phi - PI / 2 + (th q j + th i j))%R with (- (PI / 2) + ((phi + th q j) + th i j))%R by ring.
      replace (phi - PI / 2 + (th q j - th i j))%R with (- (PI / 2) + ((phi + th q j) - th i j))%R by ring.
      rewrite <- !sin_cos_shift, (sin_plus (phi + th q j)), sin_minus. field. }
  rewrite C, S. ring.
Qed.
End Waves.
