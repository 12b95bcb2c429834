(** Accuracy of positions, distances and momenta, for every Bravais lattice. *)
From Coq Require Import ZArith Reals List Bool Lia Lra.
From Flocq Require Import Core.Core IEEE754.BinarySingleNaN.
From Verif Require Import Base F64 Num S_Math S_Accum S_Grid S_Bravais S_Lattice S_Norm M_Pairs M_Grid M_Bravais M_Lattice
  L_Grid L_MathF L_Bravais L_Lattice L_LatticeK L_Mom S_BravaisAcc L_BravaisAcc.
Import ListNotations.
Open Scope R_scope.

(** The lattices of the library meet the conditions on the matrices. *)
Theorem C98_builtin : forall B,
  B = ChainLattice numF \/ B = SquareLattice numF \/ B = CubicLattice numF \/ B = TriangularLattice numF ->
  well_formed B /\ moderate_matrix (b_p B) /\ moderate_matrix (b_pi B).
Proof.
  intros B HB. split; [|now apply builtin_moderate].
  destruct HB as [->|[->|[->| ->]]]; [apply (chain_wf numF)|apply (square_wf numF)|apply (cubic_wf numF)|apply (triangular_wf numF)].
Qed.
Print Assumptions C98_builtin.
Example C98_builtin_ex : ~ moderate (bpow radix2 (-301)).
Proof.
  intros [H|[H _]]; [pose proof (bpow_gt_0 radix2 (-301)); lra|]. rewrite Rabs_pos_eq in H by apply bpow_ge_0.
  apply le_bpow in H. lia.
Qed.

Theorem C98_real_space : forall B c,
  well_formed B -> (b_dim B <= 2 ^ 20)%Z -> moderate_matrix (b_p B) -> vsize c = b_dim B -> small_coords c ->
  exists x, GetRealSpace numF B c = Ok x /\ close_to (IZR (b_dim B) + 2) x (exact_point B c) (unsigned_point B c).
Proof.
  intros B c W Hd M Hc Sc. exists (map (row numF B c) (upto (b_dim B))). split; [now apply real_space_pure|].
  apply point_err; [destruct W; lia|exact M|exact Sc].
Qed.
Print Assumptions C98_real_space.
Example C98_real_space_ex :
  exact_point (TriangularLattice numF) [3; -7]%Z = [3 + - 7 / 2; - 7 * half_root3] /\
  unsigned_point (TriangularLattice numF) [3; -7]%Z = [3 + 7 / 2; 7 * half_root3] /\
  option_map (map (fun x => B2SF x)) (match GetRealSpace numF (TriangularLattice numF) [3; -7]%Z with Ok x => Some x | _ => None end) =
  Some [SpecFloat.S754_finite true 4503599627370496 (-53); SpecFloat.S754_finite true 6825405450109717 (-50)].
Proof.
  destruct (tri_exact 3 (-7)) as [E U]. rewrite E, U. split; [reflexivity|]. split; [|vm_compute; reflexivity].
  rewrite (Rabs_pos_eq 3) by lra. rewrite (Rabs_left (-7)) by lra. f_equal; [lra|f_equal; lra].
Qed.

Theorem C98_distance : forall B a b,
  well_formed B -> (b_dim B <= 2 ^ 20)%Z -> moderate_matrix (b_p B) -> vsize a = b_dim B -> vsize b = b_dim B ->
  small_coords (zip_with Z.sub b a) ->
  let c := zip_with Z.sub b a in
  exists x, BGetDistance numF B a b = Ok x /\ fin x /\
  Rabs (RR x - euclid (exact_point B c)) <= (2 * IZR (b_dim B) + 6) * uro * euclid (unsigned_point B c).
Proof.
  intros B a b W Hd M Ha Hb Sc c.
  assert (Dk : diff_ok a b) by (unfold diff_ok; eapply Forall_impl; [|exact Sc]; unfold in_long; intros z; cbn beta; lia).
  destruct (distance_pure numF B a b W Ha Hb Dk) as (_ & E & _). rewrite (diff_zip (b_dim B)) in E by assumption. fold c in E.
  eexists. split; [exact E|]. apply distance_err; [destruct W; lia|exact M|exact Sc].
Qed.
Print Assumptions C98_distance.
Example C98_distance_ex :
  small_coords (zip_with Z.sub [4; 9; -2]%Z [1; 5; 10]%Z) /\
  (match BGetDistance numF (CubicLattice numF) [1; 5; 10]%Z [4; 9; -2]%Z with Ok x => feq x (of_Z 13) | _ => false end) = true.
Proof. split; [repeat constructor; cbn; lia|vm_compute; reflexivity]. Qed.

(** On the triangular lattice the relative error is at most 19 units of roundoff. *)
Theorem C98_triangular_distance : forall ax ay bx by_,
  (Z.abs (bx - ax) <= 2 ^ 53)%Z -> (Z.abs (by_ - ay) <= 2 ^ 53)%Z ->
  let L := triangular_length (bx - ax) (by_ - ay) in
  exists x, BGetDistance numF (TriangularLattice numF) [ax; ay] [bx; by_] = Ok x /\ fin x /\ Rabs (RR x - L) <= 19 * uro * L.
Proof.
  intros ax ay bx by_ Hx Hy L. pose proof (triangular_wf numF) as W.
  assert (Dk : diff_ok [ax; ay] [bx; by_]) by (unfold diff_ok; cbn [zip_with]; repeat constructor; unfold in_long; lia).
  destruct (distance_pure numF (TriangularLattice numF) [ax; ay] [bx; by_] W eq_refl eq_refl Dk) as (_ & E & _).
  rewrite (diff_zip 2) in E by reflexivity. cbn [zip_with] in E.
  eexists. split; [exact E|]. apply tri_distance_err; assumption.
Qed.
Print Assumptions C98_triangular_distance.
Example C98_triangular_distance_ex : triangular_length 3 (-8) = 7 /\ triangular_length 0 5 = 5 /\
  (match BGetDistance numF (TriangularLattice numF) [1; 1]%Z [4; -7]%Z with Ok x => fle (fabs (fsub x (of_Z 7))) (dyad 9 (-50)) | _ => false end) = true.
Proof.
  split; [unfold triangular_length; rewrite <- (sqrt_square 7) by lra; f_equal; cbn; lra|].
  split; [unfold triangular_length; rewrite <- (sqrt_square 5) by lra; f_equal; cbn; lra|vm_compute; reflexivity].
Qed.

Theorem C98_wave_vector : forall B c,
  well_formed B -> (b_dim B <= 2 ^ 20)%Z -> moderate_matrix (b_pi B) -> vsize c = b_dim B -> wave_coords c ->
  exists k, GetReciprocalSpace numF pi_d B c = Ok k /\ close_to (IZR (b_dim B) + 4) k (exact_wave B c) (unsigned_wave B c).
Proof.
  intros B c W Hd M Hc Wc. exists (map (rrow numF pi_d B c) (upto (b_dim B))). split.
  - apply reciprocal_pure; [exact W|exact Hc|]. eapply Forall_impl; [|exact Wc]. intros z. cbn beta. lia.
  - apply wave_err; [destruct W; lia|exact M|exact Wc].
Qed.
Print Assumptions C98_wave_vector.
Example C98_wave_vector_ex : exact_wave (ChainLattice numF) [5]%Z = [2 * PI * 5 * 1 + 0] /\ wave_coords [5]%Z.
Proof.
  split; [|repeat constructor; cbn; lia]. unfold exact_wave, exact_component, sum_upto. change (b_dim (ChainLattice numF)) with 1%Z.
  change (upto 1) with [0%Z]. cbn [map]. unfold entry. change (Z.to_nat 0) with 0%nat. change (Z.to_nat (0 + 0 * 1)) with 0%nat. cbn [nth].
  change (nth 0 (b_pi (ChainLattice numF)) f0) with f1. now rewrite RR_f1.
Qed.

(** Periodic lattices: the distance is that of an image in the first shell, and
    no image in the shell is closer by more than the error. *)
Theorem C98_lattice_distance : forall pi B size,
  lattice_ok B size -> moderate_matrix (b_p B) -> Forall (fun s => s <= 2 ^ 51)%Z size ->
  exists L, Lattice numF pi B size true = Ok L /\ forall a b ca cb, valid_site size a -> valid_site size b ->
  GetCoordinates (l_grid L) a = Ok ca -> GetCoordinates (l_grid L) b = Ok cb ->
  let far e := euclid (exact_point B (image size (seen_from size ca cb) e)) in
  let err e := (2 * IZR (b_dim B) + 6) * uro * euclid (unsigned_point B (image size (seen_from size ca cb) e)) in
  exists x, GetDistance L a b = Ok x /\ fin x /\
  (exists e, shell size e /\ Rabs (RR x - far e) <= err e) /\
  (forall e, shell size e -> RR x <= far e + err e).
Proof.
  intros pi B size H M F51. destruct (lattice_distance_err pi B size H M F51) as (L & EL & P). exists L. split; [exact EL|].
  intros a b ca cb Ha Hb Ea Eb far err. destruct (P a b ca cb Ha Hb Ea Eb) as (D & e0 & ED & FD & S0 & E0 & Q). cbv zeta in E0, Q.
  destruct (ok_dims _ _ H) as [Dm DS]. pose proof H as (W & Hs & H40 & _).
  assert (Er : forall e, shell size e -> Rabs (RR (norm numF (pv numF B (image size (seen_from size ca cb) e))) - far e) <= err e).
  { intros e Se. destruct (Q e Se) as (Sm & _ & _). apply distance_err; [lia|exact M|exact Sm]. }
  exists D. split; [exact ED|]. split; [exact FD|]. split.
  - exists e0. split; [exact S0|]. rewrite E0. now apply Er.
  - intros e Se. destruct (Q e Se) as (_ & _ & Le). pose proof (Er e Se) as K. apply Rabs_le_inv in K. lra.
Qed.
Print Assumptions C98_lattice_distance.
Example C98_lattice_distance_ex : Forall (fun s => s <= 2 ^ 51)%Z [4; 6]%Z /\ lattice_ok (TriangularLattice numF) [4; 6]%Z.
Proof.
  split; [repeat constructor; lia|]. split; [exact (triangular_wf numF)|]. split; [reflexivity|]. split; [cbn; lia|].
  split; [split; [repeat constructor; lia|vm_compute; reflexivity]|]. split; [reflexivity|repeat constructor; lia].
Qed.

Theorem C98_triangular_lattice : forall pi sx sy,
  lattice_ok (TriangularLattice numF) [sx; sy] -> (sx <= 2 ^ 51)%Z -> (sy <= 2 ^ 51)%Z ->
  exists L, Lattice numF pi (TriangularLattice numF) [sx; sy] true = Ok L /\ forall a b ax ay bx by_,
  valid_site [sx; sy] a -> valid_site [sx; sy] b ->
  GetCoordinates (l_grid L) a = Ok [ax; ay] -> GetCoordinates (l_grid L) b = Ok [bx; by_] ->
  let far p q := triangular_length ((bx - ax) mod sx + p * sx) ((by_ - ay) mod sy + q * sy) in
  exists x, GetDistance L a b = Ok x /\ fin x /\
  (exists p q, (-1 <= p <= 1)%Z /\ (-1 <= q <= 1)%Z /\ Rabs (RR x - far p q) <= 19 * uro * far p q) /\
  (forall p q, (-1 <= p <= 1)%Z -> (-1 <= q <= 1)%Z -> RR x <= (1 + 19 * uro) * far p q).
Proof.
  intros pi sx sy H Hx Hy. destruct (lattice_distance_err pi _ _ H) as (L & EL & P).
  { apply builtin_moderate. auto. }
  { repeat constructor; assumption. }
  exists L. split; [exact EL|]. intros a b ax ay bx by_ Ha Hb Ea Eb far.
  destruct (P a b _ _ Ha Hb Ea Eb) as (D & e0 & ED & FD & S0 & E0 & Q). cbv zeta in E0, Q.
  assert (Sf : seen_from [sx; sy] [ax; ay] [bx; by_] = [(bx - ax) mod sx; (by_ - ay) mod sy]%Z) by reflexivity.
  rewrite Sf in E0, Q.
  assert (Er : forall p q, shell [sx; sy] [p; q] -> Rabs (RR (norm numF (pv numF (TriangularLattice numF) (image [sx; sy] [(bx - ax) mod sx; (by_ - ay) mod sy]%Z [p; q]))) - far p q) <= 19 * uro * far p q).
  { intros p q Se. destruct (Q [p; q] Se) as (Sm & _ & _). unfold image in *. cbn [zip_with] in *.
    inversion Sm as [|? ? S1 S2]; subst. inversion S2; subst. apply tri_distance_err; assumption. }
  exists D. split; [exact ED|]. split; [exact FD|]. split.
  - destruct S0 as [Ls Fs]. destruct e0 as [|p [|q [|]]]; try discriminate Ls. inversion Fs as [|? ? F1 F2]; subst. inversion F2; subst.
    exists p, q. split; [exact F1|]. split; [assumption|]. apply Er. split; [reflexivity|exact Fs].
  - intros p q Hp Hq. assert (Se : shell [sx; sy] [p; q]) by (split; [reflexivity|repeat constructor; lia]).
    destruct (Q _ Se) as (_ & _ & Le). pose proof (Er p q Se) as K. apply Rabs_le_inv in K. lra.
Qed.
Print Assumptions C98_triangular_lattice.
Example C98_triangular_lattice_ex :
  (match Lattice numF pi_d (TriangularLattice numF) [4; 6]%Z true with
   | Ok L => match GetCoordinates (l_grid L) 1, GetCoordinates (l_grid L) 23, GetDistance L 1 23 with
             | Ok c, Ok c', Ok x => Some (c, c', fle (fabs (fsub x (fsqrt (of_Z 7)))) (dyad 1 (-48)))
             | _, _, _ => None end
   | _ => None end) = Some ([0; 1]%Z, [3; 5]%Z, true) /\
  triangular_length ((3 - 0) mod 4 + -1 * 4) ((5 - 1) mod 6 + -1 * 6) = sqrt 7.
Proof. split; [vm_compute; reflexivity|]. reflexivity. Qed.

Theorem C98_positions : forall pi B size cl,
  lattice_ok B size -> moderate_matrix (b_p B) -> Forall (fun s => s <= 2 ^ 51)%Z size ->
  exists L, Lattice numF pi B size cl = Ok L /\ forall a c, valid_site size a -> GetCoordinates (l_grid L) a = Ok c ->
  exists x, GetPosition L a = Ok x /\ close_to (IZR (b_dim B) + 2) x (exact_point B c) (unsigned_point B c).
Proof.
  intros pi B size cl H M F51. exists (built numF pi B size cl). split; [now apply lattice_built|]. intros a c Ha Ea.
  pose proof H as (W & Hs & H40 & Hok & He & Hn). destruct (ok_dims _ _ H) as [Dm DS].
  change (l_grid (built numF pi B size cl)) with (HyperCubicGrid size cl) in Ea.
  rewrite grid_coords in Ea by assumption. injection Ea as <-. destruct (coords_of_spec size a Hok Ha) as (_ & G & _).
  eexists. split; [now apply position_built|]. apply point_err; [lia|exact M|now apply (on_grid_small size)].
Qed.
Print Assumptions C98_positions.
Example C98_positions_ex :
  (match Lattice numF pi_d (TriangularLattice numF) [4; 6]%Z false with
   | Ok L => match GetCoordinates (l_grid L) 21, GetPosition L 21 with
             | Ok c, Ok x => Some (c, map (fun x => B2SF x) x)
             | _, _ => None end
   | _ => None end) = Some ([3; 3]%Z, [SpecFloat.S754_finite false 5066549580791808 (-50); SpecFloat.S754_finite false 5850347528665472 (-51)]).
Proof. vm_compute. reflexivity. Qed.

Theorem C98_momenta : forall B size,
  lattice_ok B size -> moderate_matrix (b_pi B) -> Forall (fun s => s <= 2 ^ 51)%Z size ->
  exists L, Lattice numF pi_d B size true = Ok L /\ forall a c, valid_site size a -> GetCoordinates (l_grid L) a = Ok c ->
  let m := centred_coords size c in
  exists k, GetMomentum L a = Ok k /\
  close_to (IZR (b_dim B) + 6) k (over_extents size (exact_wave B m)) (over_extents size (unsigned_wave B m)).
Proof.
  intros B size H M F51. exists (built numF pi_d B size true). split; [now apply lattice_built|]. intros a c Ha Ea m.
  pose proof H as (W & Hs & H40 & Hok & He & Hn).
  change (l_grid (built numF pi_d B size true)) with (HyperCubicGrid size true) in Ea.
  rewrite grid_coords in Ea by assumption. injection Ea as <-. destruct (coords_of_spec size a Hok Ha) as (_ & G & _).
  eexists. split; [now apply momentum_built|]. now apply momentum_err.
Qed.
Print Assumptions C98_momenta.
Example C98_momenta_ex :
  centred_coords [4; 6]%Z [3; 5]%Z = [1; 2]%Z /\
  (match Lattice numF pi_d (SquareLattice numF) [4; 6]%Z true with
   | Ok L => match GetMomentum L 23 with Ok [x; y] => feq x (fdiv pi_d (of_Z 2)) | _ => false end
   | _ => false end) = true.
Proof. split; vm_compute; reflexivity. Qed.
