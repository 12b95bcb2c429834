(** Properties of opposite momenta and opposite data, in doubles. *)
From Coq Require Import ZArith Reals List Bool Lia Lra.
From Flocq Require Import Core.Core IEEE754.BinarySingleNaN.
From Verif Require Import Base F64 Num S_Math S_Accum M_MathF M_Grid M_Bravais M_Lattice M_Space S_Grid S_Bravais S_Lattice S_Space S_Mirror S_Opp
  L_MathF L_Grid L_Bravais L_Lattice L_LatticeK L_Mom L_Sk L_Mirror L_Space L_Opp P_Space P_Lattice.
Import ListNotations.
Open Scope Z_scope.

(** * C106 *)
Lemma coords_from size cl i c : sizes_ok size -> valid_site size i -> GetCoordinates (HyperCubicGrid size cl) i = Ok c -> c = coords_of size i.
Proof. intros Hok Hi E. rewrite (grid_coords size cl i Hok Hi) in E. now injection E as <-. Qed.

(** Momenta on opposite sides are the negated doubles, component by component. *)
Theorem C106_momenta : forall B size pi, lattice_ok B size ->
  exists L, Lattice numF pi B size true = Ok L /\
  forall i i' c c', valid_site size i -> valid_site size i' -> GetCoordinates (l_grid L) i = Ok c -> GetCoordinates (l_grid L) i' = Ok c' ->
  facing size c c' -> exists k k', GetMomentum L i = Ok k /\ GetMomentum L i' = Ok k' /\ Forall2 negated k k'.
Proof.
  intros B size pi H. pose proof H as (W & Hs & H40 & Hok & He & Hn). exists (built numF pi B size true). split; [now apply lattice_built|].
  intros i i' c c' Hi Hi' Ec Ec' F. apply coords_from in Ec, Ec'; try assumption. subst c c'.
  eexists _, _. split; [now apply momentum_built|]. split; [now apply momentum_built|].
  apply facing_momenta; [exact H|now apply coords_of_spec..|exact F].
Qed.
Print Assumptions C106_momenta.

(** Whatever the occupations, both get the same increment bit for bit. *)
Theorem C106_structure_factor : forall B size pi fsin fcos occ sk mult, lattice_ok B size -> odd_and_even fsin fcos ->
  vsize occ = prodZ size -> vsize sk = prodZ size -> prodZ size < 2 ^ 32 ->
  exists L sk', Lattice numF pi B size true = Ok L /\ AccumulateSk numF fsin fcos L occ sk mult = Ok sk' /\
  forall i i' c c', valid_site size i -> valid_site size i' -> GetCoordinates (l_grid L) i = Ok c -> GetCoordinates (l_grid L) i' = Ok c' ->
  facing size c c' -> nth (Z.to_nat i') sk f0 = nth (Z.to_nat i) sk f0 -> nth (Z.to_nat i') sk' f0 = nth (Z.to_nat i) sk' f0.
Proof.
  intros B size pi fsin fcos occ sk mult H T Ho Hs Hlt. pose proof H as (W & _ & H40 & Hok & He & Hn).
  eexists (built numF pi B size true), _. split; [now apply lattice_built|]. split; [now apply gaccumulate|].
  intros i i' c c' Hi Hi' Ec Ec' F E. apply coords_from in Ec, Ec'; try assumption. subst c c'.
  rewrite !nth_map_upto by assumption. change (n_ofZ numF 0) with f0. rewrite E. f_equal. now apply facing_increment.
Qed.
Print Assumptions C106_structure_factor.

(** Negated occupations give the same list, for any sine and cosine. *)
Theorem C106_occupations : forall B size pi fsin fcos occ sk mult, lattice_ok B size ->
  vsize occ = prodZ size -> vsize sk = prodZ size -> prodZ size < 2 ^ 32 ->
  exists L sk', Lattice numF pi B size true = Ok L /\ AccumulateSk numF fsin fcos L occ sk mult = Ok sk' /\
  AccumulateSk numF fsin fcos L (map fopp occ) sk mult = Ok sk'.
Proof.
  intros B size pi fsin fcos occ sk mult H Ho Hs Hlt. eexists (built numF pi B size true), _. split; [now apply lattice_built|].
  split; [now apply gaccumulate|]. rewrite gaccumulate; try assumption; [|unfold vsize in *; now rewrite map_length].
  f_equal. apply map_ext_in. intros i _. f_equal. apply opposite_increment.
Qed.
Print Assumptions C106_occupations.

Lemma to_double_RR r : (Rabs r <= 1)%R -> fin (to_double r) /\ RR (to_double r) = rnd r.
Proof.
  intros Hr. split; [now apply to_double_ok|]. unfold to_double.
  assert (Ef : F2R (Float radix2 (Ztrunc (scaled_mantissa radix2 (FLT_exp (-1074) 53) (rnd r))) (cexp radix2 (FLT_exp (-1074) 53) (rnd r))) = rnd r).
  { symmetry. apply fmt_rnd. }
  destruct (dyad_ok (Ztrunc (scaled_mantissa radix2 (FLT_exp (-1074) 53) (rnd r))) (cexp radix2 (FLT_exp (-1074) 53) (rnd r))) as [A F].
  - rewrite Ef, (rnd_fmt _ (fmt_rnd r)). apply (no_overflow _ 0); [lia|exact Hr].
  - now rewrite A, Ef, (rnd_fmt _ (fmt_rnd r)).
Qed.
Lemma alike_fin x y : fin x -> fin y -> RR y = RR x -> alike x y.
Proof.
  intros Fx Fy E. destruct (Req_dec (RR x) 0) as [Z|Z]; [right; repeat split; auto; lra|]. left. apply RR_inj; [exact E|lra].
Qed.
(** Sites 9 and 15 of a 4 x 5 lattice face each other; sine and cosine rounded to nearest. *)
Example C106_ex :
  facing [4; 5] [1; 4] [3; 0] /\ GetCoordinates (HyperCubicGrid [4; 5] true) 9 = Ok [1; 4] /\ GetCoordinates (HyperCubicGrid [4; 5] true) 15 = Ok [3; 0] /\
  lattice_ok (TriangularLattice numF) [4; 5] /\
  odd_and_even (fun x => to_double (sin (RR x))) (fun x => to_double (cos (RR x))).
Proof.
  split; [repeat constructor|]. split; [vm_compute; reflexivity|]. split; [vm_compute; reflexivity|]. split; [standard_lattice|].
  assert (Bs : forall x, (Rabs (sin x) <= 1)%R) by (intros x; apply Rabs_le, SIN_bound).
  assert (Bc : forall x, (Rabs (cos x) <= 1)%R) by (intros x; apply Rabs_le, COS_bound).
  destruct (to_double_RR (sin (RR f0)) (Bs _)) as [F0 E0]. change (RR f0) with 0%R in E0 at 2. rewrite sin_0, rnd_0 in E0.
  split; [|split; [|split; [exact F0|exact E0]]]; intros x;
    [destruct (to_double_RR _ (Bs (RR x))) as [F E], (to_double_RR _ (Bs (RR (fopp x)))) as [F' E']|
     destruct (to_double_RR _ (Bc (RR x))) as [F E], (to_double_RR _ (Bc (RR (fopp x)))) as [F' E']].
  - apply negated_fin; try assumption. rewrite E', E, RR_fopp, sin_neg. apply rnd_opp.
  - apply alike_fin; try assumption. now rewrite E', E, RR_fopp, cos_neg.
Qed.

(** Interpolation between, sequences over and lengths of negated numbers. *)
Theorem C106_lerp : forall a b t i j, negated (lerp numF a b t) (lerp numF (fopp a) (fopp b) t) /\
  negated (lerpi numF i j a b) (lerpi numF i j (fopp a) (fopp b)).
Proof. intros. split; apply lerp_negated. Qed.
Print Assumptions C106_lerp.
Theorem C106_linspace : forall first last steps h,
  Forall2 (Forall2 negated) (fst (sp_calls LinDeref (LinIncr numF) h (LinSpace numF first last steps)))
    (fst (sp_calls LinDeref (LinIncr numF) h (LinSpace numF (fopp first) (fopp last) steps))).
Proof. intros. rewrite !C65_calls. apply seq_related. intros k. apply lin_negated. Qed.
Print Assumptions C106_linspace.
Theorem C106_norms : forall l l', Forall2 negated l l' -> sum_squared numF l' = sum_squared numF l /\ l2norm numF l' = l2norm numF l.
Proof.
  intros l l' F. assert (E : sum_squared numF l' = sum_squared numF l) by (apply (squares_negated l l' F)).
  split; [exact E|]. unfold l2norm in *. unfold sum_squared in E. now rewrite E.
Qed.
Print Assumptions C106_norms.
Example C106_linspace_ex :
  map (map B2SF) (fst (sp_calls LinDeref (LinIncr numF) [ScCollect 3; ScPre] (LinSpace numF (fopp f1) (fopp (of_Z 2)) 4))) =
  map (map B2SF) [[of_Z (-1); dyad (-5) (-2); dyad (-3) (-1)]; [dyad (-5) (-2)]] /\
  map (map B2SF) (fst (sp_calls LinDeref (LinIncr numF) [ScCollect 3; ScPre] (LinSpace numF f1 (of_Z 2) 4))) =
  map (map B2SF) [[of_Z 1; dyad 5 (-2); dyad 3 (-1)]; [dyad 5 (-2)]].
Proof. split; vm_compute; reflexivity. Qed.

(** Run backwards, a sequence shows the same values in exact arithmetic only. *)
Theorem C106_backwards : forall first last steps, 1 <= steps < two64 ->
  SpCollect LinDeref (LinIncr numR) (LinSpace numR last first steps) (steps + 1) =
  rev (SpCollect LinDeref (LinIncr numR) (LinSpace numR first last steps) (steps + 1)).
Proof.
  intros first last steps Hs. rewrite !lin_collect. set (n := Z.to_nat (steps + 1)). assert (En : Z.of_nat n = steps + 1) by (unfold n; lia).
  apply nth_ext with (d := 0%R) (d' := 0%R); [now rewrite rev_length, !map_length|]. intros k Hk. rewrite map_length, seq_length in Hk.
  rewrite rev_nth; rewrite map_length, seq_length; [|exact Hk].
  assert (G : forall f j, (j < n)%nat -> nth j (map f (seq 0 n)) 0%R = f j).
  { intros f j Hj. rewrite (nth_indep _ 0%R (f 0%nat)) by (rewrite map_length, seq_length; exact Hj). rewrite map_nth, seq_nth by exact Hj. reflexivity. }
  rewrite !G by lia. assert (IZR steps <> 0%R) by (apply (IZR_neq steps 0); lia).
  rewrite !lin_value_R by lia. replace (Z.of_nat (n - S k)) with (steps - Z.of_nat k) by lia. rewrite minus_IZR. field. assumption.
Qed.
Print Assumptions C106_backwards.
Theorem C106_backwards_refuted : exists x y,
  nth_error (SpCollect LinDeref (LinIncr numF) (LinSpace numF f0 f1 10) 11) 3 = Some x /\
  nth_error (SpCollect LinDeref (LinIncr numF) (LinSpace numF f1 f0 10) 11) 7 = Some y /\ feq x y = false.
Proof. eexists _, _. rewrite !lin_collect. split; [reflexivity|]. split; [reflexivity|vm_compute; reflexivity]. Qed.
Print Assumptions C106_backwards_refuted.
Theorem C106_lerp_backwards : forall a b t, lerp numR b a (1 - t)%R = lerp numR a b t.
Proof. intros. unfold lerp. cbn [numR n_add n_mul n_sub n_ofZ]. ring. Qed.
Print Assumptions C106_lerp_backwards.
Theorem C106_lerp_backwards_refuted : exists a b t, fin a /\ fin b /\ fin t /\ feq (lerp numF b a (fsub f1 t)) (lerp numF a b t) = false.
Proof. exists f0, f1, (dyad 1 (-60)). do 3 (split; [vm_compute; reflexivity|]). vm_compute. reflexivity. Qed.
Print Assumptions C106_lerp_backwards_refuted.
