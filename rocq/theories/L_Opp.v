(** Lemmas about opposite momenta and opposite data. *)
From Coq Require Import ZArith Reals List Bool Lia Lra.
From Flocq Require Import Core.Core IEEE754.BinarySingleNaN.
From Verif Require Import Base F64 Num S_Math S_Accum M_MathF M_Grid M_Bravais M_Lattice M_Space S_Grid S_Bravais S_Lattice S_Space S_Mirror S_Opp
  L_MathF L_Grid L_Bravais L_Lattice L_LatticeK L_Mom L_Sk L_Mirror L_Space.
Import ListNotations.
Open Scope Z_scope.

Lemma negated_zeros x y : fin x -> fin y -> RR x = 0%R -> RR y = 0%R -> negated x y.
Proof. intros. right. now repeat split. Qed.

Section Trig.
Context (fsin fcos : f64 -> f64) (T : odd_and_even fsin fcos).

Lemma fsin_zero s : fin (fsin (B754_zero s)) /\ RR (fsin (B754_zero s)) = 0%R.
Proof.
  destruct T as (O & _ & F & Z). destruct s; [|exact (conj F Z)]. change (B754_zero true : f64) with (fopp f0).
  destruct (negated_RR _ _ (O f0) F) as [F' E]. split; [exact F'|]. rewrite E. lra.
Qed.
Lemma fsin_negated x y : negated x y -> negated (fsin x) (fsin y).
Proof.
  intros [->|(Fx & Fy & Ex & Ey)]; [apply T|]. destruct (fin_zero x Fx Ex) as [s ->]. destruct (fin_zero y Fy Ey) as [s' ->].
  apply negated_zeros; apply fsin_zero.
Qed.
Lemma alike_sym x y : alike x y -> alike y x.
Proof. intros [->|(? & ? & ? & ?)]; [now left|right; now repeat split]. Qed.
Lemma fcos_alike x y : negated x y -> alike (fcos x) (fcos y).
Proof.
  intros [->|(Fx & Fy & Ex & Ey)]; [apply T|]. destruct T as (_ & E & _ & _).
  destruct (fin_zero x Fx Ex) as [[] ->], (fin_zero y Fy Ey) as [[] ->]; try apply alike_refl.
  - apply alike_sym. exact (E f0).
  - exact (E f0).
Qed.
End Trig.

Lemma alike_mul x y v : alike x y -> alike (fmul x v) (fmul y v).
Proof.
  intros H. apply (negated_twice _ (fmul (fopp y) v)); [now apply negated_mul, alike_negated|]. apply negated_mul, negated_sym, negated_self.
Qed.
Lemma alike_square x y : alike x y -> fmul y y = fmul x x.
Proof.
  intros [->|(Fx & Fy & Ex & Ey)]; [reflexivity|].
  destruct (fin_zero x Fx Ex) as [[] ->], (fin_zero y Fy Ey) as [[] ->]; reflexivity.
Qed.

Lemma negated_sum {A} (f g : A -> f64) l : forall s t, negated s t -> (forall a, In a l -> negated (f a) (g a)) ->
  negated (fold_left fadd (map f l) s) (fold_left fadd (map g l) t).
Proof.
  induction l as [|a l IH]; intros s t H F; [exact H|]. cbn [map fold_left]. apply IH; [|intros; apply F; now right].
  apply negated_add; [exact H|apply F; now left].
Qed.
Lemma alike_sum {A} (f g : A -> f64) l : forall s t, alike s t -> (forall a, In a l -> alike (f a) (g a)) ->
  alike (fold_left fadd (map f l) s) (fold_left fadd (map g l) t).
Proof.
  induction l as [|a l IH]; intros s t H F; [exact H|]. cbn [map fold_left]. apply IH; [|intros; apply F; now right].
  apply alike_add; [exact H|apply F; now left].
Qed.
Lemma negated_dot k k' v : Forall2 negated k k' -> forall s t, negated s t ->
  negated (fold_left fadd (zip_with fmul k v) s) (fold_left fadd (zip_with fmul k' v) t).
Proof.
  intros F. revert v. induction F as [|x y k k' H F IH]; intros [|b v] s t Q; try exact Q. cbn [zip_with fold_left].
  apply IH. apply negated_add; [exact Q|now apply negated_mul].
Qed.

Lemma facing_centred size : forall c c', facing size c c' -> centred size c' = map Z.opp (centred size c).
Proof.
  unfold facing, centred. intros c c' F. induction F as [|s x y size c c' E F IH]; [reflexivity|]. cbn [zip_with map]. rewrite IH. f_equal. lia.
Qed.

Lemma nth_opp n : forall l, nth n (map Z.opp l) 0 = - nth n l 0.
Proof. induction n as [|n IH]; intros [|x l]; try reflexivity. apply IH. Qed.

Section Sk.
Context (B : bravais f64) (size : list Z) (H : lattice_ok B size) (pi : f64).

Lemma facing_momenta c c' : on_grid size c -> on_grid size c' -> facing size c c' ->
  Forall2 negated (mom numF pi B size c) (mom numF pi B size c').
Proof.
  intros G G' F. pose proof H as (W & Hs & H40 & Hok & He & Hn). unfold mom. rewrite (facing_centred _ _ _ F).
  assert (Fc : Forall (fun x => - 2 ^ 62 <= x < 2 ^ 62) (centred size c)).
  { unfold centred. eapply (zip_Forall2 (fun x => 0 <= x < 2 ^ 62) (fun s => 0 < s <= 2 ^ 62)); [|now apply (on_grid_62 size)|apply Hok].
    intros u v Hu Hv. Z.to_euclidean_division_equations. lia. }
  assert (G2 : forall l, (forall k, In k l -> negated (rrow numF pi B (centred size c) k) (rrow numF pi B (map Z.opp (centred size c)) k)) ->
    Forall2 negated (map (fun k => n_div numF (rrow numF pi B (centred size c) k) (n_ofZ numF (nth (Z.to_nat k) size 0))) l)
      (map (fun k => n_div numF (rrow numF pi B (map Z.opp (centred size c)) k) (n_ofZ numF (nth (Z.to_nat k) size 0))) l)).
  { induction l as [|k l IH]; intros Q; [constructor|]. cbn [map]. constructor; [|apply IH; intros; apply Q; now right]. apply negated_div, Q. now left. }
  apply G2. intros k _. unfold rrow. apply negated_fold; [|apply negated_zero]. intros j _. apply negated_mul, negated_mul.
  rewrite nth_opp. replace (- nth (Z.to_nat j) (centred size c) 0 * 2) with (- (nth (Z.to_nat j) (centred size c) 0 * 2)) by ring.
  apply negated_of_Z. destruct (nth_in_or_default (Z.to_nat j) (centred size c) 0) as [I| ->]; [|cbn; lia].
  rewrite Forall_forall in Fc. specialize (Fc _ I). lia.
Qed.

Context (fsin fcos : f64 -> f64).

Lemma facing_increment : odd_and_even fsin fcos -> forall i i' occ mult, valid_site size i -> valid_site size i' ->
  facing size (coords_of size i) (coords_of size i') -> ginc numF pi fsin fcos B size occ mult i' = ginc numF pi fsin fcos B size occ mult i.
Proof.
  intros T i i' occ mult Hi Hi' F. pose proof H as (W & Hs & H40 & Hok & He & Hn). unfold ginc. do 2 f_equal.
  assert (M : Forall2 negated (gmom numF pi B size i) (gmom numF pi B size i')).
  { unfold gmom. apply facing_momenta; [now apply coords_of_spec..|exact F]. }
  assert (P : forall j, negated (gphase numF B size (gmom numF pi B size i) j) (gphase numF B size (gmom numF pi B size i') j)).
  { intros j. unfold gphase, gsum. apply negated_dot; [exact M|apply negated_zero]. }
  f_equal.
  - apply negated_square. unfold gamp, gsum. apply negated_sum; [apply negated_zero|]. intros j _. apply negated_mul, (fsin_negated fsin fcos T), P.
  - apply alike_square. unfold gamp, gsum. apply alike_sum; [apply alike_refl|]. intros j _. apply alike_mul, (fcos_alike fsin fcos T), P.
Qed.

Lemma nth_fopp n : forall l, negated (nth n l f0) (nth n (map fopp l) f0).
Proof. induction n as [|n IH]; intros [|x l]; try apply negated_zero; try apply negated_self. apply IH. Qed.

Lemma opposite_increment i occ mult : ginc numF pi fsin fcos B size (map fopp occ) mult i = ginc numF pi fsin fcos B size occ mult i.
Proof.
  unfold ginc. do 2 f_equal.
  f_equal; apply negated_square; unfold gamp, gsum; (apply negated_sum; [apply negated_zero|]); intros j _; apply negated_mul_r, nth_fopp.
Qed.
End Sk.

(** * Interpolation and sequences *)
Lemma lerp_negated a b t : negated (lerp numF a b t) (lerp numF (fopp a) (fopp b) t).
Proof. unfold lerp. apply negated_add; apply negated_mul_r, negated_self. Qed.

Lemma lin_negated a b n k : negated (lin_value numF a b n k) (lin_value numF (fopp a) (fopp b) n k).
Proof.
  destruct k as [|k]; [apply negated_self|]. unfold lin_value. apply negated_add; [apply negated_self|]. apply negated_mul, negated_div.
  apply negated_sub; apply negated_self.
Qed.

Lemma from_related {T} (R : T -> T -> Prop) f g : (forall k, R (f k) (g k)) -> forall n k, Forall2 R (from f k n) (from g k n).
Proof. intros E n. unfold from. induction n as [|n IH]; intros k; [constructor|]. cbn [seq map]. constructor; [apply E|apply IH]. Qed.
Lemma seq_related {T} (R : T -> T -> Prop) f g : (forall k, R (f k) (g k)) -> forall h k,
  Forall2 (Forall2 R) (fst (seq_calls f h k)) (fst (seq_calls g h k)) /\ snd (seq_calls f h k) = snd (seq_calls g h k).
Proof.
  intros E h. induction h as [|c h IH]; intros k; [split; [constructor|reflexivity]|]. cbn [seq_calls].
  assert (Q : Forall2 R (fst (seq_call f k c)) (fst (seq_call g k c)) /\ snd (seq_call f k c) = snd (seq_call g k c)).
  { destruct c; cbn; split; auto. now apply from_related. }
  destruct (seq_call f k c) as [v k1], (seq_call g k c) as [w k2]. cbn [fst snd] in Q. destruct Q as [Q ->].
  specialize (IH k2). destruct (seq_calls f h k2) as [vs k3], (seq_calls g h k2) as [ws k4]. cbn [fst snd] in *. destruct IH as [I ->]. split; [now constructor|reflexivity].
Qed.

Lemma squares_negated l l' : Forall2 negated l l' -> forall s, fold_left (fun d x => fadd d (fmul x x)) l' s = fold_left (fun d x => fadd d (fmul x x)) l s.
Proof. induction 1 as [|x y l l' E F IH]; intros s; [reflexivity|]. cbn [fold_left]. now rewrite (negated_square _ _ E), IH. Qed.
