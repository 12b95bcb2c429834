(** Lemmas about sums over configurations on rings: the transfer matrix. *)
From Coq Require Import ZArith Reals List Bool Lia Lra.
From Verif Require Import Base F64 Num S_Math S_Accum M_MathInt L_MathInt M_Grid M_Bravais M_Lattice S_Grid L_Grid S_Bravais S_Lattice S_LatticeN
  L_Bravais L_Lattice L_LatticeN L_Sum L_LatticeK S_Bonds L_Bonds S_Energy L_Energy S_Route L_Route S_Count L_Count L_Fourier L_Frust S_Gauge.
Import ListNotations.
Open Scope Z_scope.

Lemma configurations_length n : forall s, In s (configurations n) -> length s = n.
Proof.
  induction n as [|n IH]; intros s Hs; [destruct Hs as [<-|[]]; reflexivity|]. cbn [configurations] in Hs. apply in_app_iff in Hs.
  destruct Hs as [Hs|Hs]; apply in_map_iff in Hs; destruct Hs as (s' & <- & Hs); cbn [length]; f_equal; now apply IH.
Qed.

(** Products of values next to each other, from [c] along [l] and back to [f]. *)
Fixpoint around (f c : R) (l : list R) : R := match l with [] => (c * f)%R | y :: l' => (c * y + around f y l')%R end.

Lemma around_nth f l : forall c,
  around f c l = sumR (map (fun k => nth k (c :: l) 0 * nth (S k) ((c :: l) ++ [f]) 0)%R (seq 0 (S (length l)))).
Proof.
  induction l as [|y l IH]; intros c; [unfold sumR; cbn; ring|].
  change (around f c (y :: l)) with (c * y + around f y l)%R. rewrite IH.
  change (length (y :: l)) with (S (length l)). rewrite <- (cons_seq (S (length l)) 0). rewrite <- seq_shift. cbn [map]. rewrite map_map.
  unfold sumR at 2. cbn [fold_right]. f_equal.
Qed.

Lemma nth_around x l k : (k < S (length l))%nat -> nth (S k) ((x :: l) ++ [x]) 0%R = nth (Z.to_nat ((Z.of_nat k + 1) mod Z.of_nat (S (length l)))) (x :: l) 0%R.
Proof.
  intros Hk. assert (D : (S k < S (length l) \/ S k = S (length l))%nat) by lia. destruct D as [D|D].
  - rewrite app_nth1 by exact D. rewrite Z.mod_small by lia. f_equal. lia.
  - rewrite app_nth2 by (cbn [length]; lia). replace (Z.of_nat k + 1) with (Z.of_nat (S (length l))) by lia. rewrite Z.mod_same by lia.
    replace (S k - length (x :: l))%nat with 0%nat by (cbn [length]; lia). reflexivity.
Qed.

Lemma around_ring x l : let n := Z.of_nat (S (length l)) in
  around x x l = sumR (map (fun a => value (x :: l) a * value (x :: l) ((a + 1) mod n))%R (upto n)).
Proof.
  intros n. rewrite around_nth. unfold upto, n. rewrite Nat2Z.id, map_map. apply sumR_ext. intros k Hk. apply in_seq in Hk.
  unfold value. rewrite Nat2Z.id. now rewrite nth_around by lia.
Qed.

(** The transfer matrix raised to a power. *)
Lemma transfer K n : forall f c, (f = 1 \/ f = -1)%R -> (c = 1 \/ c = -1)%R ->
  sumR (map (fun l => exp (K * around f c l)) (configurations n)) =
  (((2 * cosh K) ^ S n + c * f * (2 * sinh K) ^ S n) / 2)%R.
Proof.
  assert (C2 : (2 * cosh K = exp K + exp (- K))%R) by (unfold cosh; lra). assert (S2 : (2 * sinh K = exp K - exp (- K))%R) by (unfold sinh; lra).
  rewrite C2, S2. induction n as [|n IH]; intros f c Hf Hc.
  - unfold sumR. cbn [configurations map fold_right around pow].
    destruct Hf as [-> | ->], Hc as [-> | ->].
    + replace (K * (1 * 1))%R with K by ring. field.
    + replace (K * (-1 * 1))%R with (- K)%R by ring. field.
    + replace (K * (1 * -1))%R with (- K)%R by ring. field.
    + replace (K * (-1 * -1))%R with K by ring. field.
  - cbn [configurations]. rewrite map_app, sumR_app, !map_map. cbn [around].
    rewrite (sumR_ext _ (fun l => exp (K * (c * 1)) * exp (K * around f 1 l))%R) by (intros; rewrite <- exp_plus; f_equal; ring).
    rewrite (sumR_ext (fun x => exp (K * (c * -1 + around f (-1) x))) (fun l => exp (K * (c * -1)) * exp (K * around f (-1) l))%R) by (intros; rewrite <- exp_plus; f_equal; ring).
    rewrite !sumR_scal, (IH f 1%R), (IH f (-1)%R) by first [assumption | left; reflexivity | right; reflexivity].
    set (u := ((exp K + exp (- K)) ^ S n)%R). set (v := ((exp K - exp (- K)) ^ S n)%R).
    change ((exp K + exp (- K)) ^ S (S n))%R with ((exp K + exp (- K)) * u)%R. change ((exp K - exp (- K)) ^ S (S n))%R with ((exp K - exp (- K)) * v)%R.
    destruct Hc as [-> | ->].
    + replace (K * (1 * 1))%R with K by ring. replace (K * (1 * -1))%R with (- K)%R by ring. field.
    + replace (K * (-1 * 1))%R with (- K)%R by ring. replace (K * (-1 * -1))%R with K by ring. field.
Qed.

(** Open ends: the path comes back to a zero. *)
Lemma transfer_open K n : forall c, (c = 1 \/ c = -1)%R ->
  sumR (map (fun l => exp (K * around 0 c l)) (configurations n)) = ((2 * cosh K) ^ n)%R.
Proof.
  assert (C2 : (2 * cosh K = exp K + exp (- K))%R) by (unfold cosh; lra). rewrite C2. induction n as [|n IH]; intros c Hc.
  - unfold sumR. cbn [configurations map fold_right around pow]. replace (K * (c * 0))%R with 0%R by ring. rewrite exp_0. ring.
  - cbn [configurations]. rewrite map_app, sumR_app, !map_map. cbn [around].
    rewrite (sumR_ext _ (fun l => exp (K * (c * 1)) * exp (K * around 0 1 l))%R) by (intros; rewrite <- exp_plus; f_equal; ring).
    rewrite (sumR_ext (fun x => exp (K * (c * -1 + around 0 (-1) x))) (fun l => exp (K * (c * -1)) * exp (K * around 0 (-1) l))%R) by (intros; rewrite <- exp_plus; f_equal; ring).
    rewrite !sumR_scal, (IH 1%R), (IH (-1)%R) by first [left; reflexivity | right; reflexivity]. cbn [pow].
    destruct Hc as [-> | ->].
    + replace (K * (1 * 1))%R with K by ring. replace (K * (1 * -1))%R with (- K)%R by ring. ring.
    + replace (K * (-1 * 1))%R with (- K)%R by ring. replace (K * (-1 * -1))%R with K by ring. ring.
Qed.

Lemma around_forth x l : around 0 x l = sumR (map (fun k => nth k (x :: l) 0 * nth (S k) (x :: l) 0)%R (seq 0 (S (length l)))).
Proof.
  rewrite around_nth. apply sumR_ext. intros k Hk. apply in_seq in Hk. f_equal. assert (D : (S k < S (length l) \/ S k = S (length l))%nat) by lia. destruct D as [D|D].
  - now rewrite app_nth1.
  - rewrite app_nth2 by (cbn [length]; lia). rewrite (nth_overflow (x :: l)) by (cbn [length]; lia).
    replace (S k - length (x :: l))%nat with 0%nat by (cbn [length]; lia). reflexivity.
Qed.

Lemma around_back x l : around 0 x l = sumR (map (fun k => nth k (x :: l) 0 * (if (k =? 0)%nat then 0 else nth (Nat.pred k) (x :: l) 0))%R (seq 0 (S (length l)))).
Proof.
  rewrite around_forth. rewrite seq_S at 1. rewrite map_app, sumR_app. rewrite <- (cons_seq (length l) 0), <- seq_shift. cbn [map]. rewrite map_map.
  unfold sumR at 2 3. cbn [map fold_right Nat.add Nat.eqb Nat.pred]. rewrite (nth_overflow (x :: l) 0%R (n := S (length l))) by (cbn [length]; lia).
  match goal with |- (?a + _ = _ + ?b)%R => replace b with a; [ring|] end. apply sumR_ext. intros k _. cbn [Nat.eqb Nat.pred]. apply Rmult_comm.
Qed.

Section Chain.
Context {T : Type} (N : num T) (n : Z).
Let B := ChainLattice N.
Hypothesis H : lattice_ok B [n].

Lemma chain_dest a : valid_site [n] a -> dest B [n] a [0] = (a + 1) mod n.
Proof.
  intros Ha. assert (ok : sizes_ok [n]) by apply H. destruct (coords_of_spec [n] a ok Ha) as (_ & G & Rm).
  assert (X : coords_of [n] a = [a]).
  { revert G Rm. generalize (coords_of [n] a). intros c G Rm. inversion G as [|? x ? c' Hx G' E1 E2]. subst c. inversion G'. subst c'. cbn in Rm. f_equal. lia. }
  unfold dest. rewrite X. change (overall B [0]) with [1]. rewrite hop_cons. cbn [row_major prodZ fold_right]. unfold hop. cbn. lia.
Qed.

Lemma ring_energy s : energy Rmult (table B [n] true) s = sumR (map (fun a => s a * s ((a + 1) mod n))%R (upto n)).
Proof.
  pose proof (energy_by_direction B [n] H s) as E. pose proof (partner_correlation B [n] H s 0 ltac:(cbn; lia)) as P0.
  set (C := fun j => sumR (map (fun a => s a * s (dest B [n] a [j]))%R (upto (prodZ [n])))) in *. change (C 1 = C 0) in P0.
  change (upto (b_gamma B)) with [0; 1] in E. unfold sumR in E at 1. cbn [map fold_right] in E.
  assert (E' : energy Rmult (table B [n] true) s = C 0) by lra. rewrite E'. unfold C. assert (EP : prodZ [n] = n) by (cbn; lia).
  rewrite (sumR_ext _ (fun a => s a * s ((a + 1) mod n))%R); [now rewrite EP|]. intros a Ha. apply upto_In in Ha. now rewrite chain_dest.
Qed.

Lemma open_hops a : valid_site [n] a -> nbs B [n] false a = (if a + 1 <? n then [a + 1] else []) ++ (if 0 <? a then [a - 1] else []).
Proof.
  intros Ha. assert (ok : sizes_ok [n]) by apply H. destruct (coords_of_spec [n] a ok Ha) as (_ & G & Rm).
  assert (X : coords_of [n] a = [a]).
  { revert G Rm. generalize (coords_of [n] a). intros c G Rm. inversion G as [|? x ? c' Hx G' E1 E2]. subst c. inversion G'. subst c'. cbn in Rm. f_equal. lia. }
  assert (R : 0 <= a < n) by (unfold valid_site in Ha; cbn in Ha; lia).
  unfold nbs, nbrs. rewrite X. change (upto (b_gamma B)) with [0; 1]. cbn [map]. change (displacement B 0) with [1]. change (displacement B 1) with [-1].
  unfold shifted. cbn [zip_with filter]. 
  assert (I1 : inside [n] [a + 1] = (a + 1 <? n)) by (unfold inside; cbn; destruct (Z.leb_spec 0 (a + 1)), (Z.ltb_spec (a + 1) n); try reflexivity; lia).
  assert (I2 : inside [n] [a + -1] = (0 <? a)) by (unfold inside; cbn; destruct (Z.leb_spec 0 (a + -1)), (Z.ltb_spec (a + -1) n), (Z.ltb_spec 0 a); try reflexivity; lia).
  rewrite I1, I2. destruct (a + 1 <? n), (0 <? a); cbn [map app row_major prodZ fold_right]; repeat (f_equal; try lia).
Qed.

Lemma open_energy x l : n = Z.of_nat (S (length l)) -> energy Rmult (table B [n] false) (value (x :: l)) = around 0 x l.
Proof.
  intros En. unfold energy, table. rewrite (bonds_map B [n] false), sumR_flat. assert (EP : prodZ [n] = n) by (cbn; lia). rewrite EP.
  assert (E2 : forall t u : R, t = (u + u)%R -> (t / 2 = u)%R) by (intros; lra). apply E2. rewrite around_forth at 1. rewrite around_back, <- sumR_plus.
  change (upto n) with (map Z.of_nat (seq 0 (Z.to_nat n))). rewrite map_map. replace (Z.to_nat n) with (S (length l)) by lia. apply sumR_ext. intros k Hk. apply in_seq in Hk.
  fold (nbs B [n] false (Z.of_nat k)). rewrite open_hops by (unfold valid_site; rewrite EP; lia). rewrite map_map. cbn [fst snd]. rewrite map_app, sumR_app. f_equal.
  - destruct (Z.ltb_spec (Z.of_nat k + 1) n) as [D|D]; cbn [map]; unfold sumR; cbn [fold_right]; unfold value.
    + rewrite Nat2Z.id. replace (Z.to_nat (Z.of_nat k + 1)) with (S k) by lia. ring.
    + rewrite (nth_overflow (x :: l) 0%R (n := S k)) by (cbn [length]; lia). ring.
  - destruct (Z.ltb_spec 0 (Z.of_nat k)) as [D|D]; cbn [map]; unfold sumR; cbn [fold_right]; unfold value.
    + rewrite Nat2Z.id. destruct k; [lia|]. replace (Z.to_nat (Z.of_nat (S k) - 1)) with k by lia. cbn [Nat.eqb Nat.pred]. ring.
    + destruct k; [cbn [Nat.eqb]; ring|lia].
Qed.
End Chain.
