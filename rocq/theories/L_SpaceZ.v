(** LinSpace over integers. *)
From Coq Require Import ZArith List Bool Lia.
From Verif Require Import Base M_Rational M_Space S_Space M_SpaceZ S_SpaceZ.
Import ListNotations.
Open Scope Z_scope.

Section LZ.
Context (w : Z) (Hw : 1 < w <= 64).

Lemma pow_split : 2 ^ w = 2 * 2 ^ (w - 1).
Proof. rewrite <- Z.pow_succ_r by lia. f_equal. lia. Qed.
Lemma pow_half : 0 < 2 ^ (w - 1). Proof. apply Z.pow_pos_nonneg; lia. Qed.
Lemma pow_small : 2 ^ (w - 1) <= two63.
Proof. unfold two63. apply Z.pow_le_mono_r; lia. Qed.

Lemma scast_small z : 0 <= z < 2 ^ (w - 1) -> scast w z = z.
Proof. intros H. unfold scast. pose proof pow_split. rewrite Z.mod_small by lia. lia. Qed.

Lemma scast_zero z : z mod 2 ^ w = 0 -> scast w z = 0.
Proof.
  intros H. unfold scast. pose proof pow_split. pose proof pow_half. rewrite <- Zplus_mod_idemp_l, H, Z.mod_small by lia. lia.
Qed.

Context (first last steps : Z) (Hf : in_type w first) (Hd : in_type w (last - first)) (Hs : 1 <= steps < 2 ^ (w - 1)).
Let q := Z.quot (last - first) steps.

Lemma quot_le : Z.abs q * steps <= Z.abs (last - first).
Proof.
  unfold q. rewrite <- (Z.abs_eq steps) at 2 by lia. rewrite <- Z.quot_abs by lia. rewrite (Z.abs_eq steps) by lia.
  rewrite Z.mul_comm. apply Z.mul_quot_le; lia.
Qed.

(** The object at position k. *)
Definition lz (k : nat) : linspace Z := mkLin (int_value first last steps k) first last q steps (Z.of_nat k).

Lemma lz_new : LinSpaceZ w first last steps = Ok (lz 0).
Proof.
  unfold LinSpaceZ. rewrite sint_ok by exact Hd. cbn [bind]. unfold sdiv. rewrite scast_small by lia.
  destruct (Z.eqb_spec steps 0); [lia|]. fold q. rewrite sint_ok.
  - cbn [bind]. unfold lz, int_value. rewrite Z.mul_0_r, Z.add_0_r. reflexivity.
  - pose proof quot_le. unfold in_type in Hd. destruct (Z.eq_dec steps 1) as [->|].
    + unfold q. rewrite Z.quot_1_r. exact Hd.
    + assert (Z.abs q * 2 <= Z.abs (last - first)) by nia. lia.
Qed.

(** Position m can be computed without overflow. *)
Definition rep (m : nat) : bool := is_sint w (q * Z.of_nat m) && is_sint w (first + q * Z.of_nat m).
Lemma rep_spec m : rep m = true <-> in_type w (q * Z.of_nat m) /\ in_type w (int_value first last steps m).
Proof. unfold rep, in_type, int_value. fold q. rewrite andb_true_iff, !is_sint_spec. reflexivity. Qed.
Lemma rep_0 : rep 0 = true.
Proof. apply rep_spec. unfold int_value, in_type in *. pose proof pow_half. lia. Qed.
Lemma rep_mono m m' : (m' <= m)%nat -> rep m = true -> rep m' = true.
Proof.
  intros L H. apply rep_spec in H. apply rep_spec. unfold int_value, in_type in *. fold q in H. fold q. destruct H as [A B]. pose proof pow_half.
  assert (M : 0 <= Z.of_nat m' <= Z.of_nat m) by lia. destruct (Z.le_gt_cases 0 q); nia.
Qed.
Lemma rep_false m m' : (m' <= m)%nat -> rep m' = false -> rep m = false.
Proof. intros L H. destruct (rep m) eqn:E; [|reflexivity]. rewrite (rep_mono m m' L E) in H. discriminate. Qed.

Lemma incr_lz k : Z.of_nat (S k) < 2 ^ (w - 1) -> LinIncrZ w (lz k) = if rep (S k) then Ok (lz (S k)) else UB.
Proof.
  intros Hk. pose proof pow_small. pose proof two64_double. pose proof two63_pos. unfold LinIncrZ, lz. cbn [li_step li_first li_last li_stepsize li_nsteps].
  replace (Z.of_nat k + 1) with (Z.of_nat (S k)) by lia. rewrite u64_small by lia. rewrite scast_small by lia. unfold rep.
  unfold sint at 1. destruct (is_sint w (q * Z.of_nat (S k))); [|reflexivity]. cbn [bind andb]. unfold sint.
  destruct (is_sint w (first + q * Z.of_nat (S k))); reflexivity.
Qed.

Lemma computed_ge h : forall k, (k <= computed h k)%nat.
Proof. induction h as [|[| | | |n] h IH]; intros k; cbn [computed]; [lia| | | | |]; try (specialize (IH (S k)); lia); try (specialize (IH k); lia). Qed.

Lemma generate_lz n : forall k, Z.of_nat (k + n) < 2 ^ (w - 1) -> rep k = true ->
  generate_z w n (lz k) = if rep (k + n) then Ok (from (int_value first last steps) k n) else UB.
Proof.
  induction n as [|n IH]; intros k Hk Rk.
  - rewrite Nat.add_0_r, Rk. reflexivity.
  - cbn [generate_z]. unfold LinCallZ. rewrite incr_lz by lia. destruct (rep (S k)) eqn:R.
    + cbn [bind snd fst]. rewrite IH by (try assumption; lia). replace (S k + n)%nat with (k + S n)%nat by lia.
      destruct (rep (k + S n)); reflexivity.
    + rewrite (rep_false (k + S n) (S k)) by (try assumption; lia). reflexivity.
Qed.

Lemma calls_lz h : forall k, Z.of_nat (computed h k) < 2 ^ (w - 1) -> rep k = true ->
  lin_calls_z w h (lz k) = if rep (computed h k) then Ok (fst (seq_calls (int_value first last steps) h k)) else UB.
Proof.
  induction h as [|c h IH]; intros k Hk Rk.
  - cbn [computed]. rewrite Rk. reflexivity.
  - cbn [lin_calls_z seq_calls]. destruct c as [| | | |n]; cbn [computed] in Hk |- *; cbn [lin_call_z seq_call].
    1,2,3: pose proof (computed_ge h (S k)) as G; unfold LinCallZ; rewrite incr_lz by lia; destruct (rep (S k)) eqn:R;
      [cbn [bind fst snd]; rewrite IH by assumption; destruct (rep (computed h (S k))); [|reflexivity]; cbn [bind];
       destruct (seq_calls _ h (S k)) as [vs k2]; reflexivity
      |rewrite (rep_false _ _ G R); reflexivity].
    + cbn [bind fst snd]. rewrite IH by assumption. destruct (rep (computed h k)); [|reflexivity]. cbn [bind].
      destruct (seq_calls _ h k) as [vs k2]. reflexivity.
    + unfold LinCollectZ. rewrite generate_lz by (try assumption; lia). destruct (rep (k + Z.to_nat n)) eqn:R.
      * cbn [bind fst snd]. rewrite IH by (try assumption; lia). destruct (rep (computed h k)) eqn:R2.
        -- assert (rep (Nat.max (k + Z.to_nat n) (computed h k)) = true) as -> by (destruct (Nat.max_dec (k + Z.to_nat n) (computed h k)) as [->| ->]; assumption).
           cbn [bind]. destruct (seq_calls _ h k) as [vs k2]. reflexivity.
        -- rewrite (rep_false _ (computed h k)) by (try assumption; lia). reflexivity.
      * rewrite (rep_false _ (k + Z.to_nat n)%nat) by (try assumption; lia). reflexivity.
Qed.

Lemma calls_spec h : Z.of_nat (computed h 0) < 2 ^ (w - 1) ->
  exists o, LinSpaceZ w first last steps = Ok o /\
  let m := computed h 0 in let fits := in_type w (q * Z.of_nat m) /\ in_type w (int_value first last steps m) in
  (fits -> lin_calls_z w h o = Ok (fst (seq_calls (int_value first last steps) h 0))) /\ (~ fits -> lin_calls_z w h o = UB).
Proof.
  intros Hm. exists (lz 0). split; [exact lz_new|]. cbv zeta. rewrite calls_lz by (try assumption; apply rep_0). rewrite <- rep_spec.
  destruct (rep (computed h 0)); split; intros H; try reflexivity; [now contradiction H|discriminate H].
Qed.

Lemma quot_sign : 0 <= q * (last - first).
Proof.
  unfold q. destruct (Z.le_gt_cases 0 (last - first)) as [P|P].
  - pose proof (Z.quot_pos (last - first) steps P ltac:(lia)). nia.
  - replace (last - first) with (- (first - last)) by lia. rewrite Z.quot_opp_l by lia. pose proof (Z.quot_pos (first - last) steps ltac:(lia) ltac:(lia)). nia.
Qed.

Lemma between i : Z.of_nat i <= steps -> Z.min first last <= int_value first last steps i <= Z.max first last.
Proof.
  intros Hi. unfold int_value. fold q. pose proof quot_le as L. pose proof quot_sign as S.
  assert (Z.abs q * Z.of_nat i <= Z.abs (last - first)) by nia.
  destruct (Z.le_gt_cases 0 (last - first)) as [P|P]; destruct (Z.le_gt_cases 0 q) as [Q|Q]; try nia.
Qed.

Lemma rep_steps i : in_type w last -> Z.of_nat i <= steps -> rep i = true.
Proof.
  intros Hl Hi. apply rep_spec. split.
  - pose proof quot_le as L. pose proof quot_sign as S. assert (Z.abs q * Z.of_nat i <= Z.abs (last - first)) by nia. unfold in_type in *.
    pose proof pow_half. destruct (Z.le_gt_cases 0 (last - first)) as [P|P]; destruct (Z.le_gt_cases 0 q) as [Q|Q]; nia.
  - pose proof (between i Hi). unfold in_type in *. lia.
Qed.

Lemma for_lz : in_type w last -> lin_for_z w (lz 0) = Ok (from (int_value first last steps) 0 (Z.to_nat steps)).
Proof.
  intros Hl. pose proof pow_small. assert (B63 : two63 < 2 ^ 66 - 1) by reflexivity. unfold lin_for_z.
  assert (E0 : LinBegin (lz 0) = lz 0) by (unfold LinBegin, lz, int_value; cbn [li_first li_last li_stepsize li_nsteps]; rewrite Z.mul_0_r, Z.add_0_r; reflexivity).
  rewrite E0.
  pose (I := fun '(it, acc) => exists k, (k <= Z.to_nat steps)%nat /\ it = lz k /\ acc = rev (from (int_value first last steps) 0 k)).
  pose (pos := fun st : linspace Z * list Z => steps - Z.of_nat (length (snd st))).
  refine (while_total _ I (fun r => r = Ok (from (int_value first last steps) 0 (Z.to_nat steps))) pos _ _ _ _).
  - intros [it acc] (k & Hk & -> & ->). unfold LinEq, LinEnd. cbn [li_step lz li_nsteps]. destruct (Z.eqb_spec (Z.of_nat k) steps) as [E|E].
    + rewrite rev_involutive. do 2 f_equal. lia.
    + rewrite incr_lz by lia. rewrite rep_steps by (try assumption; lia). split.
      * exists (S k). split; [lia|]. split; [reflexivity|]. unfold from. rewrite seq_S, map_app, rev_app_distr. reflexivity.
      * unfold pos. cbn [snd length]. rewrite rev_length. unfold from. rewrite map_length, seq_length. lia.
  - exists 0%nat. split; [lia|]. split; reflexivity.
  - unfold pos. cbn [snd length]. lia.
Qed.

Lemma last_value : Z.abs (last - int_value first last steps (Z.to_nat steps)) < steps.
Proof.
  unfold int_value. rewrite Z2Nat.id by lia. pose proof (Z.quot_rem (last - first) steps ltac:(lia)) as E.
  pose proof (Z.rem_bound_abs (last - first) steps ltac:(lia)) as B.
  replace (last - (first + Z.quot (last - first) steps * steps)) with (Z.rem (last - first) steps) by lia. lia.
Qed.
Lemma last_reached : int_value first last steps (Z.to_nat steps) = last <-> (steps | last - first).
Proof.
  unfold int_value. rewrite Z2Nat.id by lia. pose proof (Z.quot_rem (last - first) steps ltac:(lia)) as E. split.
  - intros H. exists (Z.quot (last - first) steps). lia.
  - intros [c Hc]. rewrite Hc, Z.quot_mul by lia. lia.
Qed.
Lemma spacing_zero : Z.abs (last - first) < steps -> forall i, int_value first last steps i = first.
Proof.
  intros H i. unfold int_value. fold q. pose proof quot_le. assert (Z.abs q = 0) by nia. assert (q = 0) as -> by lia. lia.
Qed.
Lemma spacing_const i : int_value first last steps (S i) - int_value first last steps i = Z.quot (last - first) steps.
Proof. unfold int_value. lia. Qed.
End LZ.
