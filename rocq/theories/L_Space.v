(** Lemmas about LinSpace and LogSpace. *)
From Coq Require Import ZArith Reals List Lia Lra Bool Psatz.
From Flocq Require Import Core.Core Relative IEEE754.BinarySingleNaN.
From Verif Require Import Base F64 Num L_MathF L_Accum L_Approx M_Space S_Space.
Import ListNotations.
Open Scope Z_scope.

(** * Any generator *)
Section Gen.
Context {obj T : Type} (deref : obj -> T) (incr : obj -> obj).

Fixpoint iter (k : nat) (o : obj) : obj := match k with O => o | S k' => incr (iter k' o) end.

Lemma iter_incr k o : iter k (incr o) = incr (iter k o).
Proof. induction k; cbn [iter]; congruence. Qed.

Lemma generate_from n : forall k o,
  generate deref incr n (iter k o) = from (fun i => deref (iter i o)) k n.
Proof.
  unfold from. induction n as [|n IH]; intros k o; [reflexivity|].
  cbn [generate seq map]. unfold SpCall. f_equal.
  change (incr (iter k o)) with (iter (S k) o). apply IH.
Qed.

Lemma sp_calls_seq o h : forall k,
  let '(vs, k') := seq_calls (fun i => deref (iter i o)) h k in
  sp_calls deref incr h (iter k o) = (vs, iter k' o).
Proof.
  induction h as [|c h IH]; intros k; [reflexivity|]. cbn [seq_calls sp_calls].
  destruct c as [| | | |n]; cbn [seq_call sp_call SpCall SpPost].
  1,2,3: specialize (IH (S k)); destruct (seq_calls _ h (S k)) as [vs k']; change (incr (iter k o)) with (iter (S k) o);
    now rewrite IH.
  - specialize (IH k). destruct (seq_calls _ h k) as [vs k']. now rewrite IH.
  - specialize (IH k). destruct (seq_calls _ h k) as [vs k']. unfold SpCollect. now rewrite generate_from, IH.
Qed.

Lemma sp_for_ok (eq : obj -> obj -> bool) b e (n : nat) : Z.of_nat n < two64 ->
  (forall k, (k < n)%nat -> eq (iter k b) e = false) -> eq (iter n b) e = true ->
  sp_for deref incr eq b e = Ok (from (fun i => deref (iter i b)) 0 n).
Proof.
  intros Hn Hne He. unfold sp_for.
  pose (I := fun '(it, acc) => exists k, (k <= n)%nat /\ it = iter k b /\ acc = rev (from (fun i => deref (iter i b)) 0 k)).
  pose (pos := fun st : obj * list T => Z.of_nat n - Z.of_nat (length (snd st))).
  refine (while_total _ I (fun r => r = Ok (from (fun i => deref (iter i b)) 0 n)) pos _ _ _ _).
  - intros [it acc] (k & Hk & -> & ->). destruct (eq (iter k b) e) eqn:E.
    + assert (k = n) as ->. { destruct (Nat.eq_dec k n); [assumption|]. rewrite Hne in E by lia. discriminate. }
      now rewrite rev_involutive.
    + assert (Hk' : (k < n)%nat) by (destruct (Nat.eq_dec k n); [subst; congruence|lia]).
      split.
      * exists (S k). split; [lia|]. split; [reflexivity|]. unfold from. rewrite seq_S, map_app, rev_app_distr. reflexivity.
      * subst pos. cbn [snd length]. unfold from. rewrite rev_length, map_length, seq_length. lia.
  - exists O. split; [lia|]. split; reflexivity.
  - subst pos. cbn [snd length]. rewrite two64_eq in Hn. lia.
Qed.
End Gen.

(** * LinSpace *)
Section Lin.
Context {T : Type} (N : num T) (first last : T) (steps : Z).

Lemma lin_iter k :
  iter (LinIncr N) k (LinSpace N first last steps) =
  mkLin (lin_value N first last steps k) first last (n_div N (n_sub N last first) (n_ofZ N steps)) steps (u64 (Z.of_nat k)).
Proof.
  induction k as [|k IH]; [reflexivity|]. cbn [iter]. rewrite IH. unfold LinIncr.
  cbn [li_step li_first li_last li_stepsize li_nsteps].
  replace (u64 (u64 (Z.of_nat k) + 1)) with (u64 (Z.of_nat (S k)));
    [reflexivity|]. unfold u64. rewrite Zplus_mod_idemp_l. f_equal. lia.
Qed.

Lemma lin_begin k : LinBegin (iter (LinIncr N) k (LinSpace N first last steps)) = LinSpace N first last steps.
Proof. rewrite lin_iter. reflexivity. Qed.

Lemma lin_end k : LinEnd (iter (LinIncr N) k (LinSpace N first last steps)) =
  mkLin last first last (n_div N (n_sub N last first) (n_ofZ N steps)) steps steps.
Proof. rewrite lin_iter. reflexivity. Qed.
End Lin.

(** ** Doubles: the values never decrease *)

Lemma fadd_cases x y : fin x -> fin y ->
  (fin (fadd x y) /\ RR (fadd x y) = rnd (RR x + RR y)) \/
  (inf (fadd x y) /\ (fmax <= Rabs (rnd (RR x + RR y)))%R /\ Bsign (fadd x y) = Bsign x /\ Bsign x = Bsign y).
Proof.
  intros Fx Fy. pose proof (Bplus_correct 53 1024 _ _ mode_NE x y Fx Fy) as C.
  change (round radix2 (SpecFloat.fexp 53 1024) (round_mode mode_NE) (B2R x + B2R y)) with (rnd (RR x + RR y)) in C.
  destruct (Rlt_bool_spec (Rabs (rnd (RR x + RR y))) (bpow radix2 1024)) as [Hb|Hb].
  - left. destruct C as (A & B & _). split; [exact B|exact A].
  - right. destruct C as [C S]. split; [eapply overflow_inf, C|]. split; [exact Hb|].
    split; [|exact S]. change (Bplus mode_NE x y) with (fadd x y) in C.
    destruct (fadd x y) as [|s| |]; try discriminate C. cbn in C. injection C as ->. reflexivity.
Qed.

Lemma fadd_inf_r x : fin x -> fadd x finf = finf.
Proof. intros F. destruct x; try discriminate F; reflexivity. Qed.

(** Adding something not negative. *)
Lemma fadd_not_nan x p : fin x -> nonneg p -> is_nan (fadd x p) = false.
Proof.
  intros F H. apply nonneg_cases in H. destruct H as [[Fp _]| ->]; [|now rewrite fadd_inf_r].
  destruct (fadd_cases x p F Fp) as [[F' _]|[I _]]; [now apply fin_not_nan|].
  rewrite <- is_nan_fabs. unfold inf in I. now rewrite I.
Qed.

Lemma inf_pos x : inf x -> Bsign x = false -> x = finf.
Proof. unfold inf. destruct x as [|[]| |]; cbn; intros; try discriminate; reflexivity. Qed.

Lemma fadd_mono x p q : fin x -> nonneg p -> fle p q = true -> fle (fadd x p) (fadd x q) = true.
Proof.
  intros F Hp Hq. assert (Hq' : nonneg q) by (unfold nonneg in *; eapply fle_trans; eauto).
  pose proof (fadd_not_nan x p F Hp) as Np. pose proof (fadd_not_nan x q F Hq') as Nq.
  apply nonneg_cases in Hp. apply nonneg_cases in Hq'.
  destruct Hq' as [[Fq Pq]| ->]; [|rewrite fadd_inf_r by assumption; now apply fle_finf].
  destruct Hp as [[Fp Pp]| ->].
  2:{ exfalso. destruct q as [|[]| |[]]; try discriminate Fq; discriminate Hq. }
  apply fle_R in Hq; auto.
  destruct (fadd_cases x q F Fq) as [[F2 E2]|(I2 & B2 & S2 & S3)].
  - destruct (fadd_cases x p F Fp) as [[F1 E1]|(I1 & B1 & S1 & S1')].
    + apply fle_R; auto. rewrite E1, E2. apply rnd_le. lra.
    + (* x + p overflows although x + q does not: both negative, impossible *)
      exfalso. pose proof (RR_lt_fmax (fadd x q)) as L. rewrite E2 in L. apply Rabs_lt_inv in L.
      assert (Hx : (Rabs (rnd (RR x + RR p)) = - rnd (RR x + RR p))%R \/ (Rabs (rnd (RR x + RR p)) = rnd (RR x + RR p))%R).
      { unfold Rabs. destruct (Rcase_abs _); auto. }
      assert (rnd (RR x + RR p) <= rnd (RR x + RR q))%R by (apply rnd_le; lra).
      destruct Hx as [Hx|Hx]; [|lra].
      assert (- rnd (RR x + RR p) <= Rabs (RR x))%R; [|pose proof (RR_lt_fmax x); lra].
      rewrite <- rnd_opp. apply rnd_le_fmt; [apply fmt_abs, fmt_RR|].
      unfold Rabs. destruct (Rcase_abs (RR x)); lra.
  - assert (fadd x q = finf) as ->; [|now apply fle_finf].
    apply inf_pos; [exact I2|]. rewrite S2, S3.
    assert (0 < RR q)%R; [|now apply sign_pos].
    destruct Pq as [Pq|Pq]; [exact Pq|]. exfalso. rewrite <- Pq, Rplus_0_r, rnd_fmt in B2 by apply fmt_RR.
    pose proof (RR_lt_fmax x). lra.
Qed.

Lemma fadd_ge x p : fin x -> nonneg p -> fle x (fadd x p) = true.
Proof.
  intros F Hp. pose proof (fadd_not_nan x p F Hp) as Np. apply nonneg_cases in Hp.
  destruct Hp as [[Fp Pp]| ->]; [|rewrite fadd_inf_r by assumption; apply fle_finf; now apply fin_not_nan].
  destruct (fadd_cases x p F Fp) as [[F2 E2]|(I2 & B2 & S2 & S3)].
  - apply fle_R; auto. rewrite E2. apply rnd_ge_fmt; [apply fmt_RR|lra].
  - assert (fadd x p = finf) as ->; [|apply fle_finf; now apply fin_not_nan].
    apply inf_pos; [exact I2|]. rewrite S2, S3.
    assert (0 < RR p)%R; [|now apply sign_pos].
    destruct Pp as [Pq|Pq]; [exact Pq|]. exfalso. rewrite <- Pq, Rplus_0_r, rnd_fmt in B2 by apply fmt_RR.
    pose proof (RR_lt_fmax x). lra.
Qed.

(** The step size is not negative. *)
Lemma fdiv_nonneg_gen x y : nonneg x -> flt f0 x = true -> nonneg y -> fin y -> Bsign y = false -> nonneg (fdiv x y).
Proof.
  intros Hx Px Hy Fy Sy. apply nonneg_cases in Hx. destruct Hx as [[Fx _]| ->].
  - apply flt_R in Px; [|reflexivity|assumption]. change (RR f0) with 0%R in Px.
    destruct (Req_dec (RR y) 0) as [E|E].
    + destruct y as [[]| | |sy my ey By]; try discriminate Fy; try discriminate Sy.
      * destruct x as [|?| |[] mx ex Bx]; try discriminate Fx; cbn in Px; try lra; [|reflexivity].
        exfalso. apply (Rlt_not_le _ _ Px). left. now apply F2R_lt_0.
      * exfalso. apply nonneg_cases in Hy. unfold RR, B2R in E. cbn in Sy. subst sy.
        pose proof (F2R_gt_0 radix2 (Float radix2 (Zpos my) ey) eq_refl) as K. cbn [SpecFloat.cond_Zopp] in E. lra.
    + assert (Py : (0 < RR y)%R).
      { apply nonneg_cases in Hy. destruct Hy as [[_ Hy]|Hy]; [|subst; discriminate]. lra. }
      apply nonneg_cases. unfold fdiv. pose proof (Bdiv_correct 53 1024 _ _ mode_NE x y E) as C.
      change (round radix2 (SpecFloat.fexp 53 1024) (round_mode mode_NE) (B2R x / B2R y)) with (rnd (RR x / RR y)) in C.
      destruct (Rlt_bool_spec (Rabs (rnd (RR x / RR y))) (bpow radix2 1024)) as [Hb|Hb].
      * left. destruct C as (A & B & _). split; [unfold fin; now rewrite B|]. unfold RR at 1. rewrite A.
        apply rnd_pos. apply Rmult_le_pos; [lra|left; now apply Rinv_0_lt_compat].
      * right. apply overflow_finf. rewrite C. now rewrite (sign_pos x Px), (sign_pos y Py).
  - destruct y as [[]| | |[]]; try discriminate Fy; try discriminate Sy; reflexivity.
Qed.

Lemma of_Z_nonneg z : 0 <= z < two64 -> nonneg (of_Z z) /\ fin (of_Z z) /\ Bsign (of_Z z) = false.
Proof.
  intros H. destruct (of_Z_ok z) as [E F].
  { rewrite Z.abs_eq by lia. rewrite two64_eq in H. apply Z.le_trans with (2 ^ 64); [lia|]. apply Z.pow_le_mono_r; lia. }
  assert (P : (0 <= RR (of_Z z))%R) by (rewrite E; apply rnd_pos, (IZR_le 0); lia).
  split; [apply nonneg_cases; left; auto|]. split; [exact F|].
  destruct (Z.eq_dec z 0) as [->|Nz]; [reflexivity|].
  apply sign_pos. apply Rlt_le_trans with 1%R; [lra|]. rewrite E. apply rnd_ge_fmt; [apply (fmt_IZR 1); cbn; lia|].
  apply (IZR_le 1). lia.
Qed.

Lemma of_Z_mono a b : 0 <= a <= b -> b < two64 -> fle (of_Z a) (of_Z b) = true.
Proof.
  intros H Hb. destruct (of_Z_ok a) as [Ea Fa].
  { rewrite Z.abs_eq by lia. rewrite two64_eq in Hb. apply Z.le_trans with (2 ^ 64); [lia|]. apply Z.pow_le_mono_r; lia. }
  destruct (of_Z_ok b) as [Eb Fb].
  { rewrite Z.abs_eq by lia. rewrite two64_eq in Hb. apply Z.le_trans with (2 ^ 64); [lia|]. apply Z.pow_le_mono_r; lia. }
  apply fle_R; auto. rewrite Ea, Eb. apply rnd_le, IZR_le. lia.
Qed.

Lemma lin_stepsize first last steps : fin first -> flt first last = true -> 0 <= steps < two64 ->
  nonneg (fdiv (fsub last first) (of_Z steps)).
Proof.
  intros F L Hs. destruct (of_Z_nonneg steps Hs) as (H1 & H2 & H3).
  assert (P : flt f0 (fsub last first) = true).
  { destruct (fin_or_not last) as [Fl|[Il|Nl]].
    - apply flt_R in L; auto. pose proof (rnd_diff_pos _ _ (fmt_RR first) (fmt_RR last) L) as D.
      destruct (fsub_cases last first Fl F) as [[F' E']|[I' B']].
      + apply flt_R; [reflexivity|exact F'|]. rewrite E'. exact D.
      + assert (fsub last first = finf) as ->; [|reflexivity].
        apply inf_pos; [exact I'|].
        pose proof (Bminus_correct 53 1024 _ _ mode_NE last first Fl F) as C.
        change (round radix2 (SpecFloat.fexp 53 1024) (round_mode mode_NE) (B2R last - B2R first)) with (rnd (RR last - RR first)) in C.
        destruct (Rlt_bool_spec (Rabs (rnd (RR last - RR first))) (bpow radix2 1024)) as [Hb|Hb];
          [unfold fmax in B'; lra|].
        destruct C as [C S]. change (Bminus mode_NE last first) with (fsub last first) in C.
        destruct (fsub last first) as [|s| |]; try discriminate C. cbn in C. injection C as ->. cbn [Bsign].
        destruct (Rle_lt_dec 0 (RR last)) as [P|P].
        * destruct P as [P|P]; [now apply sign_pos|].
          rewrite S. rewrite sign_neg; [reflexivity|]. lra.
        * exfalso. rewrite Rabs_pos_eq in Hb by lra.
          assert (rnd (RR last - RR first) <= - RR first)%R.
          { apply rnd_le_fmt; [apply fmt_opp, fmt_RR|lra]. }
          pose proof (RR_lt_fmax first) as K. apply Rabs_lt_inv in K. unfold fmax in K. lra.
    - unfold inf in Il. destruct last as [|[]| |]; try discriminate Il; destruct first; try discriminate F;
        try discriminate L; reflexivity.
    - apply flt_not_nan in L. destruct L. congruence. }
  apply fdiv_nonneg_gen; auto. apply flt_nonneg. exact P.
Qed.

Lemma fmul_nonneg_pos s i : nonneg s -> 1 <= i < two64 -> nonneg (fmul s (of_Z i)).
Proof.
  intros Hs Hi. destruct (of_Z_nonneg i ltac:(lia)) as (H1 & H2 & H3).
  assert (P : (1 <= RR (of_Z i))%R).
  { destruct (of_Z_ok i) as [E F].
    { rewrite Z.abs_eq by lia. rewrite two64_eq in Hi. apply Z.le_trans with (2 ^ 64); [lia|]. apply Z.pow_le_mono_r; lia. }
    rewrite E. apply rnd_ge_fmt; [apply (fmt_IZR 1); cbn; lia|]. apply (IZR_le 1). lia. }
  apply nonneg_cases in Hs. destruct Hs as [[Fs Ps]| ->].
  - apply fmul_nonneg; auto. apply Rmult_le_pos; lra.
  - destruct (of_Z i) as [?|?| |[]]; try discriminate H2; try discriminate H3; [cbn in P; lra|reflexivity].
Qed.

Lemma fmul_mono_r s i j : nonneg s -> 1 <= i <= j -> j < two64 -> fle (fmul s (of_Z i)) (fmul s (of_Z j)) = true.
Proof.
  intros Hs Hi Hj. pose proof (fmul_nonneg_pos s i Hs ltac:(lia)) as Ni. pose proof (fmul_nonneg_pos s j Hs ltac:(lia)) as Nj.
  pose proof (of_Z_mono i j ltac:(lia) Hj) as M.
  destruct (of_Z_nonneg i ltac:(lia)) as (I1 & I2 & I3). destruct (of_Z_nonneg j ltac:(lia)) as (J1 & J2 & J3).
  apply fle_R in M; auto.
  apply nonneg_cases in Hs. destruct Hs as [[Fs Ps]| ->].
  - destruct (fmul_cases s (of_Z j) Fs J2) as [[F E]|[I _]].
    + destruct (fmul_cases s (of_Z i) Fs I2) as [[F' E']|[_ B]].
      * apply fle_R; auto. rewrite E, E'. apply rnd_le. apply Rmult_le_compat_l; auto.
      * exfalso. pose proof (RR_lt_fmax (fmul s (of_Z j))) as K. rewrite E in K.
        apply nonneg_cases in I1. destruct I1 as [[_ I1]|I1]; [|rewrite I1 in I2; discriminate].
        rewrite <- rnd_abs, Rabs_pos_eq in B by (apply Rmult_le_pos; auto).
        rewrite <- rnd_abs, Rabs_pos_eq in K by (apply Rmult_le_pos; lra).
        assert (rnd (RR s * RR (of_Z i)) <= rnd (RR s * RR (of_Z j)))%R by (apply rnd_le, Rmult_le_compat_l; auto). lra.
    + assert (fmul s (of_Z j) = finf) as ->; [|apply fle_finf; now apply fle_not_nan in Ni].
      apply nonneg_cases in Nj. destruct Nj as [[F _]|Nj]; [|exact Nj]. exfalso. unfold inf in I.
      destruct (fmul s (of_Z j)); try discriminate I; discriminate F.
  - assert (H1 : fmul finf (of_Z j) = finf).
    { apply nonneg_cases in Nj. destruct Nj as [[F _]|Nj]; [|exact Nj]. destruct (of_Z j) as [?|?| |?]; try discriminate J2; discriminate F. }
    rewrite H1. apply fle_finf. now apply fle_not_nan in Ni.
Qed.

Lemma lin_value_mono first last steps i j : fin first -> flt first last = true -> 0 <= steps < two64 ->
  (i <= j)%nat -> Z.of_nat j < two64 ->
  fle (lin_value numF first last steps i) (lin_value numF first last steps j) = true.
Proof.
  intros F L Hs Hij Hj. pose proof (lin_stepsize _ _ _ F L Hs) as N.
  destruct j as [|j]; [assert (i = O) as -> by lia; apply fle_refl, fin_not_nan, F|].
  unfold lin_value. rewrite (u64_small (Z.of_nat (S j))) by lia.
  destruct i as [|i].
  - apply fadd_ge; [exact F|]. apply fmul_nonneg_pos; [exact N|lia].
  - rewrite u64_small by lia. apply fadd_mono; [exact F| |].
    + apply fmul_nonneg_pos; [exact N|lia].
    + apply fmul_mono_r; [exact N|lia|lia].
Qed.

(** ** Doubles: distance to the equally spaced values *)

Lemma Rabs_near a b e : (Rabs (a - b) <= e -> Rabs a <= Rabs b + e)%R.
Proof. intros H. replace a with (b + (a - b))%R by ring. eapply Rle_trans; [apply Rabs_triang|]. lra. Qed.

Lemma Rabs_chain a b c e f : (Rabs (a - b) <= e -> Rabs (b - c) <= f -> Rabs (a - c) <= e + f)%R.
Proof. intros H1 H2. replace (a - c)%R with ((a - b) + (b - c))%R by ring. eapply Rle_trans; [apply Rabs_triang|]. lra. Qed.

Lemma eta_small : (eta <= bpow radix2 (-54))%R.
Proof. apply bpow_le. lia. Qed.

Lemma lin_value_error first last steps i : fin first -> fin last ->
  (Rabs (RR first) <= bpow radix2 1020)%R -> (Rabs (RR last) <= bpow radix2 1020)%R ->
  1 <= steps <= 2 ^ 53 -> (Z.of_nat i <= steps)%Z ->
  let v := lin_value numF first last steps i in
  fin v /\
  (Rabs (RR v - (RR first + (RR last - RR first) * IZR (Z.of_nat i) / IZR steps)) <=
   5 * uro * (Rabs (RR first) + Rabs (RR last)) + (4 * IZR (Z.of_nat i) + 2) * eta)%R.
Proof.
  intros Ff Fl Bf Bl Hs Hi v.
  pose proof uro_pos as U0. pose proof uro_small as U1. assert (E0 : (0 < eta)%R) by apply bpow_gt_0.
  set (x := RR first) in *. set (y := RR last) in *. set (A := (Rabs x + Rabs y)%R).
  pose proof (Rabs_pos x) as Px. pose proof (Rabs_pos y) as Py.
  assert (PA : (0 <= A)%R) by (unfold A; lra).
  destruct i as [|i].
  { subst v. unfold lin_value. split; [exact Ff|]. fold x. cbn [Z.of_nat]. unfold Rdiv. rewrite Rmult_0_r, Rmult_0_l, Rplus_0_r.
    unfold Rminus. rewrite Rplus_opp_r, Rabs_R0. assert (0 <= 5 * uro * A)%R by nra. lra. }
  set (k := Z.of_nat (S i)) in *. assert (Hk : 1 <= k) by (unfold k; lia).
  subst v. unfold lin_value. fold k. rewrite u64_small by (rewrite two64_eq; lia).
  cbn [numF n_add n_mul n_div n_sub n_ofZ].
  destruct (of_Z_exact k) as [Ek Fk]; [rewrite Z.abs_eq; lia|].
  destruct (of_Z_exact steps) as [En Fn]; [rewrite Z.abs_eq; lia|].
  set (n := IZR steps) in *. assert (Pn : (1 <= n)%R) by (apply (IZR_le 1); lia).
  assert (Pk : (1 <= IZR k <= n)%R) by (split; [apply (IZR_le 1)|apply IZR_le]; lia).
  assert (Kb : (IZR k <= bpow radix2 53)%R) by (change (bpow radix2 53) with (IZR (2 ^ 53)); apply IZR_le; lia).
  set (t := (IZR k / n)%R).
  assert (Ht : (0 <= t <= 1)%R).
  { unfold t. split; [apply Rmult_le_pos; [lra|left; apply Rinv_0_lt_compat; lra]|].
    apply (Rmult_le_reg_r n); [lra|]. unfold Rdiv. rewrite Rmult_assoc, Rinv_l by lra. lra. }
  set (D := (y - x)%R). assert (HD : (Rabs D <= A)%R) by (unfold D, A, Rminus; eapply Rle_trans; [apply Rabs_triang|]; rewrite Rabs_Ropp; lra).
  assert (B21 : (A <= bpow radix2 1021)%R).
  { unfold A. change 1021 with (1 + 1020). rewrite bpow_plus. change (bpow radix2 1) with 2%R. lra. }
  (* d *)
  destruct (fsub_ok last first Fl Ff) as [Ed Fd].
  { apply no_overflow with 1021; [lia|]. fold x y. fold D. lra. }
  fold x y in Ed. fold D in Ed. set (d := fsub last first) in *.
  assert (Hd : (Rabs (RR d - D) <= uro * A)%R).
  { rewrite Ed. unfold D. eapply Rle_trans; [apply minus_err; apply fmt_RR|]. fold D. apply Rmult_le_compat_l; lra. }
  assert (Hd' : (Rabs (RR d) <= (1 + uro) * A)%R).
  { pose proof (Rabs_near _ _ _ Hd). nra. }
  (* q *)
  assert (Bd : (Rabs (RR d) <= bpow radix2 1021)%R).
  { rewrite Ed. apply rnd_abs_le; [apply fmt_bpow; lia|]. lra. }
  assert (Hdn : (Rabs (RR d / n) <= Rabs (RR d))%R).
  { unfold Rdiv. rewrite Rabs_mult. rewrite <- (Rmult_1_r (Rabs (RR d))) at 2. apply Rmult_le_compat_l; [apply Rabs_pos|].
    rewrite Rabs_pos_eq by (left; apply Rinv_0_lt_compat; lra). rewrite <- Rinv_1. apply Rinv_le; lra. }
  destruct (fdiv_ok d (of_Z steps) Fd) as [Eq Fq].
  { rewrite En. lra. }
  { rewrite En. apply no_overflow with 1021; [lia|]. lra. }
  rewrite En in Eq. set (q := fdiv d (of_Z steps)) in *.
  assert (Hq : (Rabs (RR q - RR d / n) <= uro * Rabs (RR d / n) + eta)%R) by (rewrite Eq; apply rnd_err).
  assert (Hqk : (Rabs (RR q * IZR k - RR d * t) <= uro * ((1 + uro) * A) + IZR k * eta)%R).
  { replace (RR q * IZR k - RR d * t)%R with ((RR q - RR d / n) * IZR k)%R by (unfold t; field; lra).
    rewrite Rabs_mult, (Rabs_pos_eq (IZR k)) by lra.
    apply Rle_trans with ((uro * Rabs (RR d / n) + eta) * IZR k)%R; [apply Rmult_le_compat_r; lra|].
    rewrite Rmult_plus_distr_r. apply Rplus_le_compat; [|lra].
    rewrite Rmult_assoc. apply Rmult_le_compat_l; [lra|].
    replace (Rabs (RR d / n) * IZR k)%R with (Rabs (RR d) * t)%R.
    - apply Rle_trans with (Rabs (RR d) * 1)%R; [apply Rmult_le_compat_l; [apply Rabs_pos|lra]|lra].
    - unfold t, Rdiv. rewrite Rabs_mult, (Rabs_pos_eq (/ n)) by (left; apply Rinv_0_lt_compat; lra). ring. }
  assert (Hdt : (Rabs (RR d * t - D * t) <= uro * A)%R).
  { replace (RR d * t - D * t)%R with ((RR d - D) * t)%R by ring. rewrite Rabs_mult, (Rabs_pos_eq t) by lra.
    apply Rle_trans with (Rabs (RR d - D) * 1)%R; [apply Rmult_le_compat_l; [apply Rabs_pos|lra]|lra]. }
  assert (Hke : (IZR k * eta <= / 4)%R).
  { apply Rle_trans with (bpow radix2 53 * bpow radix2 (-1075))%R; [apply Rmult_le_compat; try lra; apply Rle_refl|].
    rewrite <- bpow_plus. change (/ 4)%R with (bpow radix2 (-2)). apply bpow_le. lia. }
  assert (HDt : (Rabs (D * t) <= A)%R).
  { rewrite Rabs_mult, (Rabs_pos_eq t) by lra. apply Rle_trans with (Rabs D * 1)%R; [apply Rmult_le_compat_l; [apply Rabs_pos|lra]|lra]. }
  pose proof (Rabs_chain _ _ _ _ _ Hqk Hdt) as Hqd.
  pose proof (Rabs_near _ _ _ Hqd) as Nq.
  assert (UA : (uro * A <= / 1000000 * A)%R) by (apply Rmult_le_compat_r; lra).
  assert (UU : (uro * uro <= / 1000000 * uro)%R) by (apply Rmult_le_compat_r; lra).
  assert (UUA : (uro * uro * A <= / 1000000 * (uro * A))%R) by (rewrite <- Rmult_assoc; apply Rmult_le_compat_r; lra).
  assert (UAp : (0 <= uro * A)%R) by (apply Rmult_le_pos; lra).
  (* p *)
  destruct (fmul_ok q (of_Z k) Fq Fk) as [Ep Fp].
  { rewrite Ek. apply no_overflow with 1023; [lia|].
    apply Rle_trans with (2 * bpow radix2 1021 + 1)%R; [nra|].
    change 1023 with (2 + 1021). rewrite (bpow_plus radix2 2 1021). change (bpow radix2 2) with 4%R.
    assert (1 <= bpow radix2 1021)%R by (change 1%R with (bpow radix2 0); apply bpow_le; lia). lra. }
  rewrite Ek in Ep. set (p := fmul q (of_Z k)) in *.
  assert (Hp : (Rabs (RR p - RR q * IZR k) <= uro * Rabs (RR q * IZR k) + eta)%R) by (rewrite Ep; apply rnd_err).
  pose proof (Rabs_chain _ _ _ _ _ Hp Hqd) as HpD.
  assert (UN : (uro * Rabs (RR q * IZR k) <= uro * (A + (uro * ((1 + uro) * A) + IZR k * eta + uro * A)))%R).
  { apply Rmult_le_compat_l; lra. }
  assert (UK : (uro * (IZR k * eta) <= / 1000000 * (IZR k * eta))%R).
  { apply Rmult_le_compat_r; [apply Rmult_le_pos; lra|lra]. }
  assert (HpD2 : (Rabs (RR p - D * t) <= 31 / 10 * uro * A + (2 * IZR k + 1) * eta)%R).
  { assert (U3 : (uro * (uro * uro * A) <= / 1000000 * (uro * A))%R).
    { apply Rmult_le_compat; try lra. apply Rmult_le_pos; [apply Rmult_le_pos; lra|lra]. }
    assert (KE : (0 <= IZR k * eta)%R) by (apply Rmult_le_pos; lra).
    replace (uro * ((1 + uro) * A))%R with (uro * A + uro * uro * A)%R in * by ring.
    replace (uro * (A + (uro * A + uro * uro * A + IZR k * eta + uro * A)))%R with
      (uro * A + 2 * (uro * uro * A) + uro * (uro * uro * A) + uro * (IZR k * eta))%R in UN by ring.
    lra. }
  (* v *)
  assert (HxD : (Rabs (x + D * t) <= A)%R).
  { replace (x + D * t)%R with (x * (1 - t) + y * t)%R by (unfold D; ring). eapply Rle_trans; [apply Rabs_triang|].
    rewrite !Rabs_mult, (Rabs_pos_eq t), (Rabs_pos_eq (1 - t)) by lra. unfold A. nra. }
  assert (Hxp : (Rabs (x + RR p) <= A + (31 / 10 * uro * A + (2 * IZR k + 1) * eta))%R).
  { apply Rle_trans with (Rabs (x + D * t) + (31 / 10 * uro * A + (2 * IZR k + 1) * eta))%R; [|lra].
    apply Rabs_near. replace (x + RR p - (x + D * t))%R with (RR p - D * t)%R by ring. exact HpD2. }
  assert (E4 : (eta <= / 4)%R).
  { change (/ 4)%R with (bpow radix2 (-2)). apply bpow_le. lia. }
  destruct (fadd_ok first p Ff Fp) as [Ev Fv].
  { apply no_overflow with 1023; [lia|]. fold x.
    apply Rle_trans with (2 * bpow radix2 1021 + 1)%R; [nra|].
    change 1023 with (2 + 1021). rewrite (bpow_plus radix2 2 1021). change (bpow radix2 2) with 4%R.
    assert (1 <= bpow radix2 1021)%R by (change 1%R with (bpow radix2 0); apply bpow_le; lia). lra. }
  fold x in Ev. split; [exact Fv|].
  assert (Hv : (Rabs (RR (fadd first p) - (x + RR p)) <= uro * Rabs (x + RR p))%R).
  { rewrite Ev. apply plus_err; apply fmt_RR. }
  replace (x + D * IZR k / n)%R with (x + D * t)%R by (unfold t; field; lra).
  apply Rle_trans with (uro * Rabs (x + RR p) + (31 / 10 * uro * A + (2 * IZR k + 1) * eta))%R.
  { eapply Rabs_chain; [exact Hv|]. replace (x + RR p - (x + D * t))%R with (RR p - D * t)%R by ring. exact HpD2. }
  assert (UV : (uro * Rabs (x + RR p) <= uro * (A + (31 / 10 * uro * A + (2 * IZR k + 1) * eta)))%R)
    by (apply Rmult_le_compat_l; lra).
  assert (UE : (uro * ((2 * IZR k + 1) * eta) <= / 1000000 * ((2 * IZR k + 1) * eta))%R).
  { apply Rmult_le_compat_r; [apply Rmult_le_pos; lra|lra]. }
  replace (uro * (A + (31 / 10 * uro * A + (2 * IZR k + 1) * eta)))%R with
    (uro * A + 31 / 10 * (uro * uro * A) + uro * ((2 * IZR k + 1) * eta))%R in UV by field.
  assert (KE : (0 <= (2 * IZR k + 1) * eta)%R) by (apply Rmult_le_pos; lra).
  lra.
Qed.

(** ** Exact arithmetic *)

Lemma lin_value_R (first last : R) steps i : Z.of_nat i < two64 ->
  lin_value numR first last steps i = (first + (last - first) / IZR steps * IZR (Z.of_nat i))%R.
Proof.
  intros Hi. destruct i as [|i]; unfold lin_value.
  - cbn [Z.of_nat]. ring.
  - rewrite u64_small by lia. reflexivity.
Qed.

(** * LogSpace *)

Lemma log_iter {T} (N : num T) b f l n k :
  iter (LogIncr N) k (mkLog b f f l n 0) = mkLog b (log_value N f b k) f l n (u64 (Z.of_nat k)).
Proof.
  induction k as [|k IH]; [reflexivity|]. cbn [iter]. rewrite IH. unfold LogIncr.
  cbn [lo_base lo_current lo_first lo_last lo_nsteps lo_step log_value]. f_equal.
  unfold u64. rewrite Zplus_mod_idemp_l. f_equal. lia.
Qed.

Lemma log_value_R f b k : log_value numR f b k = (f * b ^ k)%R.
Proof. induction k as [|k IH]; cbn [log_value pow numR n_mul]; [ring|]. rewrite IH. ring. Qed.

(** Exact pow, log and e. *)
Definition transcR : transc R := mkTransc R Rpower ln (exp 1).

Lemma log_base_R f l n : log_base numR transcR f l n = exp ((ln l - ln f) / IZR n).
Proof. unfold log_base, transcR. cbn [t_pow t_log t_e numR n_div n_sub n_ofZ]. unfold Rpower. rewrite ln_exp. f_equal. ring. Qed.

Lemma exp_pow x k : (exp x ^ k = exp (x * INR k))%R.
Proof.
  induction k as [|k IH]; [cbn [pow INR]; now rewrite Rmult_0_r, exp_0|].
  rewrite S_INR. cbn [pow]. rewrite IH, <- exp_plus. f_equal. ring.
Qed.

Lemma log_exact f l n k : (0 < f)%R -> (0 < l)%R -> 1 <= n ->
  log_value numR f (log_base numR transcR f l n) k = (f * Rpower (l / f) (INR k / IZR n))%R.
Proof.
  intros Hf Hl Hn. assert (Pn : (1 <= IZR n)%R) by (apply (IZR_le 1); lia).
  rewrite log_value_R, log_base_R, exp_pow. unfold Rpower. f_equal. f_equal.
  unfold Rdiv at 3. rewrite ln_mult, ln_Rinv by (auto; now apply Rinv_0_lt_compat). field. lra.
Qed.

(** ** Doubles *)

Lemma log_value_pos f b k : flt f0 f = true -> fle f1 b = true -> flt f0 (log_value numF f b k) = true /\
  fle (log_value numF f b k) (log_value numF f b (S k)) = true.
Proof.
  intros Hf Hb.
  assert (S : forall x, flt f0 x = true -> flt f0 (fmul x b) = true /\ fle x (fmul x b) = true).
  { clear k. intros x Hx.
    assert (Nx : nonneg x) by now apply flt_nonneg.
    apply nonneg_cases in Nx.
    assert (Bp : nonneg b) by (unfold nonneg; eapply fle_trans; [|exact Hb]; reflexivity).
    apply nonneg_cases in Bp. destruct Bp as [[Fb Pb]| ->].
    - apply fle_R in Hb; [|exact fin_f1|exact Fb]. rewrite RR_f1 in Hb.
      destruct Nx as [[Fx _]| ->].
      + apply flt_R in Hx; [|reflexivity|exact Fx]. change (RR f0) with 0%R in Hx.
        assert (Hle : (RR x <= RR x * RR b)%R) by nra.
        destruct (fmul_cases x b Fx Fb) as [[F E]|[I B]].
        * assert (RR x <= RR (fmul x b))%R by (rewrite E; apply rnd_ge_fmt; [apply fmt_RR|lra]).
          split; [apply flt_R; [reflexivity|exact F|]; change (RR f0) with 0%R; lra|apply fle_R; auto].
        * assert (fmul x b = finf) as ->.
          { pose proof (fmul_nonneg x b Fx Fb ltac:(nra)) as Np. apply nonneg_cases in Np.
            destruct Np as [[F _]|Np]; [|exact Np]. unfold inf in I. destruct (fmul x b); try discriminate I; discriminate F. }
          split; [reflexivity|apply fle_finf, fin_not_nan, Fx].
      + assert (fmul finf b = finf) as ->.
        { destruct b as [?|?| |[] m e B]; try discriminate Fb; [cbn in Hb; lra| |reflexivity].
          exfalso. unfold RR in Hb. cbn [B2R] in Hb. pose proof (F2R_lt_0 radix2 (Float radix2 (Zneg m) e) eq_refl) as K. cbn [SpecFloat.cond_Zopp] in Hb. cbn in Hb, K. lra. }
        split; reflexivity.
    - assert (fmul x finf = finf) as ->.
      { destruct x as [?|[]| |[] m e B]; try discriminate Hx; reflexivity. }
      split; [reflexivity|]. apply fle_finf. apply flt_not_nan in Hx. tauto. }
  assert (P : flt f0 (log_value numF f b k) = true).
  { induction k as [|k IH]; [exact Hf|]. cbn [log_value numF n_mul]. now apply S. }
  split; [exact P|]. cbn [log_value numF n_mul]. now apply S.
Qed.

Lemma rnd_rel x : (bpow radix2 (-1022) <= Rabs x -> Rabs (rnd x - x) <= uro * Rabs x)%R.
Proof.
  intros H. pose proof (relative_error_N_FLT radix2 (-1074) 53 eq_refl (fun x => negb (Z.even x)) x H) as K.
  unfold rnd, uro. change (-53) with (-1 + -52). rewrite bpow_plus. exact K.
Qed.

(** The i-th value is first * base^i up to i roundings. *)
Lemma log_value_error f b k : fin f -> fin b -> (bpow radix2 (-1022) <= RR f)%R -> (1 <= RR b)%R ->
  fin (log_value numF f b k) ->
  (Rabs (RR (log_value numF f b k) - RR f * RR b ^ k) <= ((1 + uro) ^ k - 1) * (RR f * RR b ^ k))%R.
Proof.
  intros Ff Fb Hf Hb. pose proof uro_pos as U0. pose proof (bpow_gt_0 radix2 (-1022)) as B0.
  assert (Hp : forall k, (1 <= RR b ^ k)%R) by (intros j; apply pow_R1_Rle; exact Hb).
  assert (Hu : forall k, (1 <= (1 + uro) ^ k)%R) by (intros j; apply pow_R1_Rle; lra).
  induction k as [|k IH]; intros F.
  - cbn [log_value pow]. unfold Rminus. rewrite Rmult_1_r, Rplus_opp_r, Rabs_R0, Rplus_opp_r. lra.
  - cbn [log_value numF n_mul] in *. destruct (fmul_inv _ _ F) as (Fk & _ & E). specialize (IH Fk).
    set (v := RR (log_value numF f b k)) in *. rewrite E. cbn [pow].
    assert (Hv : (RR f <= v)%R).
    { assert (M : forall j, fin (log_value numF f b j) -> (RR f <= RR (log_value numF f b j))%R).
      { clear -Ff Fb Hf Hb B0. induction j as [|j IHj]; intros Fj; [cbn [log_value]; lra|]. cbn [log_value numF n_mul] in *.
        destruct (fmul_inv _ _ Fj) as (F1 & _ & E1). specialize (IHj F1). rewrite E1.
        apply rnd_ge_fmt; [apply fmt_RR|]. nra. }
      apply M, Fk. }
    assert (Hvb : (v <= v * RR b)%R) by nra.
    assert (R1 : (Rabs (rnd (v * RR b) - v * RR b) <= uro * Rabs (v * RR b))%R).
    { apply rnd_rel. rewrite Rabs_pos_eq; lra. }
    set (x := (RR f * RR b ^ k)%R) in *. pose proof (Hp k). pose proof (Hu k).
    assert (Px : (0 < x)%R) by (unfold x; apply Rmult_lt_0_compat; lra).
    assert (R2 : (Rabs (v * RR b - x * RR b) <= ((1 + uro) ^ k - 1) * (x * RR b))%R).
    { replace (v * RR b - x * RR b)%R with ((v - x) * RR b)%R by ring. rewrite Rabs_mult, (Rabs_pos_eq (RR b)) by lra.
      rewrite <- Rmult_assoc. apply Rmult_le_compat_r; lra. }
    replace (RR f * (RR b * RR b ^ k))%R with (x * RR b)%R by (unfold x; ring).
    eapply Rle_trans; [eapply Rabs_chain; [exact R1|exact R2]|].
    pose proof (Rabs_near _ _ _ R2) as R3. rewrite (Rabs_pos_eq (x * RR b)) in R3 by nra.
    apply Rle_trans with (uro * (x * RR b + ((1 + uro) ^ k - 1) * (x * RR b)) + ((1 + uro) ^ k - 1) * (x * RR b))%R.
    + apply Rplus_le_compat_r. apply Rmult_le_compat_l; lra.
    + apply Req_le. ring.
Qed.

Lemma seq_call_ext {T} (f g : nat -> T) : (forall i, f i = g i) -> forall k c, seq_call f k c = seq_call g k c.
Proof. intros E k [| | | |n]; cbn [seq_call]; rewrite ?E; try reflexivity. unfold from. now rewrite (map_ext _ _ E). Qed.

Lemma seq_calls_ext {T} (f g : nat -> T) : (forall i, f i = g i) -> forall h k, seq_calls f h k = seq_calls g h k.
Proof.
  intros E. induction h as [|c h IH]; intros k; [reflexivity|]. cbn [seq_calls]. rewrite (seq_call_ext f g E).
  destruct (seq_call g k c) as [v k1]. now rewrite IH.
Qed.

(** * Elements of a tabulated sequence *)
Lemma nth_error_map_seq {A} (f : nat -> A) n i v : nth_error (map f (seq 0 n)) i = Some v -> (i < n)%nat /\ v = f i.
Proof.
  intros H. assert (L : (i < n)%nat).
  { rewrite <- (seq_length n 0), <- (map_length f). apply nth_error_Some. now rewrite H. }
  split; [exact L|]. rewrite (nth_error_nth' _ (f 0%nat)) in H by (rewrite map_length, seq_length; exact L).
  injection H as <-. rewrite map_nth, seq_nth by exact L. reflexivity.
Qed.
