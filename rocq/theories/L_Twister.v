(** Lemmas about the 64-bit Mersenne twister. *)
From Coq Require Import ZArith List Bool Ascii Lia.
From Verif Require Import Base M_Text M_Util S_Util L_Util M_Archive M_Dump S_Dump L_Dump S_Restart M_Restart L_Restart
  S_Twister M_Twister.
Import ListNotations.
Open Scope Z_scope.

(** ** Bits *)

Lemma upper_eq : upper_mask = Z.shiftl (Z.ones 33) 31. Proof. reflexivity. Qed.
Lemma lower_eq : lower_mask = Z.ones 31. Proof. reflexivity. Qed.

Lemma glue_spec u v : 0 <= u < 2 ^ 64 ->
  Z.lor (Z.land u upper_mask) (Z.land v lower_mask) = glue u v.
Proof.
  intros Hu. rewrite upper_eq, lower_eq, Z.land_ones by lia.
  assert (E : Z.land u (Z.shiftl (Z.ones 33) 31) = u / 2 ^ 31 * 2 ^ 31).
  { rewrite <- Z.shiftr_div_pow2, <- Z.shiftl_mul_pow2 by lia. apply Z.bits_inj'. intros n Hn.
    rewrite Z.land_spec, !Z.shiftl_spec by lia. destruct (Z.ltb_spec n 31).
    - rewrite (Z.testbit_neg_r (Z.ones 33)), (Z.testbit_neg_r (Z.shiftr u 31)) by lia. apply andb_false_r.
    - rewrite Z.shiftr_spec by lia. replace (n - 31 + 31) with n by lia. destruct (Z.ltb_spec n 64).
      + rewrite Z.ones_spec_low by lia. apply andb_true_r.
      + rewrite Z.ones_spec_high by lia. rewrite andb_false_r. symmetry.
        destruct (Z.eq_dec u 0) as [->|]; [apply Z.bits_0|].
        apply Z.bits_above_log2; [lia|]. apply Z.log2_lt_pow2; [lia|].
        apply Z.lt_le_trans with (2 ^ 64); [lia|]. apply Z.pow_le_mono_r; lia. }
  rewrite E. unfold glue.
  assert (D : Z.land (u / 2 ^ 31 * 2 ^ 31) (v mod 2 ^ 31) = 0).
  { rewrite <- Z.shiftl_mul_pow2, <- Z.land_ones by lia. apply Z.bits_inj'. intros n Hn.
    rewrite Z.bits_0, !Z.land_spec, Z.shiftl_spec by lia. destruct (Z.ltb_spec n 31).
    - now rewrite Z.testbit_neg_r by lia.
    - rewrite (Z.ones_spec_high 31) by lia. now rewrite !andb_false_r. }
  rewrite Z.add_nocarry_lxor by exact D. symmetry. now apply Z.lxor_lor.
Qed.

Lemma range_bits a k : 0 <= k -> 0 <= a -> (a < 2 ^ k <-> forall n, k <= n -> Z.testbit a n = false).
Proof.
  intros Hk Ha. split.
  - intros H n Hn. destruct (Z.eq_dec a 0) as [->|]; [apply Z.bits_0|].
    apply Z.bits_above_log2; [lia|]. apply Z.lt_le_trans with k; [apply Z.log2_lt_pow2; lia|lia].
  - intros H. assert (E : a mod 2 ^ k = a).
    { rewrite <- Z.land_ones by lia. apply Z.bits_inj'. intros n Hn. rewrite Z.land_spec.
      destruct (Z.ltb_spec n k).
      - rewrite Z.ones_spec_low by lia. apply andb_true_r.
      - rewrite H by lia. reflexivity. }
    rewrite <- E. apply Z.mod_pos_bound. apply Z.pow_pos_nonneg; lia.
Qed.

Lemma lxor_range a b : 0 <= a < 2 ^ 64 -> 0 <= b < 2 ^ 64 -> 0 <= Z.lxor a b < 2 ^ 64.
Proof.
  intros Ha Hb. assert (N : 0 <= Z.lxor a b) by (apply Z.lxor_nonneg; lia). split; [exact N|].
  apply range_bits; [lia|lia|]. intros n Hn. rewrite Z.lxor_spec.
  rewrite (proj1 (range_bits a 64 ltac:(lia) (proj1 Ha)) (proj2 Ha) n Hn).
  now rewrite (proj1 (range_bits b 64 ltac:(lia) (proj1 Hb)) (proj2 Hb) n Hn).
Qed.

Lemma land_range a b : 0 <= a -> 0 <= b < 2 ^ 64 -> 0 <= Z.land a b < 2 ^ 64.
Proof.
  intros Ha Hb. assert (N : 0 <= Z.land a b) by (apply Z.land_nonneg; lia). split; [exact N|].
  apply range_bits; [lia|lia|]. intros n Hn. rewrite Z.land_spec.
  rewrite (proj1 (range_bits b 64 ltac:(lia) (proj1 Hb)) (proj2 Hb) n Hn). apply andb_false_r.
Qed.

Lemma glue_range u v : 0 <= u < 2 ^ 64 -> 0 <= glue u v < 2 ^ 64.
Proof.
  intros Hu. unfold glue. pose proof (Z.mod_pos_bound v (2 ^ 31) ltac:(reflexivity)).
  pose proof (Z.div_pos u (2 ^ 31) ltac:(lia) ltac:(reflexivity)).
  assert (u / 2 ^ 31 < 2 ^ 33) by (apply Z.div_lt_upper_bound; [reflexivity|]; change (2 ^ 31 * 2 ^ 33) with (2 ^ 64); lia).
  change (2 ^ 33) with 8589934592 in *. change (2 ^ 31) with 2147483648 in *. change (2 ^ 64) with 18446744073709551616. lia.
Qed.

Lemma twist_range y : 0 <= y < 2 ^ 64 -> 0 <= twist y < 2 ^ 64.
Proof.
  intros H. unfold twist. change (2 ^ 64) with 18446744073709551616 in *. apply lxor_range; change (2 ^ 64) with 18446744073709551616.
  - pose proof (Z.div_pos y 2). pose proof (Z.div_lt_upper_bound y 2 18446744073709551616). lia.
  - pose proof (Z.mod_pos_bound y 2). lia.
Qed.

Lemma temper_spec x : temper x = tempered x.
Proof.
  unfold temper, tempered. cbv zeta. rewrite !Z.shiftr_div_pow2, !Z.shiftl_mul_pow2 by lia. reflexivity.
Qed.

Lemma tempered_range x : 0 <= x < 2 ^ 64 -> 0 <= tempered x < 2 ^ 64.
Proof.
  intros H. unfold tempered. cbv zeta.
  set (y1 := Z.lxor x _). assert (H1 : 0 <= y1 < 2 ^ 64).
  { apply lxor_range; [exact H|]. apply land_range; [apply Z.div_pos; lia|lia]. }
  set (y2 := Z.lxor y1 _). assert (H2 : 0 <= y2 < 2 ^ 64).
  { apply lxor_range; [exact H1|]. apply land_range; [apply Z.mod_pos_bound; reflexivity|lia]. }
  set (y3 := Z.lxor y2 _). assert (H3 : 0 <= y3 < 2 ^ 64).
  { apply lxor_range; [exact H2|]. apply land_range; [apply Z.mod_pos_bound; reflexivity|lia]. }
  apply lxor_range; [exact H3|]. split; [apply Z.div_pos; lia|].
  apply Z.div_lt_upper_bound; [lia|]. nia.
Qed.

(** ** Sequences *)

Lemma sequence_range ws X : twister_sequence ws X -> length ws = 312%nat ->
  Forall (fun w => 0 <= w < 2 ^ 64) ws -> forall i, 0 <= X i < 2 ^ 64.
Proof.
  intros [H0 HS] L R i. induction i as [i IH] using (well_founded_induction lt_wf).
  destruct (le_lt_dec 312 i).
  - replace i with ((i - 312) + 312)%nat by lia. rewrite HS. apply lxor_range; [apply IH; lia|].
    apply twist_range, glue_range, IH. lia.
  - rewrite H0 by assumption. rewrite Forall_forall in R. apply R, nth_In. lia.
Qed.

Lemma sequence_unique ws X Y : twister_sequence ws X -> twister_sequence ws Y -> forall i, X i = Y i.
Proof.
  intros [H0 HS] [H0' HS'] i. induction i as [i IH] using (well_founded_induction lt_wf).
  destruct (le_lt_dec 312 i).
  - replace i with ((i - 312) + 312)%nat by lia. rewrite HS, HS', !IH by lia. reflexivity.
  - now rewrite H0, H0' by assumption.
Qed.

Fixpoint prefix (ws : list Z) (n : nat) : list Z :=
  match n with
  | O => ws
  | S n' => let l := prefix ws n' in
      l ++ [Z.lxor (nth (n' + 156) l 0) (twist (glue (nth n' l 0) (nth (n' + 1) l 0)))]
  end.

Lemma prefix_length ws n : length (prefix ws n) = (length ws + n)%nat.
Proof. induction n as [|n IH]; cbn [prefix]; [lia|]. rewrite app_length, IH. cbn [length]. lia. Qed.

Lemma prefix_nth ws n m i : (i < length ws + n)%nat -> nth i (prefix ws (n + m)) 0 = nth i (prefix ws n) 0.
Proof.
  intros H. induction m as [|m IH]; [now rewrite Nat.add_0_r|]. rewrite Nat.add_succ_r. cbn [prefix].
  rewrite app_nth1 by (rewrite prefix_length; lia). exact IH.
Qed.

Lemma sequence_exists ws : length ws = 312%nat -> exists X, twister_sequence ws X.
Proof.
  intros L. exists (fun i => nth i (prefix ws i) 0). split.
  - intros i Hi. exact (prefix_nth ws 0 i i ltac:(lia)).
  - intros i. 
    replace (prefix ws (i + 312)) with (prefix ws (S i + 311)) by (f_equal; lia).
    rewrite (prefix_nth ws (S i) 311) by lia. cbn [prefix].
    rewrite app_nth2 by (rewrite prefix_length; lia). rewrite prefix_length, L.
    replace (i + 312 - (312 + i))%nat with 0%nat by lia. cbn [nth].
    replace (prefix ws (i + 156)) with (prefix ws (i + 156)) by reflexivity.
    rewrite (prefix_nth ws i 156 (i + 156)) by lia.
    rewrite (prefix_nth ws i 1 (i + 1)) by lia. reflexivity.
Qed.

(** A sequence started later. *)
Lemma sequence_shift ws X j : twister_sequence ws X ->
  forall i, X (j + i + 312)%nat = Z.lxor (X (j + i + 156)%nat) (twist (glue (X (j + i)%nat) (X (j + i + 1)%nat))).
Proof. intros [_ H] i. apply H. Qed.

(** ** Blocks of 312 words *)

Section Blocks.
Context (Y : nat -> Z).
Context (HS : forall i, Y (i + 312)%nat = Z.lxor (Y (i + 156)%nat) (twist (glue (Y i) (Y (i + 1)%nat)))).
Context (HR : forall i, 0 <= Y i < 2 ^ 64).

(** k words of the next block are in place. *)
Definition block (k : nat) (x : list Z) : Prop :=
  length x = 312%nat /\ forall i, (i < 312)%nat -> nth i x 0 = Y (if (i <? k)%nat then i + 312 else i)%nat.

Lemma vget_block k x i : block k x -> (i < 312)%nat ->
  vget x (Z.of_nat i) = Ok (Y (if (i <? k)%nat then i + 312 else i)%nat).
Proof.
  intros [L H] Hi. rewrite (vget_nth x (Z.of_nat i) 0) by (unfold vsize; lia). now rewrite Nat2Z.id, H.
Qed.

Lemma gen_word_block k x next far : (k < 312)%nat -> block k x -> (next < 312)%nat -> (far < 312)%nat ->
  Y (if (next <? k)%nat then next + 312 else next)%nat = Y (k + 1)%nat ->
  Y (if (far <? k)%nat then far + 312 else far)%nat = Y (k + 156)%nat ->
  exists x', gen_word (Z.of_nat k) (Z.of_nat next) (Z.of_nat far) x = Ok x' /\ block (S k) x'.
Proof.
  intros Hk B Hn Hf En Ef. unfold gen_word.
  rewrite (vget_block k x k B Hk), Nat.ltb_irrefl. cbn [bind].
  rewrite (vget_block k x next B Hn), En. cbn [bind]. rewrite (vget_block k x far B Hf), Ef. cbn [bind].
  rewrite glue_spec by apply HR. destruct B as [L H].
  rewrite vset_ok by (unfold vsize; lia). eexists; split; [reflexivity|]. split; [now rewrite list_set_length|].
  intros i Hi. rewrite Nat2Z.id. destruct (Nat.eq_dec k i) as [->|Ne].
  - rewrite list_set_nth_eq by lia. replace (i <? S i)%nat with true by (symmetry; apply Nat.ltb_lt; lia).
    rewrite HS. rewrite Z.lxor_assoc. f_equal. unfold twist. rewrite Z.shiftr_div_pow2 by lia. change (2 ^ 1) with 2.
    f_equal. change 1 with (Z.ones 1). rewrite Z.land_ones by lia. change (2 ^ 1) with 2.
    destruct (Z.eqb_spec (glue (Y i) (Y (i + 1)%nat) mod 2) 0) as [->|Ne]; [reflexivity|].
    pose proof (Z.mod_pos_bound (glue (Y i) (Y (i + 1)%nat)) 2 ltac:(lia)).
    replace (glue (Y i) (Y (i + 1)%nat) mod 2) with 1 by lia. reflexivity.
  - rewrite list_set_nth_neq by lia. rewrite H by exact Hi.
    destruct (Nat.ltb_spec i k), (Nat.ltb_spec i (S k)); try lia; reflexivity.
Qed.

Lemma gen_loop (f : list Z -> Z -> out (list Z)) n : forall k0 x,
  (forall k x, (k0 <= k < k0 + n)%nat -> block k x -> exists x', f x (Z.of_nat k) = Ok x' /\ block (S k) x') ->
  block k0 x -> exists x', ofold f (map Z.of_nat (seq k0 n)) x = Ok x' /\ block (k0 + n) x'.
Proof.
  induction n as [|n IH]; intros k0 x H B; cbn [seq map ofold].
  - exists x. split; [reflexivity|]. now rewrite Nat.add_0_r.
  - destruct (H k0 x ltac:(lia) B) as (x1 & -> & B1). cbn [bind].
    destruct (IH (S k0) x1) as (x' & E & B'); [intros k y Hk; apply H; lia|exact B1|].
    exists x'. split; [exact E|]. now replace (k0 + S n)%nat with (S k0 + n)%nat by lia.
Qed.

Lemma second_loop : map (Z.add (312 - 156)) (upto (156 - 1)) = map Z.of_nat (seq 156 155).
Proof. reflexivity. Qed.

Lemma gen_rand_block x : block 0 x -> exists x', gen_rand x = Ok x' /\ block 312 x'.
Proof.
  intros B. unfold gen_rand, upto at 1. change (Z.to_nat (312 - 156)) with 156%nat.
  destruct (gen_loop (fun x k => gen_word k (k + 1) (k + 156) x) 156 0 x) as (x1 & -> & B1); [|exact B|].
  { intros k y Hk By. replace (Z.of_nat k + 1) with (Z.of_nat (k + 1)) by lia.
    replace (Z.of_nat k + 156) with (Z.of_nat (k + 156)) by lia. apply gen_word_block; try lia; auto.
    - now rewrite (proj2 (Nat.ltb_ge (k + 1) k)) by lia.
    - now rewrite (proj2 (Nat.ltb_ge (k + 156) k)) by lia. }
  cbn [bind]. rewrite second_loop.
  destruct (gen_loop (fun x k => gen_word k (k + 1) (k - (312 - 156)) x) 155 156 x1) as (x2 & -> & B2); [|exact B1|].
  { intros k y Hk By. replace (Z.of_nat k + 1) with (Z.of_nat (k + 1)) by lia.
    replace (Z.of_nat k - (312 - 156)) with (Z.of_nat (k - 156)) by lia. apply gen_word_block; try lia; auto.
    - now rewrite (proj2 (Nat.ltb_ge (k + 1) k)) by lia.
    - rewrite (proj2 (Nat.ltb_lt (k - 156) k)) by lia. f_equal. lia. }
  cbn [bind]. change 311 with (Z.of_nat 311) at 1. change 0 with (Z.of_nat 0) at 1. change 155 with (Z.of_nat 155) at 1.
  apply gen_word_block; try lia; auto.
Qed.
End Blocks.

(** ** Draws *)

(** The engine is at place i of the sequence X: the next word it hands out is the
    i-th one. *)
Definition at_place (X : nat -> Z) (i : nat) (e : engine) : Prop :=
  exists j p, (p <= 312)%nat /\ i = (312 * j + p)%nat /\ mt_pos e = Z.of_nat p /\ length (mt_words e) = 312%nat /\
    forall k, (k < 312)%nat -> nth k (mt_words e) 0 = X (312 * j + k)%nat.

Lemma draw_at_place ws X i e : twister_sequence ws X -> (forall i, 0 <= X i < 2 ^ 64) -> at_place X i e ->
  exists e', mt_draw e = Ok (tempered (X i), e') /\ at_place X (S i) e'.
Proof.
  intros HX R (j & p & Hp & -> & Ep & L & W). unfold mt_draw. rewrite Ep.
  assert (D : forall x j p, (p < 312)%nat -> length x = 312%nat -> (forall k, (k < 312)%nat -> nth k x 0 = X (312 * j + k)%nat) ->
    exists e', (z <- vget (mt_words (mkEngine x (Z.of_nat p))) (mt_pos (mkEngine x (Z.of_nat p))) ;;
      Ok (temper z, mkEngine (mt_words (mkEngine x (Z.of_nat p))) (mt_pos (mkEngine x (Z.of_nat p)) + 1)))%out
      = Ok (tempered (X (312 * j + p)%nat), e') /\ at_place X (S (312 * j + p)) e').
  { clear. intros x j p Hp L W. cbn [mt_words mt_pos]. rewrite (vget_nth x (Z.of_nat p) 0) by (unfold vsize; lia).
    rewrite Nat2Z.id, (W p Hp). cbn [bind]. rewrite temper_spec. eexists; split; [reflexivity|].
    exists j, (S p). cbn [mt_words mt_pos]. repeat split; auto; lia. }
  destruct (Z.leb_spec 312 (Z.of_nat p)).
  - assert (p = 312%nat) by lia. subst p.
    destruct (gen_rand_block (fun i => X (312 * j + i)%nat)) with (x := mt_words e) as (x' & -> & L' & W').
    + intros i. rewrite !Nat.add_assoc. apply HX.
    + intros i. apply R.
    + split; [exact L|]. intros k Hk. rewrite (W k Hk). cbn [Nat.ltb Nat.leb]. reflexivity.
    + cbn [bind]. replace (312 * j + 312)%nat with (312 * (S j) + 0)%nat by lia.
      apply (D x' (S j) 0%nat); [lia|exact L'|]. intros k Hk. rewrite (W' k Hk).
      rewrite (proj2 (Nat.ltb_lt k 312)) by lia. f_equal. lia.
  - cbn [bind]. destruct e as [x q]. cbn [mt_words mt_pos] in *. subst q. apply D; auto; lia.
Qed.

Lemma draws_at_place ws X n : twister_sequence ws X -> (forall i, 0 <= X i < 2 ^ 64) -> forall i e, at_place X i e ->
  exists e', mt_draws n e = Ok (map (fun k => tempered (X k)) (seq i n), e') /\ at_place X (i + n) e'.
Proof.
  intros HX R. induction n as [|n IH]; intros i e P; cbn [mt_draws seq map].
  - exists e. split; [reflexivity|]. now rewrite Nat.add_0_r.
  - destruct (draw_at_place ws X i e HX R P) as (e1 & -> & P1). cbn [bind fst snd].
    destruct (IH (S i) e1 P1) as (e' & -> & P'). cbn [bind fst snd]. exists e'. split; [reflexivity|].
    now replace (i + S n)%nat with (S i + n)%nat by lia.
Qed.

Lemma run_at_place {A} ws X (p : prog A) : twister_sequence ws X -> (forall i, 0 <= X i < 2 ^ 64) -> forall i e, at_place X i e ->
  exists e', run_prog p e = Ok (fst (play (fun k => tempered (X k)) p i), e') /\
    at_place X (snd (play (fun k => tempered (X k)) p i)) e'.
Proof.
  intros HX R. induction p as [a|f IH]; intros i e P; cbn [run_prog play].
  - exists e. split; [reflexivity|exact P].
  - destruct (draw_at_place ws X i e HX R P) as (e1 & -> & P1). cbn [bind fst snd]. now apply IH.
Qed.

Lemma place_state X i e : (forall i, 0 <= X i < 2 ^ 64) -> at_place X i e ->
  length (mt_words e) = 312%nat /\ Forall (fun w => 0 <= w < 2 ^ 64) (mt_words e) /\ 0 <= mt_pos e <= 312.
Proof.
  intros R (j & p & Hp & _ & Ep & L & W). split; [exact L|]. split; [|lia]. apply Forall_forall. intros w Hw.
  apply (In_nth _ _ 0) in Hw. destruct Hw as (k & Hk & <-). rewrite W by lia. apply R.
Qed.

(** ** Archives *)

Lemma engine_archive e t rest : Forall (fun w => 0 <= w < 2 ^ 64) (mt_words e) -> 0 <= mt_pos e < 2 ^ 64 ->
  length (mt_words t) = length (mt_words e) -> engine_load t (engine_save e ++ rest) = Some (e, rest).
Proof.
  intros Hw Hp Hl. unfold engine_load, engine_save, lbind. cbn [app load_s]. rewrite map_map.
  replace (map _ (mt_save e)) with (mt_save e).
  2:{ rewrite <- (map_id (mt_save e)) at 1. apply map_ext. intros c. now rewrite Nat2Z.id, ascii_nat_embedding. }
  destruct e as [ws p]. cbn [mt_words mt_pos] in *. unfold mt_save.
  rewrite (mt_load_ok t _ ws p []); [reflexivity|now symmetry|]. now apply (mt_put_numbers (mkEngine ws p)).
Qed.

(** ** Simulations *)

Lemma simulate_app {C S} (step : C -> S -> prog S) W l1 : forall l2 s i,
  simulate step W (l1 ++ l2) s i = simulate step W l2 (fst (simulate step W l1 s i)) (snd (simulate step W l1 s i)).
Proof.
  induction l1 as [|c l1 IH]; intros l2 s i; cbn [simulate app]; [reflexivity|].
  destruct (play W (step c s) i). apply IH.
Qed.

Lemma straight_sim {C S} (step : C -> S -> prog S) ws X l : twister_sequence ws X -> (forall i, 0 <= X i < 2 ^ 64) ->
  forall i e s, at_place X i e ->
  exists e', straight (alone (sim_call step)) l (e, s) tt = Some ((e', fst (simulate step (fun k => tempered (X k)) l s i)), tt) /\
    at_place X (snd (simulate step (fun k => tempered (X k)) l s i)) e'.
Proof.
  intros HX R. induction l as [|c l IH]; intros i e s P; cbn [straight simulate].
  - exists e. split; [reflexivity|exact P].
  - unfold alone at 1, sim_call at 1. cbn [fst snd].
    destruct (run_at_place ws X (step c s) HX R i e P) as (e1 & -> & P1).
    destruct (play (fun k => tempered (X k)) (step c s) i) as [s1 i1]. cbn [fst snd] in *. now apply IH.
Qed.

(** The client with restarts, by induction on the history: the kept state is the
    one of the kept calls. *)
Lemma client_sim {C S} (step : C -> S -> prog S) save load ws X e0 (s0 : S) i0 : twister_sequence ws X -> (forall i, 0 <= X i < 2 ^ 64) ->
  (forall t s, exists r, load t (save s) = Some (s, r)) -> at_place X i0 e0 ->
  forall h, Forall (fun t => length (mt_words (fst t)) = 312%nat) (targets h) ->
  exists e', client (alone (sim_call step)) (sim_save save) (sim_load load) (e0, s0) h (e0, s0) tt None =
    Some ((e', fst (simulate step (fun k => tempered (X k)) (surviving [] [] h) s0 i0)), tt) /\
    at_place X (snd (simulate step (fun k => tempered (X k)) (surviving [] [] h) s0 i0)) e'.
Proof.
  intros HX R HL P0 h HT.
  assert (RS : Forall (restores (alone (sim_call step)) (sim_save save) (sim_load load) (e0, s0)) (targets h)).
  { refine (Forall_impl _ _ HT). intros t Lt l [] s [] E.
    destruct (straight_sim step ws X l HX R i0 e0 s0 P0) as (e' & E' & P'). rewrite E' in E. injection E as <-.
    destruct (place_state X _ e' R P') as (L' & W' & Q').
    unfold sim_load, sim_save, lbind. cbn [fst snd].
    rewrite engine_archive; [|exact W'|split; [lia|]; change (2 ^ 64) with 18446744073709551616; lia|now rewrite Lt, L'].
    destruct (HL (snd t) (fst (simulate step (fun k => tempered (X k)) l s0 i0))) as (r & ->). now exists r. }
  destruct (straight_sim step ws X (surviving [] [] h) HX R i0 e0 s0 P0) as (e' & E' & P').
  exists e'. split; [|exact P']. rewrite <- E'.
  assert (D : forall h' s w w1 kept recent file,
    Forall (restores (alone (sim_call step)) (sim_save save) (sim_load load) (e0, s0)) (targets h') ->
    straight (alone (sim_call step)) (kept ++ recent) (e0, s0) tt = Some (s, w1) ->
    on_file (alone (sim_call step)) (sim_save save) (e0, s0) kept tt file ->
    exists s' w', client (alone (sim_call step)) (sim_save save) (sim_load load) (e0, s0) h' s w file = Some (s', w')).
  { clear - HX R P0. induction h' as [|ev h' IH]; intros s w w1 kept recent file RS Hs Hf; cbn [client]; [eauto|].
    destruct ev as [c| |t].
    - assert (E1 : exists s1, alone (sim_call step) s w c = (s1, w, Ok tt) /\
        straight (alone (sim_call step)) (kept ++ recent ++ [c]) (e0, s0) tt = Some (s1, tt)).
      { destruct (straight_sim step ws X (kept ++ recent) HX R i0 e0 s0 P0) as (e' & E' & P'). rewrite Hs in E'. injection E' as -> ->.
        rewrite app_assoc, (straight_app _ _ _ _ _ _ _ Hs). cbn [straight]. unfold alone, sim_call. cbn [fst snd].
        destruct (run_at_place ws X (step c (fst (simulate step (fun k => tempered (X k)) (kept ++ recent) s0 i0))) HX R _ e' P') as (e1 & -> & _).
        eauto. }
      destruct E1 as (s1 & -> & E1). exact (IH s1 w tt kept (recent ++ [c]) file RS E1 Hf).
    - apply (IH s w w1 (kept ++ recent) [] _ RS); [now rewrite app_nil_r|]. cbn [on_file]. eauto.
    - cbn [targets flat_map app] in RS. apply Forall_cons_iff in RS. destruct RS as [Ht RS].
      destruct file as [f|]; cbn [on_file] in Hf.
      + destruct Hf as (sk & wk & Ek & ->). destruct (Ht _ _ _ _ Ek) as [r El]. rewrite El.
        apply (IH sk w wk kept [] _ RS); [now rewrite app_nil_r|]. cbn [on_file]. eauto.
      + subst kept. exact (IH (e0, s0) w tt [] [] None RS eq_refl eq_refl). }
  destruct (D h (e0, s0) tt tt [] [] None RS eq_refl eq_refl) as (s & [] & E). rewrite E. symmetry.
  exact (alone_client (sim_call step) (sim_save save) (sim_load load) (e0, s0) h s tt RS E).
Qed.
