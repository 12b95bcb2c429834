(** Lemmas about the streams of 64-bit Mersenne twisters: tempering and the
    recurrence can be undone. *)
From Coq Require Import ZArith List ListDec Bool Lia.
From Verif Require Import Base M_Dump S_Dump L_Dump S_Twister M_Twister L_Twister P_Twister.
Import ListNotations.
Open Scope Z_scope.

(** ** Bits *)

Lemma word_bits x n : 0 <= x < 2 ^ 64 -> 64 <= n -> Z.testbit x n = false.
Proof. intros H. apply (proj1 (range_bits x 64 ltac:(lia) (proj1 H)) (proj2 H)). Qed.

Lemma xorb_cancel a b c : xorb a c = xorb b c -> a = b.
Proof. destruct a, b, c; cbn; congruence. Qed.

Lemma lxor_cancel_r a b c : Z.lxor a c = Z.lxor b c -> a = b.
Proof.
  intros H. rewrite <- (Z.lxor_0_r a), <- (Z.lxor_0_r b), <- (Z.lxor_nilpotent c), <- !Z.lxor_assoc. now rewrite H.
Qed.

Lemma lxor_cancel_l a b c : Z.lxor c a = Z.lxor c b -> a = b.
Proof. rewrite !(Z.lxor_comm c). apply lxor_cancel_r. Qed.

Lemma xor_shiftr_inj m s x y : 0 < s -> 0 <= x < 2 ^ 64 -> 0 <= y < 2 ^ 64 ->
  Z.lxor x (Z.land (x / 2 ^ s) m) = Z.lxor y (Z.land (y / 2 ^ s) m) -> x = y.
Proof.
  intros Hs Hx Hy E.
  assert (K : forall k n, 0 <= n -> 64 - n <= Z.of_nat k -> Z.testbit x n = Z.testbit y n).
  { induction k as [|k IH]; intros n Hn Hk; (destruct (Z.le_gt_cases 64 n); [rewrite !word_bits by assumption; reflexivity|]); [lia|].
    apply (f_equal (fun z => Z.testbit z n)) in E. rewrite !Z.lxor_spec, !Z.land_spec, <- !Z.shiftr_div_pow2, !Z.shiftr_spec in E by lia.
    rewrite (IH (n + s)) in E by lia. exact (xorb_cancel _ _ _ E). }
  apply Z.bits_inj'. intros n Hn. apply (K 64%nat); lia.
Qed.

Lemma xor_shiftl_inj m s x y : 0 < s -> 0 <= x < 2 ^ 64 -> 0 <= y < 2 ^ 64 ->
  Z.lxor x (Z.land (x * 2 ^ s mod 2 ^ 64) m) = Z.lxor y (Z.land (y * 2 ^ s mod 2 ^ 64) m) -> x = y.
Proof.
  intros Hs Hx Hy E.
  assert (K : forall k n, n <= Z.of_nat k -> Z.testbit x n = Z.testbit y n).
  { induction k as [|k IH]; intros n Hk; (destruct (Z.neg_nonneg_cases n) as [Hn|Hn]; [rewrite !Z.testbit_neg_r by assumption; reflexivity|]);
    (destruct (Z.le_gt_cases 64 n); [rewrite !word_bits by assumption; reflexivity|]).
    all: apply (f_equal (fun z => Z.testbit z n)) in E;
      rewrite !Z.lxor_spec, !Z.land_spec, !Z.mod_pow2_bits_low, !Z.mul_pow2_bits in E by lia.
    - rewrite !(Z.testbit_neg_r _ (n - s)) in E by lia. exact (xorb_cancel _ _ _ E).
    - rewrite (IH (n - s)) in E by lia. exact (xorb_cancel _ _ _ E). }
  apply Z.bits_inj'. intros n Hn. apply (K (Z.to_nat n)); lia.
Qed.

Lemma tempered_inj x y : 0 <= x < 2 ^ 64 -> 0 <= y < 2 ^ 64 -> tempered x = tempered y -> x = y.
Proof.
  intros Hx Hy. unfold tempered. cbv zeta.
  assert (R1 : forall z, 0 <= z < 2 ^ 64 -> 0 <= Z.lxor z (Z.land (z / 2 ^ 29) 6148914691236517205) < 2 ^ 64).
  { intros z Hz. apply lxor_range; [exact Hz|]. apply land_range; [apply Z.div_pos; lia|lia]. }
  assert (R2 : forall z s m, 0 <= z < 2 ^ 64 -> 0 <= m < 2 ^ 64 -> 0 <= Z.lxor z (Z.land (z * 2 ^ s mod 2 ^ 64) m) < 2 ^ 64).
  { intros z s m Hz Hm. apply lxor_range; [exact Hz|]. apply land_range; [apply Z.mod_pos_bound; reflexivity|exact Hm]. }
  pose proof (R1 x Hx) as X1. pose proof (R1 y Hy) as Y1.
  pose proof (xor_shiftr_inj 6148914691236517205 29 x y ltac:(lia) Hx Hy) as I1.
  revert X1 Y1 I1. generalize (Z.lxor x (Z.land (x / 2 ^ 29) 6148914691236517205)) (Z.lxor y (Z.land (y / 2 ^ 29) 6148914691236517205)).
  intros x1 y1 X1 Y1 I1.
  pose proof (R2 x1 17 8202884508482404352 X1 ltac:(lia)) as X2. pose proof (R2 y1 17 8202884508482404352 Y1 ltac:(lia)) as Y2.
  pose proof (xor_shiftl_inj 8202884508482404352 17 x1 y1 ltac:(lia) X1 Y1) as I2.
  revert X2 Y2 I2. generalize (Z.lxor x1 (Z.land (x1 * 2 ^ 17 mod 2 ^ 64) 8202884508482404352))
    (Z.lxor y1 (Z.land (y1 * 2 ^ 17 mod 2 ^ 64) 8202884508482404352)).
  intros x2 y2 X2 Y2 I2.
  pose proof (R2 x2 37 18444473444759240704 X2 ltac:(lia)) as X3. pose proof (R2 y2 37 18444473444759240704 Y2 ltac:(lia)) as Y3.
  pose proof (xor_shiftl_inj 18444473444759240704 37 x2 y2 ltac:(lia) X2 Y2) as I3.
  revert X3 Y3 I3. generalize (Z.lxor x2 (Z.land (x2 * 2 ^ 37 mod 2 ^ 64) 18444473444759240704))
    (Z.lxor y2 (Z.land (y2 * 2 ^ 37 mod 2 ^ 64) 18444473444759240704)).
  intros x3 y3 X3 Y3 I3 E. apply I1, I2, I3. apply (xor_shiftr_inj (-1) 43); [lia|exact X3|exact Y3|].
  now rewrite !Z.land_m1_r.
Qed.

Lemma glue_inj u v u' v' : glue u v = glue u' v' -> u / 2 ^ 31 = u' / 2 ^ 31 /\ v mod 2 ^ 31 = v' mod 2 ^ 31.
Proof.
  unfold glue. intros E. pose proof (Z.mod_pos_bound v (2 ^ 31) ltac:(reflexivity)). pose proof (Z.mod_pos_bound v' (2 ^ 31) ltac:(reflexivity)).
  change (2 ^ 31) with 2147483648 in *. lia.
Qed.

Lemma twist_bit y : 0 <= y < 2 ^ 64 -> Z.testbit (twist y) 63 = Z.testbit y 0.
Proof.
  intros H. unfold twist. rewrite Z.lxor_spec. change (y / 2) with (y / 2 ^ 1). rewrite <- Z.shiftr_div_pow2, Z.shiftr_spec by lia.
  rewrite (word_bits y) by lia. rewrite xorb_false_l, <- Z.bit0_mod.
  destruct (Z.testbit y 0); reflexivity.
Qed.

Lemma twist_inj y z : 0 <= y < 2 ^ 64 -> 0 <= z < 2 ^ 64 -> twist y = twist z -> y = z.
Proof.
  intros Hy Hz E. pose proof (f_equal (fun a => Z.testbit a 63) E) as B. cbn beta in B. rewrite !twist_bit in B by assumption.
  assert (M : y mod 2 = z mod 2) by (rewrite <- !Z.bit0_mod; now rewrite B).
  unfold twist in E. rewrite M in E. apply lxor_cancel_r in E.
  rewrite (Z.div_mod y 2), (Z.div_mod z 2) by discriminate. now rewrite M, E.
Qed.

(** ** Windows *)

Definition recurrent (X : nat -> Z) : Prop :=
  (forall i, X (i + 312)%nat = Z.lxor (X (i + 156)%nat) (twist (glue (X i) (X (i + 1)%nat)))) /\
  (forall i, 0 <= X i < 2 ^ 64).

Lemma recurrent_sequence ws X : twister_sequence ws X -> length ws = 312%nat ->
  Forall (fun w => 0 <= w < 2 ^ 64) ws -> recurrent X.
Proof. intros H L R. split; [apply H|exact (sequence_range ws X H L R)]. Qed.

Lemma forward X Y a b : recurrent X -> recurrent Y -> (forall k, (k < 312)%nat -> X (a + k)%nat = Y (b + k)%nat) ->
  forall k, X (a + k)%nat = Y (b + k)%nat.
Proof.
  intros [RX _] [RY _] W k. induction k as [k IH] using (well_founded_induction lt_wf).
  destruct (le_lt_dec 312 k); [|now apply W].
  replace (a + k)%nat with ((a + (k - 312)) + 312)%nat by lia. replace (b + k)%nat with ((b + (k - 312)) + 312)%nat by lia.
  rewrite RX, RY. rewrite <- !Nat.add_assoc. rewrite !IH by lia. reflexivity.
Qed.

Lemma recurrent_glue X Y a b : recurrent X -> recurrent Y ->
  X (a + 312)%nat = Y (b + 312)%nat -> X (a + 156)%nat = Y (b + 156)%nat ->
  X a / 2 ^ 31 = Y b / 2 ^ 31 /\ X (a + 1)%nat mod 2 ^ 31 = Y (b + 1)%nat mod 2 ^ 31.
Proof.
  intros [RX BX] [RY BY] E1 E2. apply glue_inj. apply twist_inj; [apply glue_range, BX|apply glue_range, BY|].
  rewrite RX, RY, E2 in E1. exact (lxor_cancel_l _ _ _ E1).
Qed.

(** Two windows that agree also agree one place earlier, except at the first word. *)
Lemma backward1 X Y a b : recurrent X -> recurrent Y -> (forall k, X (S (S a) + k)%nat = Y (S (S b) + k)%nat) ->
  X (S a) = Y (S b).
Proof.
  intros RX RY W.
  destruct (recurrent_glue X Y (S a) (S b) RX RY) as [U _].
  { specialize (W 311%nat). now replace (S a + 312)%nat with (S (S a) + 311)%nat by lia; replace (S b + 312)%nat with (S (S b) + 311)%nat by lia. }
  { specialize (W 155%nat). now replace (S a + 156)%nat with (S (S a) + 155)%nat by lia; replace (S b + 156)%nat with (S (S b) + 155)%nat by lia. }
  destruct (recurrent_glue X Y a b RX RY) as [_ V].
  { specialize (W 310%nat). now replace (a + 312)%nat with (S (S a) + 310)%nat by lia; replace (b + 312)%nat with (S (S b) + 310)%nat by lia. }
  { specialize (W 154%nat). now replace (a + 156)%nat with (S (S a) + 154)%nat by lia; replace (b + 156)%nat with (S (S b) + 154)%nat by lia. }
  replace (a + 1)%nat with (S a) in V by lia. replace (b + 1)%nat with (S b) in V by lia.
  rewrite (Z.div_mod (X (S a)) (2 ^ 31)), (Z.div_mod (Y (S b)) (2 ^ 31)) by discriminate. now rewrite U, V.
Qed.

Lemma backward X Y a b d : recurrent X -> recurrent Y -> (forall k, X (S a + d + k)%nat = Y (S b + d + k)%nat) ->
  forall k, X (S a + k)%nat = Y (S b + k)%nat.
Proof.
  intros RX RY. induction d as [|d IH]; intros W.
  - intros k. specialize (W k). now rewrite !Nat.add_0_r in W.
  - apply IH. intros [|k].
    + rewrite !Nat.add_0_r. cbn [Nat.add]. apply backward1; [assumption..|]. intros k. specialize (W k).
      now replace (S (S (a + d)) + k)%nat with (S a + S d + k)%nat by lia; replace (S (S (b + d)) + k)%nat with (S b + S d + k)%nat by lia.
    + specialize (W k). now replace (S a + d + S k)%nat with (S a + S d + k)%nat by lia; replace (S b + d + S k)%nat with (S b + S d + k)%nat by lia.
Qed.

(** ** Seeds *)

Lemma next_word_inj x y i : 0 <= x < 2 ^ 64 -> 0 <= y < 2 ^ 64 ->
  (6364136223846793005 * Z.lxor x (Z.shiftr x 62) + i) mod 2 ^ 64 = (6364136223846793005 * Z.lxor y (Z.shiftr y 62) + i) mod 2 ^ 64 ->
  x = y.
Proof.
  intros Hx Hy. rewrite !Z.shiftr_div_pow2 by lia.
  assert (R : forall z, 0 <= z < 2 ^ 64 -> 0 <= Z.lxor z (z / 2 ^ 62) < 2 ^ 64).
  { intros z Hz. apply lxor_range; [exact Hz|]. split; [apply Z.div_pos; lia|]. apply Z.div_lt_upper_bound; [reflexivity|]. lia. }
  pose proof (R x Hx) as X1. pose proof (R y Hy) as Y1.
  pose proof (xor_shiftr_inj (-1) 62 x y ltac:(lia) Hx Hy) as I. rewrite !Z.land_m1_r in I.
  revert X1 Y1 I. generalize (Z.lxor x (x / 2 ^ 62)) (Z.lxor y (y / 2 ^ 62)). intros x1 y1 X1 Y1 I E. apply I.
  assert (M : forall z, (13877824140714322085 * ((6364136223846793005 * z + i) mod 2 ^ 64 - i)) mod 2 ^ 64 = z mod 2 ^ 64).
  { intros z. rewrite Zmult_mod, Zminus_mod_idemp_l, <- Zmult_mod.
    replace (13877824140714322085 * (6364136223846793005 * z + i - i)) with (z + z * ((13877824140714322085 * 6364136223846793005 - 1) / 2 ^ 64) * 2 ^ 64).
    - apply Z_mod_plus_full.
    - change ((13877824140714322085 * 6364136223846793005 - 1) / 2 ^ 64) with 4787856489426250814. change (2 ^ 64) with 18446744073709551616. ring. }
  rewrite <- (Z.mod_small x1 (2 ^ 64)), <- (Z.mod_small y1 (2 ^ 64)) by assumption. rewrite <- (M x1), <- (M y1). now rewrite E.
Qed.

(** The sequence of a seed. *)
Lemma seed_sequence s : exists X, recurrent X /\ X 0%nat = s mod 2 ^ 64 /\
  (forall i, (1 <= i < 312)%nat -> X i = (6364136223846793005 * Z.lxor (X (i - 1)%nat) (Z.shiftr (X (i - 1)%nat) 62) + Z.of_nat i) mod 2 ^ 64) /\
  forall n, exists e, mt_draws n (mt19937_64 s) = Ok (map (fun k => tempered (X (312 + k)%nat)) (seq 0 n), e).
Proof.
  destruct (mt_seeded s) as [H P]. pose proof H as (L & H0 & HS).
  destruct (sequence_exists _ L) as [X HX]. exists X. split; [exact (recurrent_sequence _ X HX L (mt_state_range s))|].
  split; [rewrite (proj1 HX) by lia; exact H0|]. split.
  - intros i Hi. rewrite !(proj1 HX) by lia. exact (HS i Hi).
  - intros n. exact (C99_seeded s _ X n H HX).
Qed.

Lemma seeds_differ s t X Y : recurrent X -> recurrent Y -> X 0%nat = s mod 2 ^ 64 -> Y 0%nat = t mod 2 ^ 64 ->
  X 1%nat = (6364136223846793005 * Z.lxor (X 0%nat) (Z.shiftr (X 0%nat) 62) + 1) mod 2 ^ 64 ->
  Y 1%nat = (6364136223846793005 * Z.lxor (Y 0%nat) (Z.shiftr (Y 0%nat) 62) + 1) mod 2 ^ 64 ->
  X 1%nat = Y 1%nat -> s mod 2 ^ 64 = t mod 2 ^ 64.
Proof.
  intros RX RY X0 Y0 X1 Y1 E. rewrite <- X0, <- Y0. apply (next_word_inj _ _ 1); [apply RX|apply RY|]. now rewrite <- X1, <- Y1.
Qed.

(** ** Lists of words *)

Lemma nth_skipn {A} n k (l : list A) d : nth k (skipn n l) d = nth (n + k) l d.
Proof.
  revert l. induction n as [|n IH]; intros l; [reflexivity|]. destruct l as [|a l]; [destruct k; reflexivity|]. apply IH.
Qed.

Lemma nth_words (f : nat -> Z) n k : (k < n)%nat -> nth k (map f (seq 0 n)) 0 = f k.
Proof.
  intros H. rewrite (nth_indep _ 0 (f 0%nat)) by (rewrite map_length, seq_length; exact H).
  rewrite map_nth, seq_nth by exact H. reflexivity.
Qed.

Lemma skipn_words (f : nat -> Z) n m : skipn n (map f (seq 0 (n + m))) = map (fun k => f (n + k)%nat) (seq 0 m).
Proof.
  apply (nth_ext _ _ 0 0).
  - rewrite skipn_length, !map_length, !seq_length. lia.
  - intros k. rewrite skipn_length, map_length, seq_length. intros Hk. rewrite nth_skipn, !nth_words by lia. reflexivity.
Qed.

Lemma words_agree (f g : nat -> Z) n : map f (seq 0 n) = map g (seq 0 n) -> forall k, (k < n)%nat -> f k = g k.
Proof. intros E k Hk. apply (f_equal (fun l => nth k l 0)) in E. cbn beta in E. now rewrite !nth_words in E by exact Hk. Qed.

(** Words handed out that agree come from words that agree. *)
Lemma untempered X Y a b n : recurrent X -> recurrent Y ->
  map (fun k => tempered (X (a + k)%nat)) (seq 0 n) = map (fun k => tempered (Y (b + k)%nat)) (seq 0 n) ->
  forall k, (k < n)%nat -> X (a + k)%nat = Y (b + k)%nat.
Proof.
  intros [_ BX] [_ BY] E k Hk. apply tempered_inj; [apply BX|apply BY|].
  exact (words_agree (fun k => tempered (X (a + k)%nat)) (fun k => tempered (Y (b + k)%nat)) n E k Hk).
Qed.

(** ** Pigeonhole *)

Lemma pigeonhole (N : nat) (f : nat -> Z) : (forall i, 0 <= f i < Z.of_nat N) -> exists i d, (0 < d)%nat /\ f i = f (i + d)%nat.
Proof.
  intros H. set (l := map (fun i => Z.to_nat (f i)) (seq 0 (S N))).
  destruct (NoDup_dec Nat.eq_dec l) as [D|D].
  - exfalso. assert (I : incl l (seq 0 N)).
    { intros a Ha. apply in_map_iff in Ha. destruct Ha as (i & <- & _). apply in_seq. specialize (H i). lia. }
    pose proof (NoDup_incl_length D I) as Q. unfold l in Q. rewrite map_length, !seq_length in Q. lia.
  - assert (K : forall m a, ~ NoDup (map (fun i => Z.to_nat (f i)) (seq a m)) -> exists i d, (0 < d)%nat /\ f i = f (i + d)%nat).
    { clear D l. induction m as [|m IH]; intros a D; [exfalso; apply D; constructor|]. cbn [seq map] in D.
      destruct (in_dec Nat.eq_dec (Z.to_nat (f a)) (map (fun i => Z.to_nat (f i)) (seq (S a) m))) as [J|J].
      - apply in_map_iff in J. destruct J as (i & E & Hi). apply in_seq in Hi. exists a, (i - a)%nat. split; [lia|].
        replace (a + (i - a))%nat with i by lia. pose proof (H a). pose proof (H i). lia.
      - apply (IH (S a)). intros D'. apply D. now constructor. }
    exact (K (S N) 0%nat D).
Qed.

(** The number whose digits to the base 2^64 are the words. *)
Fixpoint packed (X : nat -> Z) (i n : nat) : Z :=
  match n with O => 0 | S n' => X i + 2 ^ 64 * packed X (S i) n' end.

Lemma packed_range X n : (forall i, 0 <= X i < 2 ^ 64) -> forall i, 0 <= packed X i n < 2 ^ (64 * Z.of_nat n).
Proof.
  intros B. induction n as [|n IH]; intros i; [cbn; lia|]. cbn [packed]. specialize (IH (S i)). specialize (B i).
  replace (64 * Z.of_nat (S n)) with (64 + 64 * Z.of_nat n) by lia. rewrite Z.pow_add_r by lia.
  revert IH. generalize (2 ^ (64 * Z.of_nat n)) (packed X (S i) n). intros q p IH. change (2 ^ 64) with 18446744073709551616 in *. lia.
Qed.

Lemma packed_inj X n : (forall i, 0 <= X i < 2 ^ 64) -> forall i j, packed X i n = packed X j n ->
  forall k, (k < n)%nat -> X (i + k)%nat = X (j + k)%nat.
Proof.
  intros B. induction n as [|n IH]; intros i j E k Hk; [lia|]. cbn [packed] in E.
  pose proof (B i). pose proof (B j). assert (X i = X j /\ packed X (S i) n = packed X (S j) n) as [E1 E2].
  { revert E. generalize (packed X (S i) n) (packed X (S j) n). intros p q E. change (2 ^ 64) with 18446744073709551616 in *. lia. }
  destruct k as [|k]; [now rewrite !Nat.add_0_r|]. rewrite !Nat.add_succ_r. apply (IH (S i) (S j) E2). lia.
Qed.

Lemma window_recurs X : recurrent X -> exists i d, (0 < d)%nat /\ forall k, X (i + k)%nat = X (i + d + k)%nat.
Proof.
  intros R. pose proof (packed_range X 312 (proj2 R)) as PR.
  destruct (pigeonhole (Z.to_nat (2 ^ (64 * Z.of_nat 312))) (fun i => packed X i 312)) as (i & d & Hd & E).
  - intros i. rewrite Z2Nat.id; [apply PR|]. apply Z.pow_nonneg. lia.
  - exists i, d. split; [exact Hd|]. apply (forward X X i (i + d) R R). apply packed_inj; [apply R|exact E].
Qed.

(** From the second word on the sequence is periodic. *)
Lemma periodic X : recurrent X -> exists d, (0 < d)%nat /\ forall k, X (S k) = X (S k + d)%nat.
Proof.
  intros R. destruct (window_recurs X R) as (i & d & Hd & W). exists d. split; [exact Hd|].
  intros k. assert (B : forall k, X (S 0 + k)%nat = X (S d + k)%nat).
  { apply (backward X X 0 d i R R). intros j. specialize (W (1 + j)%nat). 
    now replace (1 + i + j)%nat with (i + (1 + j))%nat by lia; replace (S d + i + j)%nat with (i + d + (1 + j))%nat by lia. }
  specialize (B k). cbn [Nat.add] in B. rewrite B. f_equal. lia.
Qed.
