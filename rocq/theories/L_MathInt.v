(** Proofs about the integer utilities. *)
From Coq Require Import ZArith List Bool Lia.
From Verif Require Import Base S_Math M_MathInt M_Pairs.
Import ListNotations.
Open Scope Z_scope.
Local Arguments prodZ : simpl never.
Local Arguments sumZ : simpl never.

Lemma prodZ_cons x l : prodZ (x :: l) = x * prodZ l. Proof. reflexivity. Qed.
Lemma sumZ_cons x l : sumZ (x :: l) = x + sumZ l. Proof. reflexivity. Qed.

Lemma prodZ_pos l : Forall (fun s => 0 < s) l -> 0 < prodZ l.
Proof. induction 1; rewrite ?prodZ_cons; [reflexivity||(unfold prodZ; simpl; lia)|nia]. Qed.

Lemma prodZ_nonneg l : Forall (fun s => 0 <= s) l -> 0 <= prodZ l.
Proof. induction 1; rewrite ?prodZ_cons; [reflexivity||(unfold prodZ; simpl; lia)|nia]. Qed.

Lemma prodZ_zero_In l : prodZ l = 0 <-> In 0 l.
Proof.
  induction l as [|x l IH]; simpl; [unfold prodZ; simpl; lia|].
  rewrite prodZ_cons. split.
  - intros H. apply Z.mul_eq_0 in H as [H|H]; [left; lia|right; tauto].
  - intros [->|H]; [lia|]. rewrite (proj2 IH H). lia.
Qed.

(** ** Folds *)

Lemma accumulate_product_u_gen v acc :
  fold_left (fun acc x => u64 (acc * x)) v (u64 acc) = u64 (acc * prodZ v).
Proof.
  revert acc; induction v as [|x v IH]; intros acc; simpl.
  - unfold prodZ; simpl. now rewrite Z.mul_1_r.
  - rewrite u64_mul_idem_l, IH. f_equal. rewrite prodZ_cons. ring.
Qed.

Lemma accumulate_product_u_spec v : accumulate_product_u v = u64 (prodZ v).
Proof.
  unfold accumulate_product_u.
  replace 1 with (u64 1) at 1 by (apply u64_small; rewrite two64_eq; lia).
  rewrite accumulate_product_u_gen. f_equal. ring.
Qed.

Lemma accumulate_sum_u_gen v acc :
  fold_left (fun acc x => u64 (acc + x)) v (u64 acc) = u64 (acc + sumZ v).
Proof.
  revert acc; induction v as [|x v IH]; intros acc; simpl.
  - unfold sumZ; simpl. now rewrite Z.add_0_r.
  - replace (u64 (u64 acc + x)) with (u64 (acc + x)).
    + rewrite IH. f_equal. rewrite sumZ_cons. ring.
    + unfold u64. now rewrite Zplus_mod_idemp_l.
Qed.

Lemma accumulate_sum_u_spec v : accumulate_sum_u v = u64 (sumZ v).
Proof.
  unfold accumulate_sum_u.
  replace 0 with (u64 0) at 1 by (apply u64_small; rewrite two64_eq; lia).
  now rewrite accumulate_sum_u_gen.
Qed.

Lemma sgn_Z x : sgn Z.ltb 0 x = Z.sgn x.
Proof. unfold sgn. destruct x; reflexivity. Qed.

Lemma absdiff_u_spec a b : is_u64 a = true -> is_u64 b = true -> absdiff_u a b = Z.abs (a - b).
Proof.
  rewrite !is_u64_spec. intros Ha Hb. unfold absdiff_u.
  destruct (Z.ltb_spec b a); rewrite u64_small; lia.
Qed.

Lemma signeddiff_spec a b : is_u64 a = true -> is_u64 b = true -> Z.abs (a - b) < two63 ->
  signeddiff a b = Ok (a - b).
Proof.
  rewrite !is_u64_spec. intros Ha Hb H. pose proof two64_double. unfold signeddiff.
  destruct (Z.ltb_spec b a); rewrite to_s64_u64, to_s64_small by lia; [reflexivity|].
  rewrite s64_ok by lia. f_equal. lia.
Qed.

(** ** Row-major conversion *)

Lemma on_grid_length size c : on_grid size c -> length size = length c.
Proof. apply Forall2_length. Qed.

Lemma on_grid_pos size c : on_grid size c -> Forall (fun s => 0 < s) size.
Proof. induction 1; constructor; auto; lia. Qed.

Lemma row_major_range size c : on_grid size c -> 0 <= row_major size c < prodZ size.
Proof.
  induction 1 as [|s x size c Hx Hc IH]; simpl.
  - unfold prodZ; simpl; lia.
  - rewrite prodZ_cons. nia.
Qed.

Lemma row_major_inj size c c' :
  on_grid size c -> on_grid size c' -> row_major size c = row_major size c' -> c = c'.
Proof.
  intros H; revert c'; induction H as [|s x size c Hx Hc IH]; intros c' H' E.
  - inversion H'. reflexivity.
  - inversion H' as [|s' y size' c2 Hy Hc2]; subst. simpl in E.
    pose proof (row_major_range _ _ Hc). pose proof (row_major_range _ _ Hc2).
    assert (x = y) by nia. subst y. f_equal. apply IH; [assumption|]. lia.
Qed.

Lemma row_major_surj size i :
  Forall (fun s => 0 < s) size -> 0 <= i < prodZ size ->
  exists c, on_grid size c /\ row_major size c = i.
Proof.
  intros H; revert i; induction H as [|s size Hs Hsz IH]; intros i Hi.
  - exists []. split; [constructor|]. unfold prodZ in Hi; simpl in *. lia.
  - rewrite prodZ_cons in Hi. pose proof (prodZ_pos _ Hsz) as Hp.
    destruct (IH (i mod prodZ size)) as [c [Hc Ec]].
    { apply Z.mod_pos_bound. lia. }
    exists (i / prodZ size :: c). split.
    + constructor; [|exact Hc]. split; [apply Z.div_pos; lia|].
      apply Z.div_lt_upper_bound; lia.
    + simpl. rewrite Ec. pose proof (Z.div_mod i (prodZ size)). lia.
Qed.

Lemma a2i_loop_spec size c index :
  on_grid size c -> prodZ size < two64 -> 0 <= index -> index + prodZ size <= two64 ->
  a2i_loop size c (prodZ size) index = Ok (index + row_major size c).
Proof.
  intros H; revert index; induction H as [|s x size c Hx Hc IH]; intros index Hp Hi Hs.
  - simpl. f_equal. lia.
  - cbn [a2i_loop row_major]. rewrite prodZ_cons in *.
    destruct (Z.eqb_spec s 0); [lia|].
    pose proof (prodZ_pos _ (on_grid_pos _ _ Hc)) as Hpp.
    replace (s * prodZ size / s) with (prodZ size) by (rewrite Z.mul_comm, Z.div_mul; lia).
    rewrite (u64_small x) by nia. rewrite (u64_small (prodZ size * x)) by nia.
    rewrite u64_small by nia.
    rewrite IH by nia. f_equal. lia.
Qed.

Lemma array_to_index_spec size c :
  on_grid size c -> prodZ size < two64 -> array_to_index c size = Ok (row_major size c).
Proof.
  intros H Hp. unfold array_to_index. rewrite accumulate_product_u_spec.
  pose proof (prodZ_pos _ (on_grid_pos _ _ H)).
  rewrite u64_small by lia. rewrite (a2i_loop_spec size c 0); try lia; auto.
Qed.

Lemma i2a_loop_spec size c :
  on_grid size c -> Forall (fun s => s <= two63) size ->
  i2a_loop size (prodZ size) (row_major size c) = Ok c.
Proof.
  intros H; induction H as [|s x size c Hx Hc IH]; intros Hb.
  - reflexivity.
  - cbn [i2a_loop row_major]. inversion Hb; subst. rewrite prodZ_cons in *.
    destruct (Z.eqb_spec s 0); [lia|].
    pose proof (prodZ_pos _ (on_grid_pos _ _ Hc)) as Hpp.
    pose proof (row_major_range _ _ Hc) as Hr.
    replace (s * prodZ size / s) with (prodZ size) by (rewrite Z.mul_comm, Z.div_mul; lia).
    destruct (Z.eqb_spec (prodZ size) 0); [lia|].
    replace ((x * prodZ size + row_major size c) mod prodZ size) with (row_major size c)
      by (apply Z.mod_unique with x; lia).
    replace ((x * prodZ size + row_major size c) / prodZ size) with x
      by (apply Z.div_unique with (row_major size c); lia).
    rewrite IH by assumption. simpl. rewrite to_s64_small by lia. reflexivity.
Qed.

Lemma index_to_array_row_major size c :
  on_grid size c -> Forall (fun s => s <= two63) size -> prodZ size < two64 ->
  index_to_array (row_major size c) size = Ok c.
Proof.
  intros H Hb Hp. unfold index_to_array. rewrite accumulate_product_u_spec.
  pose proof (prodZ_pos _ (on_grid_pos _ _ H)).
  rewrite u64_small by lia. now apply i2a_loop_spec.
Qed.

Lemma index_to_array_spec size i :
  Forall (fun s => 0 < s <= two63) size -> prodZ size < two64 -> 0 <= i < prodZ size ->
  exists c, index_to_array i size = Ok c /\ on_grid size c /\ row_major size c = i.
Proof.
  intros Hb Hp Hi.
  destruct (row_major_surj size i) as [c [Hc Ec]]; [|assumption|].
  { eapply Forall_impl; [|exact Hb]. simpl; intros; lia. }
  exists c. split; [|auto]. rewrite <- Ec. apply index_to_array_row_major; auto.
  eapply Forall_impl; [|exact Hb]. simpl; intros; lia.
Qed.

(** Undefined cases. *)
Lemma a2i_loop_ub size a prod index :
  In 0 size \/ (length a < length size)%nat -> a2i_loop size a prod index = UB.
Proof.
  revert a prod index; induction size as [|s size IH]; intros a prod index H; simpl in *.
  - destruct H as [[]|H]; lia.
  - destruct (Z.eqb_spec s 0); [reflexivity|].
    destruct a as [|c a]; [reflexivity|]. apply IH. simpl in H.
    destruct H as [[H|H]|H]; [lia|now left|right; lia].
Qed.

Lemma a2i_loop_defined size a prod index :
  ~ In 0 size -> (length size <= length a)%nat -> exists r, a2i_loop size a prod index = Ok r.
Proof.
  revert a prod index; induction size as [|s size IH]; intros a prod index H Hl; simpl in *.
  - eauto.
  - destruct (Z.eqb_spec s 0); [exfalso; apply H; auto|].
    destruct a as [|c a]; [simpl in Hl; lia|]. apply IH; [tauto|simpl in Hl; lia].
Qed.

Lemma i2a_loop_ub size prod index :
  size <> [] -> Forall (fun s => 0 <= s) size -> 0 <= prod ->
  In 0 size \/ prod < prodZ size -> i2a_loop size prod index = UB.
Proof.
  revert prod index; induction size as [|s size IH]; intros prod index Hne Hnn Hp H;
    [congruence|].
  cbn [i2a_loop]. inversion Hnn; subst. destruct (Z.eqb_spec s 0); [reflexivity|].
  destruct (Z.eqb_spec (prod / s) 0) as [E|E]; [reflexivity|].
  destruct size as [|s' size].
  - exfalso. destruct H as [[H|[]]|H]; [lia|].
    rewrite prodZ_cons in H. unfold prodZ in H; simpl in H. rewrite Z.div_small in E; lia.
  - rewrite IH; [reflexivity|discriminate|assumption|apply Z.div_pos; lia|].
    destruct H as [[H|H]|H]; [lia|now left|right].
    rewrite prodZ_cons in H. apply Z.div_lt_upper_bound; lia.
Qed.

Lemma i2a_loop_defined size prod index :
  Forall (fun s => 0 < s) size -> prodZ size <= prod ->
  exists r, i2a_loop size prod index = Ok r.
Proof.
  intros H; revert prod index; induction H as [|s size Hs Hsz IH]; intros prod index Hp.
  - simpl; eauto.
  - cbn [i2a_loop]. destruct (Z.eqb_spec s 0); [lia|].
    pose proof (prodZ_pos _ Hsz). rewrite prodZ_cons in Hp.
    assert (prodZ size <= prod / s) by (apply Z.div_le_lower_bound; lia).
    destruct (Z.eqb_spec (prod / s) 0); [lia|].
    destruct (IH (prod / s) (index mod (prod / s))) as [r ->]; [assumption|].
    simpl. eauto.
Qed.

(** ** get_gcd *)

Lemma Zquot_overflow m a b :
  0 < m -> - m <= a < m -> b <> 0 -> ~ (- m <= Z.quot a b < m) -> a = - m /\ b = -1.
Proof.
  intros Hm Ha Hb Hq.
  destruct (Z.eq_dec b (-1)) as [->|Hb1].
  - split; [|reflexivity]. replace (Z.quot a (-1)) with (- a) in Hq; [lia|].
    change (-1) with (- (1)). rewrite Z.quot_opp_r by lia. rewrite Z.quot_1_r. lia.
  - exfalso. apply Hq.
    destruct (Z.eq_dec b 1) as [->|Hb2]; [rewrite Z.quot_1_r; lia|].
    assert (Habs : Z.abs (Z.quot a b) = Z.abs a / Z.abs b).
    { rewrite <- Z.quot_div_nonneg by lia. now rewrite Z.quot_abs. }
    assert (Z.abs a / Z.abs b <= Z.abs a / 2) by (apply Z.div_le_compat_l; lia).
    assert (Z.abs a / 2 <= m / 2) by (apply Z.div_le_mono; lia).
    assert (m / 2 < m) by (apply Z.div_lt; lia).
    lia.
Qed.

Definition gcd_bad (w a b : Z) : Prop :=
  (a = - 2 ^ (w - 1) /\ b = -1) \/ (a = -1 /\ b = - 2 ^ (w - 1)).

Lemma Zgcd_rem a b : b <> 0 -> Z.gcd b (Z.rem a b) = Z.gcd a b.
Proof.
  intros Hb. rewrite (Z.gcd_comm a b).
  rewrite (Z.quot_rem' a b) at 2.
  rewrite Z.add_comm, Z.mul_comm, Z.gcd_add_mult_diag_r. reflexivity.
Qed.

Lemma pow_le_63 w : 2 <= w <= 64 -> 2 <= 2 ^ (w - 1) <= 2 ^ 63.
Proof.
  intros H. split.
  - change 2 with (2 ^ 1) at 1. apply Z.pow_le_mono_r; lia.
  - apply Z.pow_le_mono_r; lia.
Qed.

Lemma get_gcd_spec w a b :
  2 <= w <= 64 -> is_sint w a = true -> is_sint w b = true ->
  (gcd_bad w a b -> get_gcd w a b = UB) /\
  (~ gcd_bad w a b -> exists g, get_gcd w a b = Ok g /\ Z.abs g = Z.gcd a b
                         /\ (0 <= a -> 0 <= b -> 0 <= g)).
Proof.
  intros Hw Ha Hb. apply is_sint_spec in Ha, Hb.
  pose proof (pow_le_63 w Hw) as Hpow. change (2 ^ 63) with 9223372036854775808 in Hpow.
  set (M := 2 ^ (w - 1)) in *.
  pose (Q := fun (bad : Prop) (r : out Z) => (bad -> r = UB) /\ (~ bad -> exists g, r = Ok g /\ Z.abs g = Z.gcd a b
     /\ (0 <= a -> 0 <= b -> 0 <= g))).
  change (Q (gcd_bad w a b) (get_gcd w a b)).
  unfold get_gcd.
  apply (while_total (gcd_body w)
          (fun st => let '(x, y) := st in
             - M <= x < M /\ - M <= y < M /\ Z.gcd x y = Z.gcd a b /\
             (gcd_bad w x y <-> gcd_bad w a b) /\ (0 <= a -> 0 <= b -> 0 <= x /\ 0 <= y))
          (Q (gcd_bad w a b)) (fun st => Z.abs (snd st))).
  - intros [x y] (Hx & Hy & Hg & Hbad & Hsg). unfold gcd_body.
    destruct (Z.eqb_spec y 0) as [->|Hy0].
    + split.
      * intros HB. apply Hbad in HB. unfold gcd_bad in HB. fold M in HB. lia.
      * intros _. exists x. rewrite <- Hg, Z.gcd_0_r. repeat split; auto. intros; now apply Hsg.
    + destruct (sint_cases w (Z.quot x y)) as [[-> Hr]|[-> Hr]].
      * cbn [snd]. pose proof (Z.rem_bound_abs x y Hy0) as Hrb.
        split; [|lia]. split; [assumption|]. split; [lia|]. split.
        { rewrite Zgcd_rem by assumption. assumption. }
        split.
        { rewrite <- Hbad. unfold gcd_bad. fold M in Hr |- *. split.
          - intros [[-> E]|[-> E]]; [right|lia].
            split; [|reflexivity].
            destruct (Z.lt_ge_cases (Z.abs x) (Z.abs (-M))) as [Hl|Hl].
            + assert (Z.rem x (-M) = x) by (apply Z.rem_small_iff; [lia|]; exact Hl). lia.
            + assert (x = - M) by lia. subst x. rewrite Z.rem_same in E by lia. lia.
          - intros [[-> ->]|[-> ->]].
            + exfalso. change (-1) with (- (1)) in Hr.
              rewrite Z.quot_opp_r, Z.quot_1_r in Hr by lia. lia.
            + left. split; [reflexivity|]. apply Z.rem_small_iff; lia. }
        { intros H1 H2. destruct (Hsg H1 H2). split; [lia|]. apply Z.rem_nonneg; lia. }
      * fold M in Hr. destruct (Zquot_overflow M x y) as [-> ->]; [lia..|].
        split; [reflexivity|]. intros HB. exfalso. apply HB, Hbad. left. fold M. auto.
  - split; [assumption|]. split; [assumption|]. split; [reflexivity|]. split; [tauto|auto].
  - cbn [snd]. lia.
Qed.

(** ** cbinomial *)

Lemma binom_gt n k : (n < k)%nat -> binom n k = 0%nat.
Proof.
  revert k; induction n as [|n IH]; intros [|k] H; simpl; try lia.
  rewrite (IH k), (IH (S k)) by lia. reflexivity.
Qed.

Lemma binom_n_0 n : binom n 0 = 1%nat.
Proof. destruct n; reflexivity. Qed.

Lemma binom_n_n n : binom n n = 1%nat.
Proof.
  induction n as [|n IH]; [reflexivity|]. simpl. rewrite IH, binom_gt; lia.
Qed.

Lemma binom_S n k : binom (S n) (S k) = (binom n k + binom n (S k))%nat.
Proof. reflexivity. Qed.

(** (k+1) C(n,k+1) = (n-k) C(n,k) *)
Lemma binom_absorb n k : (k <= n)%nat -> (S k * binom n (S k) = (n - k) * binom n k)%nat.
Proof.
  revert k; induction n as [|n IH]; intros k Hk.
  - assert (k = 0)%nat by lia. subst k. reflexivity.
  - destruct k as [|k].
    + rewrite binom_S, binom_n_0. destruct (Nat.eq_dec n 0) as [->|Hn]; [reflexivity|].
      pose proof (IH 0%nat ltac:(lia)) as H. rewrite binom_n_0 in *. nia.
    + rewrite !binom_S.
      destruct (Nat.eq_dec k n) as [->|Hne].
      { rewrite (binom_gt n (S n)), (binom_gt n (S (S n))) by lia. lia. }
      pose proof (IH k ltac:(lia)) as H1. pose proof (IH (S k) ltac:(lia)) as H2.
      replace (S n - S k)%nat with (n - k)%nat by lia.
      replace (n - k)%nat with (S (n - S k)) in * by lia. nia.
Qed.

Lemma binom_sym n k : (k <= n)%nat -> binom n k = binom n (n - k).
Proof.
  revert k; induction n as [|n IH]; intros k Hk.
  - assert (k = 0)%nat by lia. now subst k.
  - destruct k as [|k].
    + rewrite Nat.sub_0_r, binom_n_n, binom_n_0. reflexivity.
    + destruct (Nat.eq_dec k n) as [->|Hne].
      { rewrite Nat.sub_diag, binom_n_n, binom_n_0. reflexivity. }
      rewrite binom_S. replace (S n - S k)%nat with (S (n - S k)) by lia.
      rewrite binom_S. rewrite (IH k) by lia. rewrite (IH (S k)) by lia.
      replace (S (n - S k)) with (n - k)%nat by lia. lia.
Qed.

Lemma binom_mono n i k : (i <= k)%nat -> (2 * k <= n)%nat -> (binom n i <= binom n k)%nat.
Proof.
  intros H Hk. induction H as [|k H IH]; [lia|].
  pose proof (binom_absorb n k ltac:(lia)) as E.
  specialize (IH ltac:(lia)). nia.
Qed.

Lemma binom_pos n k : (k <= n)%nat -> (0 < binom n k)%nat.
Proof.
  revert k; induction n as [|n IH]; intros [|k] H; simpl; try lia.
  specialize (IH k). lia.
Qed.

Lemma binomZ_sym n k : 0 <= k <= n -> binomZ n k = binomZ n (n - k).
Proof.
  intros H. unfold binomZ. rewrite (binom_sym (Z.to_nat n)) by lia.
  do 2 f_equal. lia.
Qed.

Lemma binomZ_step n i : 1 <= i <= n -> binomZ n i * i = binomZ n (i - 1) * (n + 1 - i).
Proof.
  intros H. unfold binomZ.
  pose proof (binom_absorb (Z.to_nat n) (Z.to_nat (i - 1)) ltac:(lia)) as E.
  replace (S (Z.to_nat (i - 1))) with (Z.to_nat i) in E by lia.
  apply (f_equal Z.of_nat) in E. rewrite !Nat2Z.inj_mul in E.
  rewrite Nat2Z.inj_sub in E by lia. rewrite !Z2Nat.id in E by lia. lia.
Qed.

Lemma binomZ_mono n i k : 0 <= i <= k -> 2 * k <= n -> binomZ n i <= binomZ n k.
Proof.
  intros H Hk. unfold binomZ. apply Nat2Z.inj_le. apply binom_mono; lia.
Qed.

Lemma binomZ_pos n k : 0 <= k <= n -> 0 < binomZ n k.
Proof. intros H. unfold binomZ. pose proof (binom_pos (Z.to_nat n) (Z.to_nat k)). lia. Qed.

Lemma cbinomial_loop n k :
  0 <= k -> 2 * k <= n -> n < two63 - 1 -> binomZ n k * k < two63 ->
  while_ (cbinomial_body n k) (1, 1) = Ok (binomZ n k).
Proof.
  intros Hk Hkn Hn Hfit. pose proof two63_eq as E63.
  apply (while_total (cbinomial_body n k)
    (fun st => 1 <= fst st <= k + 1 /\ snd st = binomZ n (fst st - 1))
    (fun r => r = Ok (binomZ n k))
    (fun st => k + 1 - fst st)).
  - intros [i res] [Hi Hres]. cbn [fst snd] in *. unfold cbinomial_body.
    destruct (Z.leb_spec i k) as [Hle|Hgt].
    + rewrite s64_ok by lia. cbn [bind]. rewrite s64_ok by lia. cbn [bind].
      pose proof (binomZ_step n i ltac:(lia)) as Hst.
      pose proof (binomZ_mono n i k ltac:(lia) ltac:(lia)) as Hmono.
      pose proof (binomZ_pos n i ltac:(lia)) as Hpos.
      assert (Hp : res * (n + 1 - i) = binomZ n i * i) by (rewrite Hres; lia).
      rewrite Hp. rewrite s64_ok by nia. cbn [bind]. rewrite s64_ok by lia. cbn [bind].
      rewrite Z.quot_mul by lia. cbn [fst snd].
      split; [split; [lia|]|lia]. f_equal. lia.
    + f_equal. rewrite Hres. f_equal. lia.
  - cbn [fst snd]. split; [lia|]. unfold binomZ. simpl. destruct (Z.to_nat n); reflexivity.
  - cbn [fst]. lia.
Qed.

Lemma cbinomial_int_spec n k :
  0 <= k <= n -> n < two63 - 1 -> binomZ n k * Z.min k (n - k) < two63 ->
  cbinomial_int n k = Ok (binomZ n k).
Proof.
  intros Hk Hn Hfit. pose proof two63_eq. unfold cbinomial_int.
  destruct (Z.ltb_spec n k); [lia|]. rewrite s64_ok by lia. cbn [bind].
  destruct (Z.ltb_spec (n - k) k).
  - rewrite (binomZ_sym n k) in * by lia. rewrite Z.min_r in Hfit by lia.
    apply cbinomial_loop; lia.
  - rewrite Z.min_l in Hfit by lia. apply cbinomial_loop; lia.
Qed.

Lemma cbinomial_loop_ub n k :
  0 <= k -> 2 * k <= n -> n < two63 - 1 -> two63 <= binomZ n k * k ->
  while_ (cbinomial_body n k) (1, 1) = UB.
Proof.
  intros Hk Hkn Hn Hfit. pose proof two63_eq as E63.
  apply (while_total (cbinomial_body n k)
    (fun st => 1 <= fst st <= k + 1 /\ snd st = binomZ n (fst st - 1) /\
               binomZ n (fst st - 1) * (fst st - 1) < two63)
    (fun r => r = UB)
    (fun st => k + 1 - fst st)).
  - intros [i res] (Hi & Hres & Hlt). cbn [fst snd] in *. unfold cbinomial_body.
    destruct (Z.leb_spec i k) as [Hle|Hgt].
    + rewrite s64_ok by lia. cbn [bind]. rewrite s64_ok by lia. cbn [bind].
      pose proof (binomZ_step n i ltac:(lia)) as Hst.
      pose proof (binomZ_pos n i ltac:(lia)) as Hpos.
      assert (Hp : res * (n + 1 - i) = binomZ n i * i) by (rewrite Hres; lia).
      rewrite Hp. unfold s64 at 1. 
      destruct (sint_cases 64 (binomZ n i * i)) as [[-> Hr]|[-> Hr]]; cbn [bind]; [|reflexivity].
      rewrite s64_ok by lia. cbn [bind].
      rewrite Z.quot_mul by lia. cbn [fst snd].
      replace (i + 1 - 1) with i by lia.
      split; [|lia]. split; [lia|]. split; [reflexivity|]. apply Hr.
    + exfalso. assert (i = k + 1) by lia. subst i. replace (k + 1 - 1) with k in Hlt by lia. lia.
  - cbn [fst snd]. split; [lia|]. split; [|lia].
    unfold binomZ. simpl. destruct (Z.to_nat n); reflexivity.
  - cbn [fst]. lia.
Qed.

Lemma cbinomial_int_overflow n k :
  0 <= k <= n -> n < two63 - 1 -> two63 <= binomZ n k * Z.min k (n - k) ->
  cbinomial_int n k = UB.
Proof.
  intros Hk Hn Hfit. pose proof two63_eq. unfold cbinomial_int.
  destruct (Z.ltb_spec n k); [lia|]. rewrite s64_ok by lia. cbn [bind].
  destruct (Z.ltb_spec (n - k) k).
  - rewrite (binomZ_sym n k) in * by lia. rewrite Z.min_r in Hfit by lia.
    apply cbinomial_loop_ub; lia.
  - rewrite Z.min_l in Hfit by lia. apply cbinomial_loop_ub; lia.
Qed.

Lemma cbinomial_int_zero n k : n < k -> cbinomial_int n k = Ok 0.
Proof. intros H. unfold cbinomial_int. destruct (Z.ltb_spec n k); [reflexivity|lia]. Qed.

Lemma cbinomial_int_neg n k :
  k < 0 -> k <= n -> - two63 <= k -> - two63 <= n < two63 -> n - k < two63 ->
  cbinomial_int n k = Ok 1.
Proof.
  intros Hk Hkn Hkr Hnr Hd. unfold cbinomial_int.
  destruct (Z.ltb_spec n k); [lia|]. rewrite s64_ok by lia. cbn [bind].
  destruct (Z.ltb_spec (n - k) k); [lia|].
  apply (while_total (cbinomial_body n k) (fun st => st = (1, 1)) (fun r => r = Ok 1) (fun _ => 0)).
  - intros st ->. unfold cbinomial_body. destruct (Z.leb_spec 1 k); [lia|reflexivity].
  - reflexivity.
  - lia.
Qed.

(** ** Pairs *)

Lemma GetPairIndex_small a b m :
  0 <= a -> 0 <= b -> 0 <= m -> b * m + a < two64 -> GetPairIndex a b m = b * m + a.
Proof.
  intros Ha Hb Hm H. unfold GetPairIndex. rewrite (u64_small (b * m)) by nia.
  apply u64_small. nia.
Qed.

Lemma pair_round_trip a b m :
  0 <= a < m -> 0 <= b -> b * m + a < two64 ->
  GetPair (GetPairIndex a b m) m = Ok (a, b).
Proof.
  intros Ha Hb H. rewrite GetPairIndex_small by lia. unfold GetPair.
  destruct (Z.eqb_spec m 0); [lia|]. do 2 f_equal.
  - symmetry. apply Z.mod_unique with b; lia.
  - symmetry. apply Z.div_unique with a; lia.
Qed.

Lemma pair_round_trip' i m :
  0 <= i < two64 -> 0 < m -> exists a b, GetPair i m = Ok (a, b) /\ 0 <= a < m /\ 0 <= b <= i
     /\ GetPairIndex a b m = i.
Proof.
  intros Hi Hm. exists (i mod m), (i / m). unfold GetPair.
  destruct (Z.eqb_spec m 0); [lia|]. split; [reflexivity|].
  pose proof (Z.mod_pos_bound i m Hm). pose proof (Z.div_mod i m ltac:(lia)).
  assert (0 <= i / m) by (apply Z.div_pos; lia).
  assert (i / m <= i) by nia.
  repeat split; try lia.
  rewrite GetPairIndex_small; lia.
Qed.

(** ** Vector arithmetic *)

Lemma subtract_sum_into l r s :
  length l = length r -> Forall (fun x => - two63 <= x < two63) l ->
  sum_into l r = Ok s -> subtract_into s r = Ok l.
Proof.
  revert r s; induction l as [|a l IH]; intros [|b r] s Hl Hr H; simpl in *; try discriminate.
  - injection H as <-. reflexivity.
  - apply bind_ok in H as [x [Hx H]]. apply bind_ok in H as [t [Ht H]]. injection H as <-.
    apply s64_inv in Hx as [-> Hx]. inversion Hr; subst. simpl.
    replace (a + b - b) with a by lia. rewrite s64_ok by assumption. simpl.
    rewrite (IH r t) by (try assumption; lia). reflexivity.
Qed.

Lemma sum_into_spec l r s :
  sum_into l r = Ok s ->
  (length l <= length r)%nat /\ length s = length l /\
  forall i, (i < length l)%nat -> nth i s 0 = nth i l 0 + nth i r 0.
Proof.
  revert r s; induction l as [|a l IH]; intros [|b r] s H; simpl in *; try discriminate.
  - injection H as <-. repeat split; simpl; lia.
  - injection H as <-. repeat split; simpl; lia.
  - apply bind_ok in H as [x [Hx H]]. apply bind_ok in H as [t [Ht H]]. injection H as <-.
    apply s64_inv in Hx as [-> Hx]. destruct (IH r t Ht) as (H1 & H2 & H3).
    repeat split; simpl; try lia. intros [|i] Hi; [reflexivity|]. apply H3. lia.
Qed.

Lemma subtract_into_spec l r s :
  subtract_into l r = Ok s ->
  (length l <= length r)%nat /\ length s = length l /\
  forall i, (i < length l)%nat -> nth i s 0 = nth i l 0 - nth i r 0.
Proof.
  revert r s; induction l as [|a l IH]; intros [|b r] s H; simpl in *; try discriminate.
  - injection H as <-. repeat split; simpl; lia.
  - injection H as <-. repeat split; simpl; lia.
  - apply bind_ok in H as [x [Hx H]]. apply bind_ok in H as [t [Ht H]]. injection H as <-.
    apply s64_inv in Hx as [-> Hx]. destruct (IH r t Ht) as (H1 & H2 & H3).
    repeat split; simpl; try lia. intros [|i] Hi; [reflexivity|]. apply H3. lia.
Qed.

Lemma invert_spec c :
  Forall (fun x => - two63 < x < two63) c -> invert c = Ok (map Z.opp c).
Proof.
  intros H. unfold invert. apply omapl_ok_map. intros a Ha.
  rewrite Forall_forall in H. specialize (H a Ha). apply s64_ok. lia.
Qed.

Lemma fold_max_spec v a :
  let m := fold_left (fun best x => if best <? x then x else best) v a in
  In m (a :: v) /\ Forall (fun x => x <= m) (a :: v).
Proof.
  revert a; induction v as [|x v IH]; intros a; simpl.
  - split; [auto|]. constructor; [lia|constructor].
  - destruct (IH (if a <? x then x else a)) as [H1 H2]. simpl in H1.
    inversion H2; subst.
    destruct (Z.ltb_spec a x).
    + split; [destruct H1; auto|]. constructor; [lia|]. constructor; auto.
    + split; [destruct H1; auto|]. constructor; [lia|]. constructor; [lia|auto].
Qed.

Lemma fold_min_spec v a :
  let m := fold_left (fun best x => if x <? best then x else best) v a in
  In m (a :: v) /\ Forall (fun x => m <= x) (a :: v).
Proof.
  revert a; induction v as [|x v IH]; intros a; simpl.
  - split; [auto|]. constructor; [lia|constructor].
  - destruct (IH (if x <? a then x else a)) as [H1 H2]. simpl in H1.
    inversion H2; subst.
    destruct (Z.ltb_spec x a).
    + split; [destruct H1; auto|]. constructor; [lia|]. constructor; auto.
    + split; [destruct H1; auto|]. constructor; [lia|]. constructor; [lia|auto].
Qed.

(** ** Statements assembled for the property file *)

Lemma pair_image m i :
  0 < m -> m * m < two64 -> 
  (0 <= i < GetNumPairs m <->
   exists a b, 0 <= a < m /\ 0 <= b < m /\ GetPairIndex a b m = i).
Proof.
  intros Hm Hmm. unfold GetNumPairs, square_u. rewrite u64_small by nia. split.
  - intros Hi. exists (i mod m), (i / m).
    pose proof (Z.mod_pos_bound i m Hm). pose proof (Z.div_mod i m ltac:(lia)).
    assert (0 <= i / m) by (apply Z.div_pos; lia).
    assert (i / m < m) by (apply Z.div_lt_upper_bound; lia).
    repeat split; try lia. rewrite GetPairIndex_small; lia.
  - intros (a & b & Ha & Hb & <-). rewrite GetPairIndex_small; nia.
Qed.

Lemma pair_inj m a b a' b' :
  0 < m <= 2 ^ 32 -> 0 <= a < m -> 0 <= b < m -> 0 <= a' < m -> 0 <= b' < m ->
  GetPairIndex a b m = GetPairIndex a' b' m -> a = a' /\ b = b'.
Proof.
  change (2 ^ 32) with 4294967296. intros Hm Ha Hb Ha' Hb'.
  pose proof two64_eq. rewrite !GetPairIndex_small by nia. intros E.
  assert (b = b') by nia. subst b'. split; [|reflexivity]. lia.
Qed.

Lemma pair_collide m :
  2 ^ 32 < m < two64 ->
  exists a b, 0 <= a < m /\ 0 < b < m /\ GetPairIndex a b m = GetPairIndex 0 0 m.
Proof.
  change (2 ^ 32) with 4294967296. intros Hm. pose proof two64_eq as E64.
  exists (two64 mod m), (two64 / m).
  pose proof (Z.mod_pos_bound two64 m ltac:(lia)).
  pose proof (Z.div_mod two64 m ltac:(lia)) as D.
  assert (1 <= two64 / m) by (apply Z.div_le_lower_bound; lia).
  assert (two64 / m < m) by (apply Z.div_lt_upper_bound; nia).
  repeat split; try lia.
  unfold GetPairIndex, u64. rewrite Zplus_mod_idemp_l.
  replace (two64 / m * m + two64 mod m) with two64 by lia.
  rewrite Z_mod_same_full. reflexivity.
Qed.

Lemma array_to_index_ub a size :
  array_to_index a size = UB <-> In 0 size \/ (length a < length size)%nat.
Proof.
  unfold array_to_index. split.
  - intros H. destruct (in_dec Z.eq_dec 0 size) as [|Hn]; [now left|].
    destruct (Nat.lt_ge_cases (length a) (length size)) as [|Hl]; [now right|].
    destruct (a2i_loop_defined size a (accumulate_product_u size) 0 Hn Hl) as [r E]. congruence.
  - apply a2i_loop_ub.
Qed.

Lemma array_to_index_total a size :
  array_to_index a size = UB \/ exists i, array_to_index a size = Ok i.
Proof.
  destruct (in_dec Z.eq_dec 0 size) as [|Hn]; [left; apply array_to_index_ub; now left|].
  destruct (Nat.lt_ge_cases (length a) (length size)) as [|Hl];
    [left; apply array_to_index_ub; now right|].
  right. now apply a2i_loop_defined.
Qed.

Lemma index_to_array_ub i size :
  Forall (fun s => 0 <= s) size ->
  (index_to_array i size = UB <-> In 0 size \/ two64 <= prodZ size).
Proof.
  intros Hnn. unfold index_to_array. rewrite accumulate_product_u_spec.
  pose proof (prodZ_nonneg _ Hnn). pose proof (u64_range (prodZ size)).
  pose proof two64_eq. split.
  - intros H'. destruct (in_dec Z.eq_dec 0 size) as [|Hn]; [now left|].
    right. destruct (Z.le_gt_cases two64 (prodZ size)) as [|Hl]; [assumption|exfalso].
    rewrite u64_small in H' by lia.
    destruct (i2a_loop_defined size (prodZ size) i) as [r E]; [|lia|congruence].
    rewrite Forall_forall in *. intros s Hs. specialize (Hnn s Hs).
    assert (s <> 0) by (intros ->; tauto). lia.
  - intros H'. apply i2a_loop_ub; [|assumption|lia|].
    + intros ->. destruct H' as [[]|H']. unfold prodZ in H'. simpl in H'. lia.
    + destruct H' as [|H']; [now left|right]. lia.
Qed.

Lemma index_to_array_total i size :
  Forall (fun s => 0 <= s) size ->
  index_to_array i size = UB \/ exists c, index_to_array i size = Ok c.
Proof.
  intros Hnn. destruct (in_dec Z.eq_dec 0 size) as [|Hn];
    [left; apply index_to_array_ub; auto|].
  destruct (Z.le_gt_cases two64 (prodZ size)) as [|Hl];
    [left; apply index_to_array_ub; auto|right].
  unfold index_to_array. rewrite accumulate_product_u_spec.
  pose proof (prodZ_nonneg _ Hnn). rewrite u64_small by lia.
  apply i2a_loop_defined; [|lia].
  rewrite Forall_forall in *. intros s Hs. specialize (Hnn s Hs).
  assert (s <> 0) by (intros ->; tauto). lia.
Qed.

Lemma cbinomial_divisions_exact n i :
  1 <= i <= n -> Z.rem (binomZ n (i - 1) * (n + 1 - i)) i = 0.
Proof. intros H. rewrite <- binomZ_step by assumption. apply Z.rem_mul. lia. Qed.

Lemma cbinomial_iteration n k i : 1 <= i <= k -> k <= n -> n < two63 - 1 ->
  (binomZ n (i - 1) * (n + 1 - i) < two63 -> cbinomial_body n k (i, binomZ n (i - 1)) = inl (i + 1, binomZ n i)) /\
  (two63 <= binomZ n (i - 1) * (n + 1 - i) -> cbinomial_body n k (i, binomZ n (i - 1)) = inr UB).
Proof.
  intros Hi Hk Hn. pose proof (binomZ_pos n (i - 1) ltac:(lia)) as Hpos.
  pose proof (binomZ_step n i ltac:(lia)) as Hst. unfold cbinomial_body.
  destruct (Z.leb_spec i k); [|lia].
  rewrite (s64_ok (n + 1)) by lia. cbn [bind]. rewrite (s64_ok (n + 1 - i)) by lia. cbn [bind]. split; intros H'.
  - rewrite s64_ok by nia. cbn [bind]. rewrite s64_ok by lia. cbn [bind]. rewrite <- Hst, Z.quot_mul by lia. reflexivity.
  - unfold s64 at 1. destruct (sint_cases 64 (binomZ n (i - 1) * (n + 1 - i))) as [[-> Hr]|[-> Hr]]; cbn [bind]; [|reflexivity].
    exfalso. change (2 ^ (64 - 1)) with two63 in Hr. lia.
Qed.

Lemma cmax_Z v m : cmax Z.ltb v = Ok m <-> 
  v <> [] /\ In m v /\ Forall (fun x => x <= m) v.
Proof.
  destruct v as [|a v]; simpl; [split; [discriminate|tauto]|].
  pose proof (fold_max_spec v a) as [H1 H2]. cbv zeta in *.
  set (r := fold_left _ v a) in *. split.
  - intros H. injection H as <-. split; [discriminate|]. split; [exact H1|exact H2].
  - intros (_ & Hm & Hall). f_equal. rewrite Forall_forall in H2, Hall.
    specialize (H2 m Hm). specialize (Hall r H1). lia.
Qed.

Lemma cmin_Z v m : cmin Z.ltb v = Ok m <-> 
  v <> [] /\ In m v /\ Forall (fun x => m <= x) v.
Proof.
  destruct v as [|a v]; simpl; [split; [discriminate|tauto]|].
  pose proof (fold_min_spec v a) as [H1 H2]. cbv zeta in *.
  set (r := fold_left _ v a) in *. split.
  - intros H. injection H as <-. split; [discriminate|]. split; [exact H1|exact H2].
  - intros (_ & Hm & Hall). f_equal. rewrite Forall_forall in H2, Hall.
    specialize (H2 m Hm). specialize (Hall r H1). lia.
Qed.

Lemma invert_invol c :
  Forall (fun x => - two63 < x < two63) c -> bind (invert c) invert = Ok c.
Proof.
  intros H. rewrite (invert_spec c H). cbn [bind]. rewrite invert_spec.
  - rewrite map_map. f_equal. rewrite <- (map_id c) at 2. apply map_ext. intros; lia.
  - rewrite Forall_map. eapply Forall_impl; [|exact H]. cbv beta; intros; lia.
Qed.

Lemma sum_squared_gen v d r :
  0 <= d -> ofold (fun d x => q <- square_s x ;; s64 (d + q)) v d = Ok r -> 
  r = d + sumZ (map (fun x => x * x) v).
Proof.
  revert d; induction v as [|x v IH]; intros d Hd H.
  - simpl in H. injection H as <-. unfold sumZ; simpl. lia.
  - cbn [ofold] in H. unfold square_s at 1 in H.
    apply bind_ok in H as [d' [Hd' H]]. apply bind_ok in Hd' as [q [Hq Hd']].
    apply s64_inv in Hq as [-> _]. apply s64_inv in Hd' as [-> _].
    apply IH in H; [|nia]. rewrite H. simpl map. rewrite sumZ_cons. lia.
Qed.

Lemma sumsq_nonneg v : 0 <= sumZ (map (fun x => x * x) v).
Proof. induction v as [|x v IH]; [unfold sumZ; simpl; lia|]. simpl map. rewrite sumZ_cons. nia. Qed.

Lemma sum_squared_spec v r : sum_squared_s v = Ok r -> r = sumZ (map (fun x => x * x) v) /\ 0 <= r.
Proof.
  intros H. apply sum_squared_gen in H; [|lia]. pose proof (sumsq_nonneg v). split; lia.
Qed.

Lemma sum_squared_total v :
  sumZ (map (fun x => x * x) v) < two63 -> sum_squared_s v = Ok (sumZ (map (fun x => x * x) v)).
Proof.
  unfold sum_squared_s. pose proof two63_pos.
  enough (G : forall d, 0 <= d -> d + sumZ (map (fun x => x * x) v) < two63 ->
     ofold (fun d x => q <- square_s x ;; s64 (d + q)) v d = Ok (d + sumZ (map (fun x => x * x) v))).
  { intros H'. apply (G 0); lia. }
  induction v as [|x v IH]; intros d Hd Hs.
  - simpl. unfold sumZ; simpl. f_equal; lia.
  - simpl map in *. rewrite sumZ_cons in *. pose proof (sumsq_nonneg v).
    cbn [ofold]. unfold square_s at 1. rewrite s64_ok by nia. cbn [bind].
    rewrite s64_ok by nia. cbn [bind]. rewrite IH by nia. f_equal. lia.
Qed.
