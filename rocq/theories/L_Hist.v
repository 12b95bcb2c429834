(** Lemmas about histograms. *)
From Coq Require Import ZArith Reals List Lia Lra Bool.
From Flocq Require Import Core.Core IEEE754.BinarySingleNaN.
From Verif Require Import Base F64 Num M_Archive M_Accum S_Accum L_Sum L_Accum M_Hist S_Hist.
Import ListNotations.
Open Scope Z_scope.

Definition sumlen (b : list (list f64)) : Z := sumZ (map (fun x => Z.of_nat (length x)) b).

(** The object that represents a specification state. *)
Definition rep (b : bins) : hist :=
  mkHist (Z.of_nat (length (b_bins b))) (map neumaier_of (b_bins b)) (u64 (b_total b)).

(** Sizes after k calls. *)
Definition sized (k : Z) (b : bins) : Prop :=
  Z.of_nat (length (b_bins b)) < two64 /\ Forall (fun l => Z.of_nat (length l) <= k) (b_bins b) /\
  0 <= b_total b <= k /\ 0 <= k.

Lemma map_repeat {A B} (f : A -> B) a n : map f (repeat a n) = repeat (f a) n.
Proof. induction n; cbn; congruence. Qed.

Lemma put_length b i v : (i < length b)%nat -> length (put b i v) = length b.
Proof.
  intros H. unfold put. rewrite app_length. cbn [length]. rewrite firstn_length, skipn_length. lia.
Qed.

Lemma list_set_split {A} (l : list A) i a : (i < length l)%nat ->
  list_set l i a = firstn i l ++ a :: skipn (S i) l.
Proof.
  revert i; induction l as [|x l IH]; intros i Hi; cbn [length] in Hi; [lia|].
  destruct i as [|i]; [reflexivity|]. cbn [list_set firstn skipn app]. rewrite IH by lia. reflexivity.
Qed.

Lemma put_map (b : list (list f64)) i v : (i < length b)%nat ->
  list_set (map neumaier_of b) i (neumaier_step numF (neumaier_of (nth i b [])) v) =
  map neumaier_of (put b i v).
Proof.
  intros Hi. rewrite list_set_split by (rewrite map_length; exact Hi). unfold put.
  rewrite map_app. cbn [map]. rewrite neumaier_of_snoc, firstn_map, skipn_map. reflexivity.
Qed.

Lemma neumaier_count_of l : n_count (neumaier_of l) = u64 (Z.of_nat (length l)).
Proof. apply (count_mod (neumaier_step numF) n_count (neumaier_new numF)); reflexivity. Qed.

Lemma vget_map {A B} (f : A -> B) l i d : 0 <= i < Z.of_nat (length l) ->
  vget (map f l) i = Ok (f (nth (Z.to_nat i) l d)).
Proof.
  intros Hi. unfold vget, vsize. rewrite map_length.
  replace ((0 <=? i) && (i <? Z.of_nat (length l))) with true
    by (symmetry; apply andb_true_iff; split; [apply Z.leb_le|apply Z.ltb_lt]; lia).
  rewrite nth_error_map, (nth_error_nth' _ d) by lia. reflexivity.
Qed.

Lemma hist_add_rep chk k b t i v : (chk = true -> k < two64 - 1) -> sized k (mkBins b t) ->
  0 <= i < Z.of_nat (length b) ->
  hist_add chk (rep (mkBins b t)) i v = (rep (mkBins (put b (Z.to_nat i) v) (t + 1)), Ok tt).
Proof.
  intros Hk (HL & HF & HT & HK) Hi. cbn [b_bins b_total] in *. unfold hist_add, rep. cbn [h_acc h_nbins h_count b_bins b_total].
  rewrite (vget_map _ _ _ []) by exact Hi.
  assert (Hb : Z.of_nat (length (nth (Z.to_nat i) b [])) <= k).
  { rewrite Forall_forall in HF. apply HF, nth_In. lia. }
  assert (E : (chk && (n_count (neumaier_of (nth (Z.to_nat i) b [])) =? ulong_max)) = false).
  { destruct chk; [|reflexivity]. specialize (Hk eq_refl). cbn [andb]. apply Z.eqb_neq.
    rewrite neumaier_count_of, u64_small by lia. unfold ulong_max. lia. }
  unfold NeumaierAdd. rewrite E, put_map by lia. rewrite put_length by lia. f_equal.
  f_equal. unfold u64. apply Zplus_mod_idemp_l.
Qed.

Lemma put_sized k b t i v : sized k (mkBins b t) -> (i < length b)%nat -> sized (k + 1) (mkBins (put b i v) (t + 1)).
Proof.
  intros (HL & HF & HT & HK) Hi. unfold sized. cbn [b_bins b_total] in *.
  rewrite put_length by exact Hi. split; [exact HL|]. split; [|lia].
  assert (HF' : Forall (fun l => Z.of_nat (length l) <= k + 1) b).
  { revert HF. apply Forall_impl. intros; lia. }
  unfold put. apply Forall_app. split.
  - apply Forall_forall. intros x Hx. rewrite Forall_forall in HF'. apply HF'.
    rewrite <- (firstn_skipn i b). apply in_or_app. now left.
  - constructor.
    + rewrite app_length. cbn [length]. rewrite Forall_forall in HF.
      specialize (HF (nth i b []) (nth_In _ _ Hi)). lia.
    + apply Forall_forall. intros x Hx. rewrite Forall_forall in HF'. apply HF'.
      rewrite <- (firstn_skipn (S i) b). apply in_or_app. now right.
Qed.

Lemma pad_length b n : length (pad b n) = Nat.max (length b) n.
Proof. unfold pad. rewrite app_length, repeat_length. lia. Qed.

Lemma pad_sized k b t n : sized k (mkBins b t) -> Z.of_nat n < two64 -> sized k (mkBins (pad b n) t).
Proof.
  intros (HL & HF & HT & HK) Hn. unfold sized. cbn [b_bins b_total] in *. rewrite pad_length.
  split; [lia|]. split; [|lia]. unfold pad. apply Forall_app. split; [exact HF|].
  apply Forall_forall. intros x Hx. apply repeat_spec in Hx. subst x. cbn. lia.
Qed.

Lemma hist_grow_rep b t i : Z.of_nat (length b) < two64 -> 0 <= i < two64 - 1 ->
  hist_grow i (rep (mkBins b t)) = Ok (rep (mkBins (pad b (S (Z.to_nat i))) t)).
Proof.
  intros HL Hi. unfold hist_grow.
  refine (while_total _
    (fun h => exists j, (j <= S (Z.to_nat i) - length b)%nat /\ h = rep (mkBins (b ++ repeat [] j) t))
    (fun r => r = Ok (rep (mkBins (pad b (S (Z.to_nat i))) t)))
    (fun h => Z.max 0 (i + 1 - h_nbins h)) _ _ _ _).
  - intros h (j & Hj & ->). unfold rep. cbn [h_nbins h_acc h_count b_bins b_total].
    rewrite app_length, repeat_length. destruct (Z.leb_spec (Z.of_nat (length b + j)) i) as [Hle|Hgt].
    + split.
      * exists (S j). split; [lia|]. cbn [b_bins b_total]. rewrite app_length, repeat_length.
        rewrite u64_small by lia. f_equal; [lia|].
        rewrite <- Nat.add_1_r, repeat_app, app_assoc, (map_app _ (b ++ repeat [] j)). reflexivity.
      * cbn [h_nbins]. rewrite u64_small by lia. lia.
    + f_equal. unfold pad, rep. cbn [b_bins b_total]. replace (S (Z.to_nat i) - length b)%nat with j by lia.
      rewrite app_length, repeat_length. reflexivity.
  - exists O. split; [lia|]. cbn [repeat]. rewrite app_nil_r. reflexivity.
  - cbn [rep h_nbins]. rewrite two64_eq in *. lia.
Qed.

(** ForceAdd(2^64-1): the loop never ends. *)
Lemma hist_grow_max h : 0 <= h_nbins h < two64 -> hist_grow (two64 - 1) h = Diverge.
Proof.
  intros H. unfold hist_grow.
  refine (while_diverge _ (fun h => 0 <= h_nbins h < two64) _ _ H).
  intros s Hs. destruct (Z.leb_spec (h_nbins s) (two64 - 1)); [|lia].
  eexists. split; [reflexivity|]. cbn [h_nbins]. unfold u64. apply Z.mod_pos_bound. reflexivity.
Qed.

Lemma hist_call_rep chk k b c b' : (chk = true -> k < two64 - 1) -> sized k b ->
  bins_call b c = Some b' -> hist_call chk (rep b) c = (rep b', Ok tt) /\ sized (k + 1) b'.
Proof.
  destruct b as [b t]. intros Hk Hs H.
  assert (Hs1 : sized (k + 1) (mkBins b t)).
  { destruct Hs as (A & B & C & D). split; [exact A|]. split; [|cbn [b_total] in *; lia].
    cbn [b_bins] in *. revert B. apply Forall_impl. intros; lia. }
  destruct c as [i v|i v| |n]; cbn [bins_call b_bins b_total] in H; cbn [hist_call].
  - destruct ((0 <=? i) && (i <? Z.of_nat (length b))) eqn:E; [|discriminate].
    apply andb_true_iff in E. destruct E as [E1 E2]. apply Z.leb_le in E1. apply Z.ltb_lt in E2.
    injection H as <-. split; [apply (hist_add_rep chk k); auto; lia|apply put_sized; auto; lia].
  - destruct ((0 <=? i) && (i <? two64 - 1)) eqn:E; [|discriminate].
    apply andb_true_iff in E. destruct E as [E1 E2]. apply Z.leb_le in E1. apply Z.ltb_lt in E2.
    injection H as <-. unfold HistForceAdd.
    rewrite hist_grow_rep by (try exact (proj1 Hs); lia).
    assert (Hp : sized k (mkBins (pad b (S (Z.to_nat i))) t)) by (apply pad_sized; [exact Hs|lia]).
    assert (Hi : (Z.to_nat i < length (pad b (S (Z.to_nat i))))%nat) by (rewrite pad_length; lia).
    split; [apply (hist_add_rep chk k); auto; lia|now apply put_sized].
  - injection H as <-. unfold HistReset, rep. cbn [h_nbins h_acc b_bins b_total]. split.
    + f_equal. f_equal; [now rewrite map_length|]. rewrite !map_map. apply map_ext. reflexivity.
    + destruct Hs as (A & B & C & D). unfold sized. cbn [b_bins b_total] in *. rewrite map_length.
      split; [exact A|]. split; [|lia]. apply Forall_map, Forall_forall. intros; cbn; lia.
  - destruct ((0 <=? n) && (n <? two64)) eqn:E; [|discriminate].
    apply andb_true_iff in E. destruct E as [E1 E2]. apply Z.leb_le in E1. apply Z.ltb_lt in E2.
    injection H as <-.
    assert (Hlen : length (pad (firstn (Z.to_nat n) b) (Z.to_nat n)) = Z.to_nat n).
    { rewrite pad_length, firstn_length. lia. }
    split.
    + unfold HistResize, rep, vresize. cbn [h_nbins h_acc h_count b_bins b_total].
      rewrite Hlen, Z2Nat.id by lia. f_equal. f_equal. unfold pad.
      rewrite map_app, firstn_map, map_repeat, map_length, firstn_length. f_equal.
      unfold fresh_bin. change (neumaier_of []) with (neumaier_new numF). f_equal. lia.
    + apply pad_sized; [|lia]. destruct Hs1 as (A & B & C & D). unfold sized. cbn [b_bins b_total] in *.
      split; [rewrite firstn_length; lia|]. split; [|lia].
      apply Forall_forall. intros x Hx. rewrite Forall_forall in B. apply B.
      rewrite <- (firstn_skipn (Z.to_nat n) b). apply in_or_app. now left.
Qed.

Lemma hist_calls_rep chk l : forall k b b', (chk = true -> k + Z.of_nat (length l) < two64) -> sized k b ->
  bins_calls l b = Some b' ->
  hist_calls chk l (rep b) = (rep b', Ok tt) /\ sized (k + Z.of_nat (length l)) b'.
Proof.
  induction l as [|c l IH]; intros k b b' Hk Hs H; cbn [bins_calls hist_calls length] in *.
  - injection H as <-. split; [reflexivity|]. now rewrite Z.add_0_r.
  - destruct (bins_call b c) as [b1|] eqn:E; [|discriminate].
    destruct (hist_call_rep chk k b c b1) as [E1 S1]; auto.
    { intros Hc. specialize (Hk Hc). lia. }
    rewrite E1. destruct (IH (k + 1) b1 b') as [E2 S2]; auto.
    { intros Hc. specialize (Hk Hc). lia. }
    split; [exact E2|]. replace (k + Z.of_nat (S (length l))) with (k + 1 + Z.of_nat (length l)) by lia.
    exact S2.
Qed.

Lemma empty_rep n : 0 <= n < two64 -> HistAccumulator n = rep (empty_bins (Z.to_nat n)) /\
  sized 0 (empty_bins (Z.to_nat n)).
Proof.
  intros Hn. unfold HistAccumulator, rep, empty_bins, sized. cbn [b_bins b_total].
  rewrite repeat_length, map_repeat, Z2Nat.id by lia. split; [reflexivity|].
  split; [lia|]. split; [|lia]. apply Forall_forall. intros x Hx. apply repeat_spec in Hx. subst x. cbn. lia.
Qed.

(** ** Counts *)

Lemma sumlen_app a b : sumlen (a ++ b) = sumlen a + sumlen b.
Proof. unfold sumlen, sumZ. induction a; cbn [app map fold_right]; lia. Qed.
Lemma sumlen_repeat n : sumlen (repeat [] n) = 0.
Proof. unfold sumlen, sumZ. induction n; cbn [repeat map fold_right length]; lia. Qed.
Lemma sumlen_cons x b : sumlen (x :: b) = Z.of_nat (length x) + sumlen b.
Proof. reflexivity. Qed.

Lemma sumlen_put b i v : (i < length b)%nat -> sumlen (put b i v) = sumlen b + 1.
Proof.
  revert i; induction b as [|x b IH]; intros i Hi; cbn [length] in Hi; [lia|].
  destruct i as [|i].
  - unfold put. cbn [firstn nth skipn app]. rewrite !sumlen_cons, app_length. cbn [length]. lia.
  - change (put (x :: b) (S i) v) with (x :: put b i v). rewrite !sumlen_cons, IH by lia. lia.
Qed.

Lemma bins_call_total b c b' : is_resize c = false -> bins_call b c = Some b' ->
  b_total b = sumlen (b_bins b) -> b_total b' = sumlen (b_bins b').
Proof.
  destruct b as [b t]. intros Hr H Ht. cbn [b_bins b_total] in *.
  destruct c as [i v|i v| |n]; cbn [bins_call b_bins b_total] in H; [| | |discriminate].
  - destruct ((0 <=? i) && (i <? Z.of_nat (length b))) eqn:E; [|discriminate].
    apply andb_true_iff in E. destruct E as [E1 E2]. apply Z.leb_le in E1. apply Z.ltb_lt in E2.
    injection H as <-. cbn [b_bins b_total]. rewrite sumlen_put by lia. lia.
  - destruct ((0 <=? i) && (i <? two64 - 1)) eqn:E; [|discriminate]. injection H as <-. cbn [b_bins b_total].
    rewrite sumlen_put by (rewrite pad_length; lia). unfold pad. rewrite sumlen_app, sumlen_repeat. lia.
  - injection H as <-. cbn [b_bins b_total].
    clear. induction b as [|x b IH]; [reflexivity|]. cbn [map]. rewrite sumlen_cons. cbn [length]. lia.
Qed.

Lemma bins_calls_total l : forall b b', forallb (fun c => negb (is_resize c)) l = true ->
  bins_calls l b = Some b' -> b_total b = sumlen (b_bins b) -> b_total b' = sumlen (b_bins b').
Proof.
  induction l as [|c l IH]; intros b b' Hr H Ht; cbn [bins_calls forallb] in *.
  - injection H as <-. exact Ht.
  - apply andb_true_iff in Hr. destruct Hr as [Hr1 Hr2]. apply negb_true_iff in Hr1.
    destruct (bins_call b c) as [b1|] eqn:E; [|discriminate].
    apply (IH b1 b'); auto. apply (bins_call_total b c b1); auto.
Qed.

Lemma sum_counts b : u64 (sumZ (map (fun x => n_count (neumaier_of x)) b)) = u64 (sumlen b).
Proof.
  unfold sumlen, sumZ. induction b as [|x b IH]; [reflexivity|]. cbn [map fold_right].
  rewrite neumaier_count_of. unfold u64 in *. rewrite Zplus_mod_idemp_l, Zplus_mod, IH, <- Zplus_mod.
  reflexivity.
Qed.

(** ** Unit measurements *)

Definition all_ones (b : list (list f64)) : Prop := Forall (Forall (fun v => v = f1)) b.

Lemma Forall_firstn {A} (P : A -> Prop) n l : Forall P l -> Forall P (firstn n l).
Proof. revert n; induction l; intros [|n] H; cbn; auto. inversion H; subst. constructor; auto. Qed.
Lemma Forall_skipn {A} (P : A -> Prop) n l : Forall P l -> Forall P (skipn n l).
Proof. revert n; induction l; intros [|n] H; cbn; auto. inversion H; subst; auto. Qed.

Lemma ones_put b i : all_ones b -> (i < length b)%nat -> all_ones (put b i f1).
Proof.
  intros H Hi. unfold all_ones, put. apply Forall_app. split; [now apply Forall_firstn|].
  constructor; [|now apply (Forall_skipn _ (S i))]. apply Forall_app. split; [|constructor; auto].
  unfold all_ones in H. rewrite Forall_forall in H. apply H, nth_In, Hi.
Qed.
Lemma ones_pad b n : all_ones b -> all_ones (pad b n).
Proof.
  intros H. unfold all_ones, pad. apply Forall_app. split; [exact H|].
  apply Forall_forall. intros x Hx. apply repeat_spec in Hx. subst. constructor.
Qed.

Lemma put_bounded b i v t : Forall (fun x => Z.of_nat (length x) <= t) b -> (i < length b)%nat ->
  Forall (fun x => Z.of_nat (length x) <= t + 1) (put b i v).
Proof.
  intros H Hi. assert (H' : Forall (fun x => Z.of_nat (length x) <= t + 1) b)
    by (revert H; apply Forall_impl; intros; lia).
  unfold put. apply Forall_app. split; [now apply Forall_firstn|].
  constructor; [|now apply (Forall_skipn _ (S i))]. rewrite app_length. cbn [length].
  rewrite Forall_forall in H. specialize (H _ (nth_In _ [] Hi)). lia.
Qed.
Lemma pad_bounded b n t : Forall (fun x : list f64 => Z.of_nat (length x) <= t) b -> 0 <= t ->
  Forall (fun x => Z.of_nat (length x) <= t) (pad b n).
Proof.
  intros H Ht. unfold pad. apply Forall_app. split; [exact H|].
  apply Forall_forall. intros x Hx. apply repeat_spec in Hx. subst. cbn. lia.
Qed.

Lemma bins_call_ones b c b' : unit_call c -> bins_call b c = Some b' ->
  all_ones (b_bins b) /\ Forall (fun x => Z.of_nat (length x) <= b_total b) (b_bins b) /\ 0 <= b_total b ->
  all_ones (b_bins b') /\ Forall (fun x => Z.of_nat (length x) <= b_total b') (b_bins b') /\ 0 <= b_total b'.
Proof.
  destruct b as [b t]. intros Hu H (Ho & Ht & H0). cbn [b_bins b_total] in *.
  destruct c as [i v|i v| |n]; cbn [bins_call b_bins b_total unit_call] in H, Hu.
  - destruct ((0 <=? i) && (i <? Z.of_nat (length b))) eqn:E; [|discriminate].
    apply andb_true_iff in E. destruct E as [E1 E2]. apply Z.leb_le in E1. apply Z.ltb_lt in E2.
    injection H as <-. subst v. cbn [b_bins b_total].
    split; [apply ones_put; auto; lia|]. split; [apply put_bounded; auto; lia|lia].
  - destruct ((0 <=? i) && (i <? two64 - 1)) eqn:E; [|discriminate]. injection H as <-. subst v. cbn [b_bins b_total].
    split; [apply ones_put; [now apply ones_pad|rewrite pad_length; lia]|].
    split; [apply put_bounded; [now apply pad_bounded|rewrite pad_length; lia]|lia].
  - injection H as <-. cbn [b_bins b_total]. split; [|split; [|lia]].
    + unfold all_ones. apply Forall_map, Forall_forall. intros; constructor.
    + apply Forall_map, Forall_forall. intros; cbn; lia.
  - destruct ((0 <=? n) && (n <? two64)) eqn:E; [|discriminate]. injection H as <-. cbn [b_bins b_total].
    split; [apply ones_pad; now apply Forall_firstn|]. split; [|exact H0].
    apply pad_bounded; [now apply Forall_firstn|exact H0].
Qed.

Lemma bins_calls_ones l : forall b b', Forall unit_call l -> bins_calls l b = Some b' ->
  all_ones (b_bins b) /\ Forall (fun x => Z.of_nat (length x) <= b_total b) (b_bins b) /\ 0 <= b_total b ->
  all_ones (b_bins b') /\ Forall (fun x => Z.of_nat (length x) <= b_total b') (b_bins b') /\ 0 <= b_total b'.
Proof.
  induction l as [|c l IH]; intros b b' Hu H Hb; cbn [bins_calls] in *.
  - injection H as <-. exact Hb.
  - apply Forall_cons_iff in Hu. destruct Hu as [Hu1 Hu2].
    destruct (bins_call b c) as [b1|] eqn:E; [|discriminate].
    apply (IH b1 b'); auto. apply (bins_call_ones b c b1); auto.
Qed.

Lemma ones_list l : Forall (fun v => v = f1) l -> l = map of_Z (repeat 1 (length l)).
Proof. induction 1 as [|x l -> H IH]; [reflexivity|]. cbn [length repeat map]. now rewrite <- IH. Qed.
Lemma sum_ones n : sumZs (repeat 1 n) = Z.of_nat n /\ sumZabs (repeat 1 n) = Z.of_nat n.
Proof.
  unfold sumZs, sumZabs. induction n as [|n [IH1 IH2]]; [split; reflexivity|].
  cbn [repeat map fold_right]. rewrite IH1, IH2. lia.
Qed.

Lemma unit_result b t i : all_ones b -> Forall (fun x => Z.of_nat (length x) <= t) b ->
  t <= 2 ^ 53 -> 0 <= i < Z.of_nat (length b) ->
  let c := length (nth (Z.to_nat i) b []) in
  exists v, HistGetResult (rep (mkBins b t)) i = Ok v /\ fin v /\
  (c = O -> v = f0) /\ (c <> O -> RR v = rnd (INR c / IZR t)) /\ (0 <= RR v <= 1)%R.
Proof.
  intros Ho Hb Ht Hi c. unfold HistGetResult, rep. cbn [h_acc h_count b_bins b_total].
  rewrite (vget_map _ _ _ []) by exact Hi. cbn [bind].
  set (x := nth (Z.to_nat i) b []) in *.
  assert (Hx : In x b) by (apply nth_In; lia).
  unfold all_ones in Ho. rewrite Forall_forall in Ho, Hb. specialize (Ho x Hx). specialize (Hb x Hx). fold c in Hb.
  unfold NeumaierCount. rewrite neumaier_count_of. fold c. rewrite u64_small by (rewrite two64_eq; lia).
  destruct (Z.eqb_spec (Z.of_nat c) 0) as [E|E].
  - exists f0. rewrite RR_f0. split; [reflexivity|]. split; [reflexivity|]. split; [reflexivity|].
    split; [intros; lia|lra].
  - assert (Ht1 : 1 <= t) by lia. rewrite u64_small by (rewrite two64_eq; lia).
    eexists. split; [reflexivity|]. rewrite (ones_list x Ho). fold c.
    destruct (sum_ones c) as [S1 S2].
    destruct (neumaier_sum_ints (repeat 1 c)) as [Fs Es]; [rewrite S2; lia|]. rewrite S1 in Es.
    destruct (fdiv_Z _ t _ Fs Es) as [Fd Ed]; [lia|lia|].
    split; [exact Fd|]. split; [intros; lia|]. split; [intros _; now rewrite INR_IZR_INZ|].
    rewrite Ed.
    assert (Hq : (0 <= IZR (Z.of_nat c) / IZR t <= 1)%R).
    { assert (0 < IZR t)%R by (apply (IZR_lt 0); lia).
      assert (0 <= IZR (Z.of_nat c) <= IZR t)%R by (split; [apply (IZR_le 0)|apply IZR_le]; lia).
      split; [apply Rmult_le_pos; [lra|left; now apply Rinv_0_lt_compat]|].
      apply (Rmult_le_reg_r (IZR t)); [assumption|]. unfold Rdiv. rewrite Rmult_assoc, Rinv_l, Rmult_1_r, Rmult_1_l by lra. lra. }
    split; [now apply rnd_pos|]. apply rnd_le_fmt; [apply (fmt_IZR 1); cbn; lia|lra].
Qed.

(** ** GetResults(idx) *)

Definition res_body (idx : Z) (r : list f64) (k : Z) : out (list f64) :=
  (v <- vget r k ;; d <- vget r idx ;; vset r k (fdiv v d))%out.

Lemma ofold_app {A S} (f : S -> A -> out S) l1 l2 s :
  ofold f (l1 ++ l2) s = (s' <- ofold f l1 s ;; ofold f l2 s')%out.
Proof.
  revert s; induction l1 as [|a l1 IH]; intros s; [reflexivity|].
  cbn [ofold app]. destruct (f s a); cbn [bind]; auto.
Qed.

Lemma upto_S n : 0 <= n -> upto (n + 1) = upto n ++ [n].
Proof.
  intros H. unfold upto. rewrite Z2Nat.inj_add by lia. change (Z.to_nat 1) with 1%nat.
  rewrite seq_app, map_app. cbn [seq map]. rewrite Nat.add_0_l, Z2Nat.id by lia. reflexivity.
Qed.

Lemma div_loop r0 idx : 0 <= idx < vsize r0 -> forall n, (n <= length r0)%nat ->
  exists r, ofold (res_body idx) (upto (Z.of_nat n)) r0 = Ok r /\ length r = length r0 /\
  forall k, (k < length r0)%nat -> nth k r fnan =
    if (k <? n)%nat then
      let d := nth (Z.to_nat idx) r0 fnan in
      fdiv (nth k r0 fnan) (if (k <=? Z.to_nat idx)%nat then d else fdiv d d)
    else nth k r0 fnan.
Proof.
  intros Hi n; induction n as [|n IH]; intros Hn.
  - exists r0. split; [reflexivity|]. split; [reflexivity|]. intros k Hk. reflexivity.
  - destruct IH as (r & E & L & Hr); [lia|].
    rewrite Nat2Z.inj_succ, <- Z.add_1_r, upto_S by lia. rewrite ofold_app, E. cbn [bind ofold].
    unfold vsize in Hi. unfold res_body at 1. rewrite (vget_nth r (Z.of_nat n) fnan) by (unfold vsize; lia). cbn [bind].
    rewrite (vget_nth r idx fnan) by (unfold vsize; lia). cbn [bind].
    rewrite vset_ok by (unfold vsize; lia). cbn [bind]. rewrite Nat2Z.id.
    eexists. split; [reflexivity|]. split; [now rewrite list_set_length|].
    intros k Hk. destruct (Nat.eq_dec k n) as [->|Nk].
    + rewrite list_set_nth_eq by lia. rewrite (Hr n Hk), Nat.ltb_irrefl.
      destruct (Nat.ltb_spec n (S n)); [|lia]. cbv zeta. f_equal.
      rewrite (Hr (Z.to_nat idx)) by lia.
      destruct (Nat.ltb_spec (Z.to_nat idx) n), (Nat.leb_spec n (Z.to_nat idx)); try lia; [|reflexivity].
      rewrite Nat.leb_refl. reflexivity.
    + rewrite list_set_nth_neq by congruence. rewrite (Hr k Hk).
      destruct (Nat.ltb_spec k n), (Nat.ltb_spec k (S n)); try lia; reflexivity.
Qed.

(** ** Archive *)

Lemma load_vector_save {A} (save : A -> list tok) (load : loader A) :
  (forall a rest, load (save a ++ rest) = Some (a, rest)) ->
  forall v rest, load_vector load (save_vector save v ++ rest) = Some (v, rest).
Proof.
  intros H v rest. unfold load_vector, save_vector, lbind. cbn [app load_u]. rewrite Nat2Z.id.
  induction v as [|a v IH]; [reflexivity|]. cbn [length load_n flat_map]. unfold lbind.
  rewrite <- app_assoc, H, IH. reflexivity.
Qed.

Lemma hist_archive a b rest : hist_load b (hist_save a ++ rest) = Some (a, rest).
Proof.
  unfold hist_load, hist_save, lbind. cbn [app load_u]. rewrite <- app_assoc, load_vector_save.
  - destruct a. reflexivity.
  - intros [x y z] r. reflexivity.
Qed.

Lemma omapl_ok {A B} (f : A -> out B) l l' :
  length l = length l' -> (forall k a b, nth_error l k = Some a -> nth_error l' k = Some b -> f a = Ok b) ->
  omapl f l = Ok l'.
Proof.
  revert l'; induction l as [|a l IH]; intros [|b l'] HL H; cbn [length] in HL; try lia; [reflexivity|].
  cbn [omapl]. rewrite (H O a b eq_refl eq_refl). cbn [bind]. rewrite (IH l'); [reflexivity|lia|].
  intros k x y Hx Hy. exact (H (S k) x y Hx Hy).
Qed.

Lemma omapl_counts b t :
  omapl (HistGetCountOf (rep (mkBins b t))) (upto (Z.of_nat (length b))) =
  Ok (map (fun x => n_count (neumaier_of x)) b).
Proof.
  apply omapl_ok; [rewrite upto_length, map_length; lia|].
  intros k a c Ha Hc.
  assert (Hk : (k < length b)%nat).
  { rewrite <- (map_length (fun x => n_count (neumaier_of x)) b). apply nth_error_Some. congruence. }
  rewrite upto_nth_error in Ha by lia. injection Ha as <-.
  unfold HistGetCountOf, rep. cbn [h_acc b_bins]. rewrite (vget_map _ _ _ []) by lia. cbn [bind].
  rewrite Nat2Z.id. rewrite nth_error_map, (nth_error_nth' b []) in Hc by lia. cbn in Hc.
  injection Hc as <-. reflexivity.
Qed.
