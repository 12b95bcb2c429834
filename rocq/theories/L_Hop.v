(** Lemmas about walkers that hop to random neighbours. *)
From Coq Require Import ZArith Reals List Bool Lia Lra Permutation FinFun.
From Flocq Require Import Core.Core.
From Verif Require Import Base F64 Num S_Math S_Accum S_MathF S_Random M_Grid M_Bravais M_Lattice M_MathF M_Random M_Hop S_Grid S_Bravais S_Lattice S_Bonds S_Hop
  L_MathF L_Grid L_Bravais L_Lattice L_Bonds L_Share L_Markov.
Import ListNotations.
Open Scope R_scope.

(** * Counting *)
Lemma NoDup_two {A} (l l' : list A) : NoDup l -> NoDup l' -> (forall a, In a l -> In a l' -> False) -> NoDup (l ++ l').
Proof.
  intros N N' D. induction N as [|a l Na Nl IH]; [exact N'|]. cbn [app]. constructor; [|apply IH; intros b Ib Ib'; apply (D b); [now right|exact Ib']].
  rewrite in_app_iff. intros [I|I]; [now apply Na|]. apply (D a); [now left|exact I].
Qed.
Lemma sum_group {A} sites (g : A -> Z) (F : Z -> R) l : NoDup sites -> (forall x, In x l -> In (g x) sites) ->
  sumR (map (fun x => F (g x)) l) = sumR (map (fun c => INR (length (filter (fun x => (g x =? c)%Z) l)) * F c) sites).
Proof.
  intros ND. induction l as [|x l IH]; intros V.
  - cbn [map filter length]. rewrite (sumR_ext _ (fun _ => 0)) by (intros; cbn; ring). now rewrite sumR_zero.
  - cbn [map]. unfold sumR at 1. cbn [fold_right]. fold (sumR (map (fun x => F (g x)) l)). rewrite IH by (intros; apply V; now right).
    rewrite <- (sum_kronecker sites ND F (g x)) by (apply V; now left). rewrite <- sumR_plus. apply sumR_ext. intros c _. cbn [filter].
    destruct (Z.eqb_spec (g x) c) as [E|E]; destruct (Z.eq_dec (g x) c); try congruence; cbn [length]; [rewrite S_INR|]; ring.
Qed.

Lemma counted_filter {A} (event : A -> Prop) (f : A -> bool) l : NoDup l -> (forall a, event a <-> In a l /\ f a = true) ->
  counted event (INR (length (filter f l))).
Proof. intros ND E. exists (filter f l). split; [now apply NoDup_filter|]. split; [|reflexivity]. intros a. rewrite E. apply filter_In. Qed.

Lemma counted_unique {A} (event : A -> Prop) x y : counted event x -> counted event y -> x = y.
Proof.
  intros (l & N & E & <-) (l' & N' & E' & <-). f_equal. apply Permutation_length. apply NoDup_Permutation; auto. intros a. now rewrite E, E'.
Qed.
Lemma counted_ext {A} (event event' : A -> Prop) x : (forall a, event a <-> event' a) -> counted event x -> counted event' x.
Proof. intros H (l & N & E & I). exists l. split; [exact N|]. split; [|exact I]. intros a. now rewrite E. Qed.
Lemma counted_union {A} (e1 e2 : A -> Prop) x y : (forall a, e1 a -> e2 a -> False) -> counted e1 x -> counted e2 y -> counted (fun a => e1 a \/ e2 a) (x + y).
Proof.
  intros D (l & N & E & <-) (l' & N' & E' & <-). exists (l ++ l'). split; [|split; [|now rewrite app_length, plus_INR]].
  - apply NoDup_two; auto. intros a I I'. apply E in I. apply E' in I'. now apply (D a).
  - intros a. now rewrite in_app_iff, E, E'.
Qed.
Lemma counted_none {A} (event : A -> Prop) : (forall a, ~ event a) -> counted event 0.
Proof. intros H. exists []. split; [constructor|]. split; [|reflexivity]. intros a. split; [intros []|intros Q; now apply (H a)]. Qed.

Lemma counted_between event a b : happens_between event a b -> counted (fun w => word w /\ event w) (IZR (b - a)).
Proof.
  intros (Ha & Hb & E). exists (map (fun k => a + k)%Z (upto (b - a))). split; [|split].
  - apply Injective_map_NoDup; [intros x y; lia|apply upto_NoDup].
  - intros w. rewrite in_map_iff. split.
    + intros (k & <- & Ik). apply upto_In in Ik. assert (W : word (a + k)) by (unfold word; lia). split; [exact W|]. apply E; [exact W|lia].
    + intros [W Ev]. apply E in Ev; [|exact W]. exists (w - a)%Z. split; [lia|]. apply upto_In. lia.
  - rewrite map_length, upto_length, INR_IZR_INZ. f_equal. lia.
Qed.

(** * Equal weights *)
Section Equal.
Context (n : nat) (Hn : (0 < n)%nat) (Hb : (Z.of_nat n <= 2 ^ 46)%Z).
Notation l := (repeat f1 n).

Lemma ones_nth i : (i < n)%nat -> nth i l f0 = f1.
Proof. intros Hi. rewrite (nth_indep _ f0 f1) by (rewrite repeat_length; exact Hi). apply nth_repeat. Qed.

Lemma ones_left i : (i < n)%nat -> fin (left_sum l i) /\ RR (left_sum l i) = IZR (Z.of_nat i + 1).
Proof.
  induction i as [|i IH]; intros Hi.
  - assert (E : left_sum l 0 = f1) by (destruct n; [lia|reflexivity]). rewrite E. split; [reflexivity|]. rewrite RR_f1. reflexivity.
  - destruct IH as [F E]; [lia|]. rewrite left_sum_S by (rewrite repeat_length; exact Hi). rewrite ones_nth by exact Hi.
    assert (R : rnd (RR (left_sum l i) + RR f1) = IZR (Z.of_nat (S i) + 1)).
    { rewrite E, RR_f1, <- plus_IZR. replace (Z.of_nat i + 1 + 1)%Z with (Z.of_nat (S i) + 1)%Z by lia. apply rnd_fmt, fmt_IZR. lia. }
    destruct (fadd_ok (left_sum l i) f1 F eq_refl) as [A C].
    + rewrite R. rewrite <- abs_IZR. apply Rlt_le_trans with (IZR (2 ^ 60)); [apply IZR_lt; lia|]. change (IZR (2 ^ 60)) with (IZR (radix2 ^ 60)). rewrite IZR_Zpower by lia. apply bpow_le. lia.
    + split; [exact C|]. now rewrite A.
Qed.

Lemma ones_facts : l <> [] /\ Forall (fun w => fin w /\ 0 <= RR w) l /\ (Z.of_nat (length l) <= 2 ^ 46)%Z /\
  fin (left_sum l (length l - 1)) /\ bpow radix2 (-1000) <= RR (left_sum l (length l - 1)) /\ total l = INR n.
Proof.
  rewrite repeat_length. destruct (ones_left (n - 1)) as [F E]; [lia|].
  split; [destruct n; [lia|discriminate]|]. split; [apply Forall_forall; intros x Hx; apply repeat_spec in Hx; subst x; split; [reflexivity|rewrite RR_f1; lra]|].
  split; [exact Hb|]. split; [exact F|]. split.
  - rewrite E. apply Rle_trans with 1; [change 1 with (bpow radix2 0); apply bpow_le; lia|]. apply IZR_le. lia.
  - unfold total. clear. induction n as [|m IH]; [reflexivity|]. cbn [repeat map fold_right]. rewrite IH, S_INR, RR_f1. ring.
Qed.

Lemma ones_share i : (i < n)%nat -> exists a b, happens_between (fun w => choose_between_rng l w = Ok (Z.of_nat i)) a b /\
  Rabs (share a b - / INR n) <= (6 * INR n + 7) * uro.
Proof.
  intros Hi. destruct ones_facts as (A1 & A2 & A3 & A4 & A5 & A6).
  destruct (between_share l A1 A2 A4 A3 A5 i) as (a & b & Hab & S); [now rewrite repeat_length|].
  exists a, b. split; [exact Hab|]. rewrite A6, ones_nth, RR_f1, repeat_length in S by exact Hi. unfold Rdiv in S. now rewrite Rmult_1_l in S.
Qed.
Lemma ones_chosen w : word w -> exists i, (i < n)%nat /\ choose_between_rng l w = Ok (Z.of_nat i).
Proof.
  intros Hw. destruct ones_facts as (A1 & A2 & A3 & A4 & A5 & A6). destruct (between_total l A1 A2 A4 A3 A5 w Hw) as (i & Hi & E & _).
  rewrite repeat_length in Hi. now exists i.
Qed.

Notation W := (IZR (2 ^ 64)).
Lemma index_counted I : NoDup I -> (forall i, In i I -> (i < n)%nat) ->
  exists x, counted (fun w => word w /\ exists i, In i I /\ choose_between_rng l w = Ok (Z.of_nat i)) x /\
  Rabs (x / W - INR (length I) / INR n) <= INR (length I) * ((6 * INR n + 7) * uro).
Proof.
  assert (W0 : W <> 0) by (apply IZR_neq; lia). assert (N0 : INR n <> 0) by (apply not_0_INR; lia).
  induction 1 as [|i I Ni NI IH]; intros V.
  - exists 0. split; [apply counted_none; intros w (_ & i & [] & _)|]. cbn [length INR]. unfold Rdiv. rewrite !Rmult_0_l, Rminus_0_r, Rabs_R0. lra.
  - destruct IH as (x & Cx & Ex); [intros j Hj; apply V; now right|]. destruct (ones_share i) as (a & b & Hab & S); [apply V; now left|].
    exists (IZR (b - a) + x). split.
    + refine (counted_ext _ _ _ _ (counted_union _ _ _ _ _ (counted_between _ _ _ Hab) Cx)).
      * intros w. split; [intros [[Hw E]|(Hw & j & Ij & E)]; (split; [exact Hw|]); [exists i; split; [now left|exact E]|exists j; split; [now right|exact E]]|].
        intros (Hw & j & [<-|Ij] & E); [now left|right]. split; [exact Hw|]. now exists j.
      * intros w (_ & E) (_ & j & Ij & E'). rewrite E in E'. injection E' as E'. apply Nat2Z.inj in E'. now subst j.
    + cbn [length]. rewrite S_INR. unfold share in S.
      replace ((IZR (b - a) + x) / W - (INR (length I) + 1) / INR n) with ((IZR (b - a) / W - / INR n) + (x / W - INR (length I) / INR n)) by (field; now split).
      eapply Rle_trans; [apply Rabs_triang|]. lra.
Qed.
End Equal.

(** * All words *)
Lemma every_word_sig : {l : list Z | NoDup l /\ (forall w, In w l <-> word w) /\ INR (length l) = IZR (2 ^ 64)}.
Proof.
  exists (upto (2 ^ 64)). split; [apply upto_NoDup|]. split; [intros w; apply upto_In|]. rewrite upto_length, INR_IZR_INZ, Z2Nat.id by lia. exact eq_refl.
Qed.
Definition every_word : list Z := proj1_sig every_word_sig.
Lemma every_word_NoDup : NoDup every_word. Proof. exact (proj1 (proj2_sig every_word_sig)). Qed.
Lemma every_word_In w : In w every_word <-> word w. Proof. exact (proj1 (proj2 (proj2_sig every_word_sig)) w). Qed.
Lemma every_word_length : INR (length every_word) = IZR (2 ^ 64). Proof. exact (proj2 (proj2 (proj2_sig every_word_sig))). Qed.

Fixpoint tuples (n : nat) : list (list Z) :=
  match n with O => [[]] | S n' => flat_map (fun w => map (cons w) (tuples n')) every_word end.

Lemma tuples_In n : forall ws, In ws (tuples n) <-> words n ws.
Proof.
  induction n as [|n IH]; intros ws; cbn [tuples].
  - split; [intros [<-|[]]; split; [reflexivity|constructor]|]. intros [L _]. left. destruct ws; [reflexivity|discriminate].
  - rewrite in_flat_map. split.
    + intros (w & Iw & I). apply in_map_iff in I as (vs & <- & Iv). apply IH in Iv as [Lv Fv]. apply every_word_In in Iw.
      split; [cbn [length]; now rewrite Lv|now constructor].
    + intros [L F]. destruct ws as [|w vs]; [discriminate|]. inversion F; subst. exists w. split; [now apply every_word_In|].
      apply in_map. apply IH. split; [now injection L|assumption].
Qed.
Lemma NoDup_flat {A B} (g : A -> list B) l : NoDup l -> (forall a, In a l -> NoDup (g a)) -> (forall a b x, In x (g a) -> In x (g b) -> a = b) -> NoDup (flat_map g l).
Proof.
  intros N G D. induction N as [|a l Na Nl IH]; [constructor|]. cbn [flat_map]. apply NoDup_two; [apply G; now left|apply IH; intros; apply G; now right|].
  intros x Ix Iy. apply in_flat_map in Iy as (b & Ib & Ix'). now rewrite (D a b x Ix Ix') in Na.
Qed.
Lemma tuples_NoDup n : NoDup (tuples n).
Proof.
  induction n as [|n IH]; cbn [tuples]; [repeat constructor; intros []|]. apply NoDup_flat; [apply every_word_NoDup| |].
  - intros w _. apply Injective_map_NoDup; [intros u v E; now injection E|exact IH].
  - intros a b x Ia Ib. apply in_map_iff in Ia as (u & <- & _). apply in_map_iff in Ib as (v & E & _). now injection E.
Qed.

Lemma filter_flat {A B} (f : B -> bool) (g : A -> list B) l : INR (length (filter f (flat_map g l))) = sumR (map (fun a => INR (length (filter f (g a)))) l).
Proof.
  induction l as [|a l IH]; [reflexivity|]. cbn [flat_map map]. rewrite filter_app, app_length, plus_INR, IH. reflexivity.
Qed.

Lemma filter_shorter {A} (f : A -> bool) l : (length (filter f l) <= length l)%nat.
Proof. induction l as [|a l IH]; [apply le_n|]. cbn [filter length]. destruct (f a); cbn [length]; lia. Qed.

(** * The walker *)
Section Walker.
Context {T : Type} (N : num T) (pi : T) (B : bravais T) (size : list Z) (cl : bool) (H : lattice_ok B size).
Notation L := (built N pi B size cl).
Notation nn a := (nbrs B size cl (coords_of size a) (upto (b_gamma B))).
Context (Hg : (b_gamma B <= 2 ^ 46)%Z) (Hne : forall a, valid_site size a -> nn a <> []).
Notation sites := (upto (prodZ size)).
Notation W := (IZR (2 ^ 64)).
Notation eps := ((6 * IZR (b_gamma B) + 7) * uro).

Lemma nn_short a : (Z.of_nat (length (nn a)) <= b_gamma B)%Z.
Proof.
  pose proof H as (W' & _). assert (G : (0 <= b_gamma B)%Z) by (destruct W' as (_ & G & _); lia).
  unfold nbrs. rewrite map_length. destruct cl; [rewrite map_length, upto_length; lia|].
  eapply Z.le_trans; [apply inj_le, filter_shorter|]. rewrite map_length, upto_length. lia.
Qed.
Lemma nn_pos a : valid_site size a -> (0 < length (nn a))%nat.
Proof. intros Ha. pose proof (Hne a Ha). destruct (nn a); [contradiction|cbn; lia]. Qed.
Lemma nn_bound a : (Z.of_nat (length (nn a)) <= 2 ^ 46)%Z.
Proof. pose proof (nn_short a). lia. Qed.

Lemma hop_index a w i : valid_site size a -> (i < length (nn a))%nat -> choose_between_rng (repeat f1 (length (nn a))) w = Ok (Z.of_nat i) ->
  hop L a w = Ok (nth i (nn a) 0%Z).
Proof.
  intros Ha Hi E. unfold hop. rewrite nn_built by assumption. cbn [bind]. rewrite E. cbn [bind]. rewrite (vget_at _ _ 0%Z) by (unfold vsize; lia). now rewrite Nat2Z.id.
Qed.
Lemma hop_total a w : valid_site size a -> word w -> exists b, hop L a w = Ok b /\ In b (nn a).
Proof.
  intros Ha Hw. destruct (ones_chosen (length (nn a)) (nn_pos a Ha) (nn_bound a) w Hw) as (i & Hi & E).
  eexists. split; [now apply (hop_index a w i)|]. now apply nth_In.
Qed.
Lemma hop_iff a w b : valid_site size a -> word w -> hop L a w = Ok b <->
  exists i, In i (filter (fun i => (nth i (nn a) 0%Z =? b)%Z) (seq 0 (length (nn a)))) /\ choose_between_rng (repeat f1 (length (nn a))) w = Ok (Z.of_nat i).
Proof.
  intros Ha Hw. destruct (ones_chosen (length (nn a)) (nn_pos a Ha) (nn_bound a) w Hw) as (i & Hi & E).
  rewrite (hop_index a w i Ha Hi E). split.
  - intros Q. injection Q as <-. exists i. split; [|exact E]. apply filter_In. split; [apply in_seq; lia|apply Z.eqb_refl].
  - intros (j & Ij & Ej). rewrite E in Ej. injection Ej as Ej. apply Nat2Z.inj in Ej. subst j. apply filter_In in Ij as [_ Ij].
    apply Z.eqb_eq in Ij. now rewrite Ij.
Qed.

Definition goes (a b w : Z) : bool := match hop L a w with Ok c => (c =? b)%Z | _ => false end.
Lemma goes_iff a b w : goes a b w = true <-> hop L a w = Ok b.
Proof.
  unfold goes. destruct (hop L a w); split; intros Q; try discriminate Q; [apply Z.eqb_eq in Q; now subst|injection Q as ->; apply Z.eqb_refl].
Qed.
Definition count1 (a b : Z) : R := INR (length (filter (goes a b) every_word)).
Definition pr (a b : Z) : R := count1 a b / W.
Definition occ (a b : Z) : R := INR (occurrences b (nn a)).
Definition dg (a : Z) : R := INR (length (nn a)).
Definition qr (a b : Z) : R := occ a b / dg a.

Lemma count1_counted a b : counted (fun w => word w /\ hop L a w = Ok b) (count1 a b).
Proof. apply counted_filter; [apply every_word_NoDup|]. intros w. now rewrite every_word_In, goes_iff. Qed.

Lemma occ_indices (l : list Z) b : occurrences b l = length (filter (fun i => (nth i l 0 =? b)%Z) (seq 0 (length l))).
Proof.
  unfold occurrences. rewrite <- (filter_map_length (fun x => (x =? b)%Z) (fun i => nth i l 0%Z)).
  replace (map (fun i => nth i l 0%Z) (seq 0 (length l))) with l.
  - rewrite <- (map_id l) at 1. apply count_map.
  - apply nth_ext with (d := 0%Z) (d' := nth 0 l 0%Z); [now rewrite map_length, seq_length|]. intros k Hk.
    rewrite (map_nth (fun i => nth i l 0%Z)), seq_nth by exact Hk. reflexivity.
Qed.

Lemma pr_near a b : valid_site size a -> Rabs (pr a b - qr a b) <= occ a b * eps.
Proof.
  intros Ha. set (I := filter (fun i => (nth i (nn a) 0%Z =? b)%Z) (seq 0 (length (nn a)))).
  destruct (index_counted (length (nn a)) (nn_pos a Ha) (nn_bound a) I) as (x & Cx & Ex).
  { apply NoDup_filter, seq_NoDup. } { intros i Ii. apply filter_In in Ii as [Ii _]. apply in_seq in Ii. lia. }
  assert (E : x = count1 a b).
  { refine (counted_unique _ _ _ _ (count1_counted a b)). refine (counted_ext _ _ _ _ Cx). intros w. split; intros [Hw Q]; (split; [exact Hw|]); now apply hop_iff. }
  unfold pr, qr, occ, dg. rewrite <- E, occ_indices. fold I. eapply Rle_trans; [exact Ex|]. apply Rmult_le_compat_l; [apply pos_INR|].
  apply Rmult_le_compat_r; [pose proof uro_pos; lra|]. pose proof (nn_short a) as Q. apply IZR_le in Q. rewrite <- INR_IZR_INZ in Q. lra.
Qed.

Lemma sites_valid a : In a sites <-> valid_site size a. Proof. apply upto_In. Qed.

Lemma dg_pos a : valid_site size a -> 0 < dg a.
Proof. intros Ha. apply lt_0_INR. now apply nn_pos. Qed.
Lemma dg_le a : dg a <= IZR (b_gamma B).
Proof. unfold dg. rewrite INR_IZR_INZ. apply IZR_le, nn_short. Qed.

Lemma occ_sym a b : valid_site size a -> valid_site size b -> occ a b = occ b a.
Proof. intros Ha Hb. unfold occ. f_equal. now apply (multiplicity N pi B size cl H). Qed.
Lemma occ_total a : valid_site size a -> sumR (map (occ a) sites) = dg a.
Proof.
  intros Ha. unfold dg. transitivity (sumR (map (fun _ : Z => 1) (nn a))).
  - rewrite (sum_group sites (fun x => x) (fun _ => 1)); [|apply upto_NoDup|intros x Hx; apply sites_valid; now apply (nn_valid N pi B size cl H a)].
    apply sumR_ext. intros c _. unfold occ, occurrences. rewrite <- (map_id (nn a)) at 1. rewrite count_map. ring.
  - generalize (nn a). intros l. induction l as [|x l IH]; [reflexivity|]. cbn [map]. unfold sumR in *. cbn [fold_right]. rewrite IH. cbn [length]. rewrite S_INR. ring.
Qed.

Lemma q_stochastic : stochastic sites qr.
Proof.
  intros a Ia. apply sites_valid in Ia. pose proof (dg_pos a Ia). split.
  - intros b _. unfold qr. apply Rmult_le_pos; [apply pos_INR|]. apply Rlt_le, Rinv_0_lt_compat. assumption.
  - rewrite (sumR_ext _ (fun b => / dg a * occ a b)) by (intros; unfold qr, Rdiv; ring). rewrite (sumR_scal (/ dg a) (occ a)), occ_total by exact Ia. field. lra.
Qed.

Definition target (a w : Z) : Z := match hop L a w with Ok c => c | _ => 0%Z end.
Lemma goes_target a w b : valid_site size a -> word w -> goes a b w = (target a w =? b)%Z.
Proof. intros Ha Hw. unfold goes, target. destruct (hop_total a w Ha Hw) as (c & -> & _). reflexivity. Qed.
Lemma target_valid a w : valid_site size a -> word w -> In (target a w) sites /\ hop L a w = Ok (target a w).
Proof.
  intros Ha Hw. unfold target. destruct (hop_total a w Ha Hw) as (c & -> & Ic). split; [|reflexivity]. apply sites_valid. now apply (nn_valid N pi B size cl H a).
Qed.
Lemma count1_target a c : valid_site size a -> count1 a c = INR (length (filter (fun w => (target a w =? c)%Z) every_word)).
Proof. intros Ha. unfold count1. f_equal. f_equal. apply filter_ext_in. intros w Iw. apply every_word_In in Iw. now apply goes_target. Qed.

Lemma p_stochastic : stochastic sites pr.
Proof.
  intros a Ia. apply sites_valid in Ia. assert (W0 : 0 < W) by (apply IZR_lt; lia). split.
  - intros b _. unfold pr. apply Rmult_le_pos; [apply pos_INR|]. apply Rlt_le, Rinv_0_lt_compat. exact W0.
  - rewrite (sumR_ext _ (fun b => / W * (INR (length (filter (fun w => (target a w =? b)%Z) every_word)) * 1))).
    + rewrite (sumR_scal (/ W) (fun b => INR (length (filter (fun w => (target a w =? b)%Z) every_word)) * 1)).
      rewrite <- (sum_group sites (target a) (fun _ => 1)); [|apply upto_NoDup|intros w Iw; apply every_word_In in Iw; now apply target_valid].
      replace (sumR (map (fun _ : Z => 1) every_word)) with W; [field; lra|]. rewrite <- every_word_length.
      generalize every_word. induction l as [|x l IH]; [reflexivity|]. cbn [length map]. unfold sumR in *. cbn [fold_right]. rewrite <- IH, S_INR. ring.
    + intros b _. unfold pr. rewrite count1_target by exact Ia. unfold Rdiv. ring.
Qed.

Definition arrives (a b : Z) (ws : list Z) : bool := match hops L a ws with Ok c => (c =? b)%Z | _ => false end.
Definition countn (n : nat) (a b : Z) : R := INR (length (filter (arrives a b) (tuples n))).
Lemma countn_counted n a b : counted (fun ws => words n ws /\ hops L a ws = Ok b) (countn n a b).
Proof.
  apply counted_filter; [apply tuples_NoDup|]. intros ws. rewrite tuples_In. unfold arrives.
  destruct (hops L a ws); split; intros [Q1 Q2]; (split; [exact Q1|]); try discriminate Q2; [injection Q2 as ->; apply Z.eqb_refl|apply Z.eqb_eq in Q2; now subst].
Qed.

Lemma countn_pw n : forall a b, valid_site size a -> countn n a b = all_words n * pw sites pr n a b.
Proof.
  assert (W0 : W <> 0) by (apply IZR_neq; lia).
  induction n as [|n IH]; intros a b Ha.
  - unfold countn, all_words. cbn [tuples filter pw pow]. unfold arrives, hops. cbn [ofold].
    destruct (Z.eqb_spec a b), (Z.eq_dec a b); try congruence; cbn; ring.
  - unfold countn. cbn [tuples]. rewrite filter_flat.
    rewrite (sumR_ext _ (fun w => countn n (target a w) b)).
    + rewrite (sum_group sites (target a) (fun c => countn n c b)); [|apply upto_NoDup|intros w Iw; apply every_word_In in Iw; now apply target_valid].
      cbn [pw]. rewrite <- sumR_scal. apply sumR_ext. intros c Ic. apply sites_valid in Ic. rewrite (IH c b Ic), <- count1_target by exact Ha.
      unfold pr, all_words. cbn [pow]. field. exact W0.
    + intros w Iw. apply every_word_In in Iw. destruct (target_valid a w Ha Iw) as [_ E]. rewrite (filter_map_length (arrives a b) (cons w)). unfold countn.
      f_equal. apply filter_ext_length. intros ws _. unfold arrives, hops. cbn [ofold]. rewrite E. reflexivity.
Qed.

Notation e := (hop_error (b_gamma B)).
Lemma e_eq : e = IZR (b_gamma B) * eps. Proof. reflexivity. Qed.
Lemma gamma_pos : 0 <= IZR (b_gamma B).
Proof. pose proof H as (W' & _). apply IZR_le. destruct W' as (_ & G & _). lia. Qed.
Lemma eps_pos : 0 <= eps.
Proof. pose proof gamma_pos. pose proof uro_pos. apply Rmult_le_pos; lra. Qed.
Lemma e_pos : 0 <= e.
Proof. rewrite e_eq. apply Rmult_le_pos; [apply gamma_pos|apply eps_pos]. Qed.

Lemma row_near a : In a sites -> sumR (map (fun b => Rabs (pr a b - qr a b)) sites) <= e.
Proof.
  intros Ia. apply sites_valid in Ia. apply Rle_trans with (sumR (map (fun b => eps * occ a b) sites)).
  - apply sum_le. intros b _. rewrite Rmult_comm. now apply pr_near.
  - rewrite (sumR_scal eps (occ a)), occ_total by exact Ia. rewrite e_eq, Rmult_comm. apply Rmult_le_compat_r; [apply eps_pos|apply dg_le].
Qed.
Lemma column_near b : In b sites -> sumR (map (fun a => dg a * Rabs (pr a b - qr a b)) sites) <= e * dg b.
Proof.
  intros Ib. apply sites_valid in Ib. apply Rle_trans with (sumR (map (fun a => e * occ b a) sites)).
  - apply sum_le. intros a Ia. apply sites_valid in Ia. rewrite (occ_sym b a Ib Ia). rewrite e_eq, Rmult_assoc.
    apply Rmult_le_compat; [apply Rlt_le, dg_pos; exact Ia|apply Rabs_pos|apply dg_le|]. rewrite Rmult_comm. now apply pr_near.
  - rewrite (sumR_scal e (occ b)), occ_total by exact Ib. lra.
Qed.
Lemma reversible a b : In a sites -> In b sites -> dg a * qr a b = dg b * qr b a.
Proof.
  intros Ia Ib. apply sites_valid in Ia, Ib. unfold qr. rewrite (occ_sym a b Ia Ib). pose proof (dg_pos a Ia). pose proof (dg_pos b Ib). field. lra.
Qed.

Lemma all_pos n : 0 < all_words n. Proof. apply pow_lt, IZR_lt. lia. Qed.

Lemma walks_balanced n a b : valid_site size a -> valid_site size b ->
  Rabs (dg a * countn n a b - dg b * countn n b a) <= (dg a + dg b) * (INR n * e) * all_words n.
Proof.
  intros Ha Hb. rewrite !countn_pw by assumption.
  replace (dg a * (all_words n * pw sites pr n a b) - dg b * (all_words n * pw sites pr n b a)) with
    ((dg a * pw sites pr n a b - dg b * pw sites pr n b a) * all_words n) by ring.
  pose proof (all_pos n). rewrite Rabs_mult, (Rabs_pos_eq (all_words n)) by lra. apply Rmult_le_compat_r; [lra|].
  apply (pw_balanced sites (upto_NoDup _) pr qr dg e); auto using p_stochastic, q_stochastic, row_near, reversible; try (now apply sites_valid).
  intros c Ic. apply dg_pos. now apply sites_valid.
Qed.

Lemma walks_stationary n b : valid_site size b -> e <= 1 ->
  (1 - e) ^ n * dg b * all_words n <= sumR (map (fun a => dg a * countn n a b) sites) <= (1 + e) ^ n * dg b * all_words n.
Proof.
  intros Hb E1. rewrite (sumR_ext _ (fun a => all_words n * (dg a * pw sites pr n a b))).
  2:{ intros a Ia. apply sites_valid in Ia. rewrite countn_pw by exact Ia. ring. }
  rewrite (sumR_scal (all_words n) (fun a => dg a * pw sites pr n a b)). pose proof (all_pos n).
  destruct (pw_stationary sites (upto_NoDup _) pr qr dg e) with (n := n) (b := b) as [S1 S2];
    auto using p_stochastic, q_stochastic, column_near, reversible, e_pos; try (now apply sites_valid).
  { intros c Ic. apply dg_pos. now apply sites_valid. }
  split; rewrite Rmult_comm; [rewrite (Rmult_comm (all_words n))|]; nra.
Qed.

Lemma hops_total ws : Forall word ws -> forall a, valid_site size a -> exists b, hops L a ws = Ok b /\ valid_site size b.
Proof.
  induction 1 as [|w ws Hw F IH]; intros a Ha; [exists a; split; [reflexivity|exact Ha]|].
  destruct (target_valid a w Ha Hw) as [V E]. apply sites_valid in V. destruct (IH _ V) as (b & Eb & Vb). exists b. split; [|exact Vb].
  unfold hops. cbn [ofold]. rewrite E. exact Eb.
Qed.
End Walker.
