(** Lemmas about groups of observables. *)
From Coq Require Import ZArith List Bool Ascii String Sorted Lia.
From Verif Require Import Base F64 Num M_Text S_Rational L_Text M_Archive M_Accum L_Sum L_Move L_Hist M_Util L_Util M_Obs S_Obs.
Import ListNotations.
Open Scope Z_scope.

(** * Sorted association lists *)
Section Map.
Context {K : Type} (lt : K -> K -> bool) (O : strict_total lt).

Fixpoint lookup {V} (m : list (K * V)) (k : K) : option V :=
  match m with
  | [] => None
  | (k', v') :: m' => if lt k' k then lookup m' k else if lt k k' then None else Some v'
  end.

Definition sorted {V} (m : list (K * V)) : Prop := StronglySorted (fun a b => lt a b = true) (map fst m).

Lemma lt_asym a b : lt a b = true -> lt b a = false.
Proof.
  intros H. destruct (lt b a) eqn:E; [|reflexivity].
  pose proof (st_trans _ O _ _ _ H E) as T. rewrite (st_irrefl _ O) in T. discriminate.
Qed.

Lemma key_dec (a b : K) : a = b \/ a <> b.
Proof.
  destruct (lt a b) eqn:E; [right; intros ->; rewrite (st_irrefl _ O) in E; discriminate|].
  destruct (lt b a) eqn:E2; [right; intros ->; rewrite (st_irrefl _ O) in E2; discriminate|].
  left. now apply (st_total _ O).
Qed.

Lemma lookup_head {V} k (v : V) m : lookup ((k, v) :: m) k = Some v.
Proof. cbn [lookup]. now rewrite (st_irrefl _ O). Qed.

Lemma lookup_skip {V} k' (v : V) m k : lt k' k = true -> lookup ((k', v) :: m) k = lookup m k.
Proof. intros H. cbn [lookup]. now rewrite H. Qed.

Lemma lookup_before {V} (m : list (K * V)) k : (forall k', In k' (map fst m) -> lt k k' = true) -> lookup m k = None.
Proof.
  destruct m as [|[k' v] m]; intros H; [reflexivity|]. cbn [lookup].
  assert (E : lt k k' = true) by (apply H; now left). now rewrite (lt_asym _ _ E), E.
Qed.

Lemma lookup_keys {V} (m : list (K * V)) k : sorted m -> (lookup m k <> None <-> In k (map fst m)).
Proof.
  unfold sorted. induction m as [|[k' v] m IH]; cbn [map fst In]; intros S.
  - cbn. tauto.
  - inversion S as [|? ? S' F]; subst. cbn [lookup]. rewrite Forall_forall in F.
    destruct (lt k' k) eqn:E1; [|destruct (lt k k') eqn:E2].
    + rewrite IH by assumption. split; [tauto|]. intros [->|H]; [rewrite (st_irrefl _ O) in E1; discriminate|assumption].
    + split; [tauto|]. intros [->|H]; [rewrite (st_irrefl _ O) in E2; discriminate|].
      exfalso. apply F in H. congruence.
    + split; [|discriminate]. intros _. left. now apply (st_total _ O).
Qed.

Lemma lookup_In {V} (m : list (K * V)) k v : sorted m -> In (k, v) m -> lookup m k = Some v.
Proof.
  unfold sorted. induction m as [|[k' v'] m IH]; cbn [map fst]; intros S H; [destruct H|].
  inversion S as [|? ? S' F]; subst. rewrite Forall_forall in F. destruct H as [[= -> ->]|H]; [apply lookup_head|].
  rewrite lookup_skip; [now apply IH|]. apply F. apply in_map_iff. now exists (k, v).
Qed.

Lemma emplace_lookup {V} (m : list (K * V)) k v j :
  lookup (map_emplace lt m k v) j = match lookup m j with Some w => Some w | None => if lt j k || lt k j then None else Some v end.
Proof.
  induction m as [|[k' v'] m IH]; cbn [map_emplace].
  - cbn [lookup]. destruct (lt k j), (lt j k); reflexivity.
  - destruct (lt k k') eqn:E1; [|destruct (lt k' k) eqn:E2].
    + cbn [lookup]. destruct (lt k j) eqn:A.
      * destruct (lt k' j) eqn:B; [|destruct (lt j k'); [|reflexivity]]; rewrite ?orb_true_r; [destruct (lookup m j)|]; reflexivity.
      * destruct (lt j k) eqn:B.
        -- rewrite (st_trans _ O _ _ _ B E1), (lt_asym j k') by (exact (st_trans _ O _ _ _ B E1)). reflexivity.
        -- assert (j = k) as -> by now apply (st_total _ O). rewrite E1, (lt_asym _ _ E1). reflexivity.
    + cbn [lookup]. rewrite IH. destruct (lt k' j) eqn:A; [reflexivity|]. destruct (lt j k') eqn:B; [|reflexivity].
      rewrite (st_trans _ O _ _ _ B E2). reflexivity.
    + assert (k = k') as <- by now apply (st_total _ O). cbn [lookup].
      destruct (lt k j) eqn:A; [rewrite orb_true_r; destruct (lookup m j); reflexivity|].
      destruct (lt j k) eqn:B; reflexivity.
Qed.

Lemma emplace_keys {V} (m : list (K * V)) k v j : In j (map fst (map_emplace lt m k v)) -> j = k \/ In j (map fst m).
Proof.
  induction m as [|[k' v'] m IH]; cbn [map_emplace map fst In]; [intuition auto|].
  destruct (lt k k'); [|destruct (lt k' k)]; cbn [map fst In]; intuition auto.
Qed.

Lemma emplace_sorted {V} (m : list (K * V)) k v : sorted m -> sorted (map_emplace lt m k v).
Proof.
  unfold sorted. induction m as [|[k' v'] m IH]; cbn [map_emplace map fst]; intros S.
  - repeat constructor.
  - inversion S as [|? ? S' F]; subst. destruct (lt k k') eqn:E1; [|destruct (lt k' k) eqn:E2]; cbn [map fst].
    + constructor; [assumption|]. constructor; [assumption|]. eapply Forall_impl; [|exact F]. intros a Ha. exact (st_trans _ O _ _ _ E1 Ha).
    + constructor; [now apply IH|]. rewrite Forall_forall in *. intros j Hj. apply emplace_keys in Hj as [->|Hj]; auto.
    + assumption.
Qed.

Lemma emplace_old {V} (m : list (K * V)) k v : lookup m k <> None -> map_emplace lt m k v = m.
Proof.
  induction m as [|[k' v'] m IH]; cbn [lookup map_emplace]; [congruence|].
  destruct (lt k' k) eqn:E1.
  - intros H. rewrite (lt_asym _ _ E1). now rewrite IH.
  - destruct (lt k k'); congruence.
Qed.

Lemma emplace_map {V W} (f : V -> W) (m : list (K * V)) k v :
  map_emplace lt (map (fun e => (fst e, f (snd e))) m) k (f v) = map (fun e => (fst e, f (snd e))) (map_emplace lt m k v).
Proof.
  induction m as [|[k' v'] m IH]; cbn [map map_emplace fst snd]; [reflexivity|].
  destruct (lt k k'); [reflexivity|]. destruct (lt k' k); [|reflexivity]. cbn [map fst snd]. now rewrite IH.
Qed.

Lemma at_none {V} (m : list (K * V)) k f : lookup m k = None -> map_at lt m k f = (m, Throw ExOutOfRange).
Proof.
  induction m as [|[k' v'] m IH]; cbn [lookup map_at]; [reflexivity|].
  destruct (lt k' k); [intros H; now rewrite IH|]. destruct (lt k k'); [reflexivity|discriminate].
Qed.

(** Replacing the value of a key that is present. *)
Fixpoint replace {V} (m : list (K * V)) (k : K) (v : V) : list (K * V) :=
  match m with
  | [] => []
  | (k', v') :: m' => if lt k' k then (k', v') :: replace m' k v else (k', v) :: m'
  end.

Lemma replace_keys {V} (m : list (K * V)) k v : map fst (replace m k v) = map fst m.
Proof.
  induction m as [|[k' v'] m IH]; cbn [replace]; [reflexivity|]. destruct (lt k' k); cbn [map fst]; [now rewrite IH|reflexivity].
Qed.

Lemma replace_lookup {V} (m : list (K * V)) k v w j : lookup m k = Some w ->
  lookup (replace m k v) j = if lt j k || lt k j then lookup m j else Some v.
Proof.
  induction m as [|[k' v'] m IH]; cbn [lookup replace]; [discriminate|].
  destruct (lt k' k) eqn:E1.
  - intros H. cbn [lookup]. rewrite (IH H). destruct (lt k' j) eqn:A; [reflexivity|].
    assert (B : lt j k = true).
    { destruct (lt j k') eqn:B; [exact (st_trans _ O _ _ _ B E1)|].
      assert (j = k') as -> by now apply (st_total _ O). exact E1. }
    rewrite B. cbn [orb]. reflexivity.
  - destruct (lt k k') eqn:E2; [discriminate|]. intros _. assert (k = k') as <- by now apply (st_total _ O).
    cbn [lookup]. destruct (lt k j) eqn:A; [now rewrite orb_true_r|]. destruct (lt j k); reflexivity.
Qed.

Lemma at_some {V W} (g : V -> W) (m : list (K * V)) k v f v' o : lookup m k = Some v ->
  f (g v) = (g v', o) ->
  map_at lt (map (fun e => (fst e, g (snd e))) m) k f = (map (fun e => (fst e, g (snd e))) (replace m k v'), o).
Proof.
  intros H E. induction m as [|[k' w] m IH]; cbn [lookup map map_at replace fst snd] in *; [discriminate|].
  destruct (lt k' k); [now rewrite IH|]. destruct (lt k k'); [discriminate|]. injection H as ->. now rewrite E.
Qed.

Lemma lookup_map {V W} (f : V -> W) (m : list (K * V)) k :
  lookup (map (fun e => (fst e, f (snd e))) m) k = match lookup m k with Some v => Some (f v) | None => None end.
Proof.
  induction m as [|[k' v] m IH]; cbn [map lookup fst snd]; [reflexivity|].
  destruct (lt k' k); [exact IH|]. destruct (lt k k'); reflexivity.
Qed.

Lemma fst_map {V W} (f : V -> W) (m : list (K * V)) : map fst (map (fun e => (fst e, f (snd e))) m) = map fst m.
Proof. rewrite map_map. reflexivity. Qed.

Lemma emplace_sorted_new {V} (m : list (K * V)) k v :
  sorted m -> (forall k', In k' (map fst m) -> lt k' k = true) -> map_emplace lt m k v = m ++ [(k, v)].
Proof.
  intros S H. induction m as [|[k' v'] m IH]; [reflexivity|]. cbn [map_emplace app].
  assert (E : lt k' k = true) by (apply H; now left). rewrite (lt_asym _ _ E), E. f_equal. apply IH.
  - inversion S; assumption.
  - intros j Hj. apply H. now right.
Qed.

Lemma sorted_unique (l1 : list K) : forall l2,
  StronglySorted (fun a b => lt a b = true) l1 -> StronglySorted (fun a b => lt a b = true) l2 ->
  (forall k, In k l1 <-> In k l2) -> l1 = l2.
Proof.
  induction l1 as [|a l1 IH]; intros [|b l2] S1 S2 H.
  - reflexivity.
  - exfalso. apply (H b). now left.
  - exfalso. apply (H a). now left.
  - inversion S1 as [|? ? S1' F1]; inversion S2 as [|? ? S2' F2]; subst. rewrite Forall_forall in F1, F2.
    assert (a = b) as <-.
    { assert (Ha : In a (b :: l2)) by (apply H; now left). assert (Hb : In b (a :: l1)) by (apply H; now left).
      destruct Ha as [->|Ha]; [reflexivity|]. destruct Hb as [->|Hb]; [reflexivity|].
      apply F2 in Ha. apply F1 in Hb. rewrite (lt_asym _ _ Ha) in Hb. discriminate. }
    f_equal. apply IH; auto. intros k. split; intros Hk.
    + assert (Hk' : In k (a :: l2)) by (apply H; now right). destruct Hk' as [->|]; [|assumption].
      apply F1 in Hk. rewrite (st_irrefl _ O) in Hk. discriminate.
    + assert (Hk' : In k (a :: l1)) by (apply H; now right). destruct Hk' as [->|]; [|assumption].
      apply F2 in Hk. rewrite (st_irrefl _ O) in Hk. discriminate.
Qed.
End Map.

(** * The text of a line *)

Lemma join_cons c cs : cs <> [] -> join (c :: cs) = c ++ comma :: join cs.
Proof. destruct cs; [congruence|reflexivity]. Qed.

Lemma join_snoc c cs e : join ((c :: cs) ++ [e]) = c ++ flat_map (fun x => comma :: x) cs ++ comma :: e.
Proof.
  revert c; induction cs as [|d cs IH]; intros c; [reflexivity|].
  change ((c :: d :: cs) ++ [e]) with (c :: ((d :: cs) ++ [e])). rewrite join_cons by discriminate.
  rewrite IH. cbn [flat_map app]. now rewrite <- app_assoc.
Qed.

Lemma flat_map_map {A B C} (f : A -> B) (g : B -> list C) l : flat_map g (map f l) = flat_map (fun x => g (f x)) l.
Proof. induction l as [|a l IH]; [reflexivity|]. cbn [map flat_map]. now rewrite IH. Qed.

Lemma split_no sep s : ~ In sep s -> split sep s = [s].
Proof.
  induction s as [|c s IH]; intros H; [reflexivity|]. cbn [split].
  destruct (Ascii.eqb_spec c sep) as [->|N]; [exfalso; apply H; now left|].
  rewrite IH; [reflexivity|]. intros K. apply H. now right.
Qed.

Lemma split_app sep a b : ~ In sep a -> split sep (a ++ sep :: b) = a :: split sep b.
Proof.
  induction a as [|c a IH]; intros H; cbn [app split].
  - now rewrite Ascii.eqb_refl.
  - destruct (Ascii.eqb_spec c sep) as [->|N]; [exfalso; apply H; now left|].
    rewrite IH; [reflexivity|]. intros K. apply H. now right.
Qed.

Lemma split_join cells : cells <> [] -> Forall clean cells -> split comma (join cells) = cells.
Proof.
  intros N F. induction F as [|c cs [Hc _] F IH]; [congruence|]. destruct cs as [|d cs].
  - now apply split_no.
  - rewrite join_cons by discriminate. rewrite split_app by assumption. now rewrite IH.
Qed.

Lemma join_newline cells : Forall clean cells -> ~ In newline (join cells).
Proof.
  intros F. induction F as [|c cs [_ Hc] F IH]; [intros []|]. destruct cs as [|d cs]; [exact Hc|].
  rewrite join_cons by discriminate. intros H. apply in_app_or in H as [H|[H|H]]; [auto| |auto].
  vm_compute in H. discriminate H.
Qed.

Lemma split_nonempty sep s : split sep s <> [].
Proof. destruct s as [|c s]; [discriminate|]. cbn [split]. destruct (Ascii.eqb c sep); [discriminate|]. destruct (split sep s); discriminate. Qed.

Lemma table_lines rows : Forall (fun r => r <> [] /\ Forall clean r) rows -> table (List.concat (map line rows)) = rows.
Proof.
  intros F. unfold table. induction F as [|r rows [Hr Hc] F IH]; [reflexivity|].
  cbn [map List.concat]. unfold line at 1. rewrite <- app_assoc. cbn [app].
  rewrite split_app by now apply join_newline.
  cbn [removelast]. destruct (split newline (List.concat (map line rows))) as [|p ps] eqn:E; [now apply split_nonempty in E|].
  cbn [map]. rewrite IH. f_equal. now apply split_join.
Qed.

Lemma digit_clean c : is_digit c = true -> c <> comma /\ c <> newline.
Proof. intros H. split; intros ->; vm_compute in H; discriminate. Qed.

Lemma put_int_clean z : clean (put_int z).
Proof.
  pose proof (put_int_text z) as H. apply int_text_shape in H as (neg & ds & pre & -> & _ & Hall & _ & Hs).
  assert (P : forall c, In c pre -> c <> comma /\ c <> newline).
  { intros c Hc. destruct Hs as [[_ [->| ->]]|[_ ->]]; cbn [In] in Hc;
      repeat match goal with H : _ \/ _ |- _ => destruct H as [<-|H] | H : False |- _ => destruct H end; split; discriminate. }
  assert (D : forall c, In c ds -> c <> comma /\ c <> newline).
  { intros c Hc. apply digit_clean. rewrite Forall_forall in Hall. exact (Hall c Hc). }
  split; intros H; apply in_app_or in H as [H|H]; try (apply P in H; tauto); apply D in H; tauto.
Qed.

(** * Groups *)
Section Obs.
Context {K : Type} (lt : K -> K -> bool) (O : strict_total lt).
Context (fmt_key : K -> list ascii) (fmt_mean : Z -> f64 -> list ascii).
Context (wr : list ascii -> bool) (chk : bool).

(** The map of accumulators that have received the given values. *)
Definition accs (m : list (K * list f64)) : list (K * kahan f64) := map (fun e => (fst e, kahan_after (snd e))) m.

Lemma kahan_after_count vs : k_count (kahan_after vs) = Z.of_nat (List.length vs) mod 2 ^ 64.
Proof. apply kahan_count_of. Qed.

Lemma kahan_add_after vs x : KahanAdd numF chk (kahan_after vs) x =
  if full chk vs then (kahan_after vs, Throw ExAccumulatorOverflow) else (kahan_after (vs ++ [x]), Ok tt).
Proof.
  unfold KahanAdd, full. rewrite kahan_after_count. change ulong_max with (2 ^ 64 - 1).
  destruct (chk && _); [reflexivity|]. f_equal. symmetry. apply kahan_of_snoc.
Qed.

(** The specification's state for a list of values per key and a file. *)
Definition abs (m : list (K * list f64)) (fs : filesystem) (file : list ascii) (s : sstate (K:=K)) : Prop :=
  (forall k, s_vals s k = lookup lt m k) /\ s_file s = fs file.

Lemma abs_keys m fs file s : sorted lt m -> abs m fs file s -> lists_keys lt s (map fst m).
Proof.
  intros S [Hv _]. split; [exact S|]. intros k. rewrite Hv. symmetry. now apply lookup_keys.
Qed.

Lemma new_abs idx : forall m, sorted lt m ->
  let m' := fold_left (fun m i => map_emplace lt m i []) idx m in
  sorted lt m' /\
  fold_left (fun m i => map_emplace lt m i (kahan_new numF)) idx (accs m) = accs m' /\
  forall k, lookup lt m' k = match lookup lt m k with Some vs => Some vs | None => lookup lt m' k end /\
            (lookup lt m k = None -> lookup lt m' k <> None -> In k idx) /\
            (lookup lt m k = None -> In k idx -> lookup lt m' k = Some []).
Proof.
  induction idx as [|i idx IH]; intros m S m'.
  - split; [exact S|]. split; [reflexivity|]. intros k. split; [unfold m'; cbn; destruct (lookup lt m k); reflexivity|]. split; [contradiction|intros _ []].
  - destruct (IH (map_emplace lt m i []) (emplace_sorted lt O m i [] S)) as (S' & E & H). cbn [fold_left] in *.
    fold m' in S', E, H. split; [exact S'|]. split.
    + rewrite <- E. f_equal. unfold accs. apply (emplace_map lt (fun v => kahan_after v) m i []).
    + intros k. destruct (H k) as (H1 & H2 & H3). rewrite (emplace_lookup lt O) in H1, H2, H3.
      destruct (lookup lt m k) as [vs|] eqn:L.
      * split; [exact H1|]. split; discriminate.
      * split; [reflexivity|]. destruct (lt k i || lt i k) eqn:C.
        -- split; [intros _ N; right; now apply H2|]. intros _ [->|Hi]; [|now apply H3].
           rewrite (st_irrefl _ O) in C. discriminate.
        -- apply orb_false_iff in C as [C1 C2]. assert (k = i) as -> by now apply (st_total _ O).
           split; [intros; now left|]. intros _ _. exact H1.
Qed.

Lemma set_file_same fs p t : set_file fs p t p = Some t.
Proof. unfold set_file. now rewrite (proj2 (str_eq_spec p p) eq_refl). Qed.

Lemma set_file_other fs p t q : q <> p -> set_file fs p t q = fs q.
Proof. unfold set_file. intros H. destruct (str_eq q p) eqn:E; [|reflexivity]. apply str_eq_spec in E. contradiction. Qed.

Notation call := (og_call lt fmt_key fmt_mean wr chk).

(** One call. *)
Lemma call_step file m fs s c : sorted lt m -> abs m fs file s ->
  exists m' fs' o, call (mkGroup file (accs m)) fs c = (mkGroup file (accs m'), fs', o) /\
    sorted lt m' /\ (forall p, p <> file -> fs' p = fs p) /\
    (c = OHeaders \/ (exists p, c = OPrint p) -> o = UB <-> m = []) /\
    (o = UB -> m' = m /\ fs' = fs) /\
    exists s', sstep lt fmt_key fmt_mean (wr file) chk s c s' o /\ abs m' fs' file s'.
Proof.
  intros S A. pose proof (abs_keys _ _ _ _ S A) as LK. destruct A as [Av Af].
  destruct c as [k x| |p|k]; cbn [og_call].
  - (* Measure *)
    unfold OgMeasure. cbn [og_acc og_file]. destruct (lookup lt m k) as [vs|] eqn:L.
    + destruct (full chk vs) eqn:F.
      * assert (E : map_at lt (accs m) k (fun a => KahanAdd numF chk a x) = (accs (replace lt m k vs), Throw ExAccumulatorOverflow)).
        { refine (at_some lt (fun v => kahan_after v) m k vs _ vs _ L _). now rewrite kahan_add_after, F. }
        rewrite E. exists (replace lt m k vs), fs, (Throw ExAccumulatorOverflow). split; [reflexivity|].
        split; [unfold sorted; rewrite replace_keys; exact S|]. split; [auto|]. split; [intros [C|[p C]]; discriminate|].
        split; [discriminate|]. exists (mkS (lookup lt (replace lt m k vs)) (fs file)). split; [|split; [reflexivity|reflexivity]].
        apply (S_full lt fmt_key fmt_mean _ chk s k x vs); [now rewrite Av|exact F| |exact (eq_sym Af)]. intros j. cbn [s_vals]. rewrite Av, (replace_lookup lt O m k vs vs j L).
        destruct (lt j k || lt k j) eqn:C; [reflexivity|]. apply orb_false_iff in C as [C1 C2].
        assert (j = k) as -> by now apply (st_total _ O). now rewrite L.
      * assert (E : map_at lt (accs m) k (fun a => KahanAdd numF chk a x) = (accs (replace lt m k (vs ++ [x])), Ok tt)).
        { refine (at_some lt (fun v => kahan_after v) m k vs _ (vs ++ [x]) _ L _). now rewrite kahan_add_after, F. }
        rewrite E. exists (replace lt m k (vs ++ [x])), fs, (Ok tt). split; [reflexivity|].
        split; [unfold sorted; rewrite replace_keys; exact S|]. split; [auto|]. split; [intros [C|[p C]]; discriminate|].
        split; [discriminate|]. exists (mkS (lookup lt (replace lt m k (vs ++ [x]))) (fs file)). split; [|split; [reflexivity|reflexivity]].
        apply (S_measure lt fmt_key fmt_mean _ chk s k x vs); [now rewrite Av|exact F| | |exact (eq_sym Af)]; cbn [s_vals].
        -- rewrite (replace_lookup lt O m k _ vs k L), (st_irrefl _ O). reflexivity.
        -- intros j Hj. cbn [s_vals]. rewrite (replace_lookup lt O m k _ vs j L), Av.
           destruct (lt j k || lt k j) eqn:C; [reflexivity|]. apply orb_false_iff in C as [C1 C2].
           exfalso. apply Hj. now apply (st_total _ O).
    + assert (L' : lookup lt (accs m) k = None) by (unfold accs; rewrite (lookup_map lt (fun v => kahan_after v)), L; reflexivity).
      rewrite (at_none lt _ _ _ L'). exists m, fs, (Throw ExOutOfRange). split; [reflexivity|]. split; [exact S|].
      split; [auto|]. split; [intros [C|[p C]]; discriminate|]. split; [discriminate|]. exists s. split; [|split; assumption].
      apply S_unknown; [now rewrite Av|intros j; reflexivity|reflexivity].
  - (* PrintHeaders *)
    unfold OgPrintHeaders. cbn [og_acc og_file]. destruct m as [|[k vs] m]; cbn [accs map fst snd].
    + exists [], fs, UB. split; [reflexivity|]. split; [exact S|]. split; [auto|]. split; [tauto|]. split; [auto|].
      exists s. split; [|split; assumption]. apply S_empty_headers. exact LK.
    + set (text := fmt_key k ++ _).
      assert (ET : text = line (map fmt_key (k :: map fst m) ++ [chars "Count"])).
      { unfold text, line. cbn [map]. rewrite join_snoc. rewrite flat_map_map, !flat_map_map. rewrite <- !app_assoc. reflexivity. }
      exists ((k, vs) :: m), (if wr file then set_file fs file text else fs), (Ok tt). split; [reflexivity|].
      split; [exact S|]. split; [intros p Hp; destruct (wr file); [now apply set_file_other|reflexivity]|].
      split; [intros _; split; discriminate|]. split; [discriminate|].
      exists (mkS (lookup lt ((k, vs) :: m)) ((if wr file then set_file fs file text else fs) file)).
      split; [|split; reflexivity].
      apply (S_headers lt fmt_key fmt_mean _ chk s (k :: map fst m)); [exact LK|discriminate| |].
      * intros j. cbn [s_vals]. now rewrite Av.
      * unfold written. cbn [s_file]. destruct (wr file); [rewrite set_file_same; now rewrite ET|now rewrite Af].
  - (* PrintAndReset *)
    unfold OgPrintAndReset. cbn [og_acc og_file]. destruct m as [|[k vs] m]; cbn [accs map fst snd].
    + exists [], fs, UB. split; [reflexivity|]. split; [exact S|]. split; [auto|]. split; [tauto|]. split; [auto|].
      exists s. split; [|split; assumption]. apply S_empty_print. exact LK.
    + set (text := fmt_mean p _ ++ _).
      assert (EL : forall j ws, In (j, ws) ((k, vs) :: m) -> s_vals s j = Some ws).
      { intros j ws H. rewrite Av. now apply (lookup_In lt O). }
      assert (ET : text = line (map (mean_cell fmt_mean p s) (k :: map fst m) ++ [count_cell vs])).
      { unfold text, line, count_cell. cbn [map]. rewrite join_snoc.
        assert (Ek : mean_cell fmt_mean p s k = fmt_mean p (KahanMean numF (kahan_after vs))).
        { unfold mean_cell. rewrite (EL k vs) by now left. reflexivity. }
        assert (Em : flat_map (fun x => comma :: x) (map (mean_cell fmt_mean p s) (map fst m)) =
                     flat_map (fun e => comma :: fmt_mean p (KahanMean numF (snd e))) (accs m)).
        { unfold accs. rewrite !flat_map_map. clear - EL. rewrite !flat_map_concat_map. f_equal.
          apply map_ext_in. intros [j ws] H. cbn [fst snd]. unfold mean_cell. rewrite (EL j ws) by now right. reflexivity. }
        rewrite Ek, Em, <- !app_assoc. unfold KahanCount. rewrite kahan_after_count. reflexivity. }
      exists ((k, []) :: map (fun e => (fst e, [])) m),
        (if wr file then set_file fs file (contents fs file ++ text) else fs), (Ok tt).
      split; [unfold accs; cbn [map fst snd]; rewrite !map_map; reflexivity|].
      split; [unfold sorted; cbn [map fst]; rewrite map_map; exact S|].
      split; [intros q Hq; destruct (wr file); [now apply set_file_other|reflexivity]|].
      split; [intros _; split; discriminate|]. split; [discriminate|].
      change ((k, []) :: map (fun e => (fst e, [])) m) with (map (fun e : K * list f64 => (fst e, (fun _ => @nil f64) (snd e))) ((k, vs) :: m)).
      eexists (mkS (lookup lt _) _). split; [|split; reflexivity].
      apply (S_print lt fmt_key fmt_mean _ chk s p k (map fst m) vs); [exact LK|apply EL; now left| |].
      * intros j. cbn [s_vals]. rewrite (lookup_map lt (fun _ => [])), Av. reflexivity.
      * unfold written. cbn [s_file]. rewrite Af. destruct (wr file); [rewrite set_file_same, ET; reflexivity|reflexivity].
  - (* AddObservable *)
    unfold OgAddObservable. cbn [og_acc og_file].
    exists (map_emplace lt m k []), fs, (Ok tt).
    split; [f_equal; f_equal; f_equal; unfold accs; apply (emplace_map lt (fun v => kahan_after v) m k [])|].
    split; [now apply emplace_sorted|]. split; [auto|]. split; [intros [C|[p C]]; discriminate|]. split; [discriminate|].
    exists (mkS (lookup lt (map_emplace lt m k [])) (fs file)). split; [|split; reflexivity].
    destruct (lookup lt m k) as [vs|] eqn:L.
    + apply S_add_old; [rewrite Av, L; discriminate| |exact (eq_sym Af)]. intros j. cbn [s_vals]. rewrite (emplace_old lt O) by congruence. now rewrite Av.
    + apply S_add_new; [now rewrite Av|cbn [s_vals]; rewrite (emplace_lookup lt O), L, (st_irrefl _ O); reflexivity| |exact (eq_sym Af)].
      intros j Hj. cbn [s_vals]. rewrite (emplace_lookup lt O), Av. destruct (lookup lt m j); [reflexivity|].
      destruct (lt j k || lt k j) eqn:C; [reflexivity|]. apply orb_false_iff in C as [C1 C2]. exfalso. apply Hj. now apply (st_total _ O).
Qed.

Notation run := (og_run lt fmt_key fmt_mean wr chk).

Lemma run_spec file h : forall m fs s, sorted lt m -> abs m fs file s ->
  exists m' fs' os, run h (mkGroup file (accs m)) fs = (mkGroup file (accs m'), fs', os) /\
    sorted lt m' /\ (forall p, p <> file -> fs' p = fs p) /\
    exists s', sruns lt fmt_key fmt_mean (wr file) chk s h s' os /\ abs m' fs' file s'.
Proof.
  induction h as [|c h IH]; intros m fs s S A.
  - exists m, fs, []. split; [reflexivity|]. split; [exact S|]. split; [auto|]. exists s. split; [constructor|exact A].
  - destruct (call_step file m fs s c S A) as (m1 & fs1 & o & E & S1 & F1 & _ & U & s1 & St & A1).
    cbn [og_run]. rewrite E. destruct (IH m1 fs1 s1 S1 A1) as (m2 & fs2 & os & E2 & S2 & F2 & s2 & R2 & A2). rewrite E2.
    assert (D : o = UB \/ o <> UB) by (destruct o; auto; right; discriminate). destruct D as [->|N].
    + destruct (U eq_refl) as [-> ->]. exists m, fs, [UB]. split; [reflexivity|]. split; [exact S|]. split; [auto|].
      exists s. split; [exact (R_ub lt fmt_key fmt_mean (wr file) chk s c h s1 St)|exact A].
    + exists m2, fs2, (o :: os). split; [destruct o; congruence|]. split; [exact S2|].
      split; [intros p Hp; rewrite F2, F1 by assumption; reflexivity|].
      exists s2. split; [exact (R_cons lt fmt_key fmt_mean (wr file) chk s c h s1 o s2 os St N R2)|exact A2].
Qed.

(** ** The specification determines what is seen *)
Definition equiv (s t : sstate (K:=K)) : Prop := same_vals s t /\ same_file s t.

Lemma keys_unique s t ks ls : equiv s t -> lists_keys lt s ks -> lists_keys lt t ls -> ks = ls.
Proof.
  intros [V _] [S1 H1] [S2 H2]. apply (sorted_unique lt O); auto. intros k. rewrite H1, H2. now rewrite V.
Qed.

Lemma sstep_det w s t c s' t' o o' : equiv s t ->
  sstep lt fmt_key fmt_mean w chk s c s' o -> sstep lt fmt_key fmt_mean w chk t c t' o' ->
  o = o' /\ (o <> UB -> equiv s' t').
Proof.
  intros E H1 H2. pose proof E as [V F]. unfold same_vals in V. unfold same_file in F.
  destruct H1; inversion H2; subst; clear H2; unfold same_vals, same_file, same_except, written in *;
    repeat match goal with
    | H : s_vals t ?k = _ |- _ => rewrite V in H
    | H : s_vals t ?k <> _ |- _ => rewrite V in H
    | H1 : lists_keys lt s _, H2 : lists_keys lt t _ |- _ => pose proof (keys_unique _ _ _ _ E H1 H2); clear H2
    end; try congruence; (split; [reflexivity|]); intros N; try congruence; split; unfold same_vals, same_file;
    try congruence.
  all: try (intros j; match goal with k : K |- _ => destruct (key_dec lt O j k) as [->|Nj] end; [congruence|];
            repeat match goal with H : forall k', k' <> _ -> _ |- _ => rewrite (H j Nj); clear H end; apply V).
  all: try (intros j; repeat match goal with H : forall k', s_vals _ k' = _ |- _ => rewrite (H j) end; reflexivity).
  all: try (intros j; repeat match goal with H : forall k', s_vals ?a k' = _ |- context [s_vals ?a j] => rewrite (H j); clear H end; reflexivity).
  - subst ks0. destruct w; congruence.
  - match goal with H : k :: ks = _ :: _ |- _ => injection H as <- <- end.
    assert (vs0 = vs) as -> by congruence.
    assert (EC : forall j, mean_cell fmt_mean p t j = mean_cell fmt_mean p s j) by (intros j; unfold mean_cell; now rewrite V).
    match goal with H : s_file t' = _ |- _ => rewrite (map_ext _ _ EC), F in H; rewrite H end.
    match goal with H : s_file s' = _ |- _ => rewrite H end. reflexivity.
Qed.

Lemma sruns_det w h : forall s t s' t' os os', equiv s t ->
  sruns lt fmt_key fmt_mean w chk s h s' os -> sruns lt fmt_key fmt_mean w chk t h t' os' ->
  os = os' /\ s_file s' = s_file t'.
Proof.
  induction h as [|c h IH]; intros s t s' t' os os' E H1 H2.
  - inversion H1; inversion H2; subst. split; [reflexivity|]. symmetry. apply E.
  - inversion H1 as [|? ? ? s1 St1|? ? ? s1 o1 ? os1 St1 N1 R1]; inversion H2 as [|? ? ? t1 St2|? ? ? t1 o2 ? os2 St2 N2 R2]; subst;
      destruct (sstep_det _ _ _ _ _ _ _ _ E St1 St2) as [Eo Es]; subst; try congruence.
    + split; [reflexivity|]. symmetry. apply E.
    + destruct (IH _ _ _ _ _ _ (Es N1) R1 R2) as [-> ->]. auto.
Qed.

Lemma sruns_app w h0 : forall s h1 s' os, ~ In UB os ->
  sruns lt fmt_key fmt_mean w chk s (h0 ++ h1) s' os ->
  exists s1 os0 os1, os = os0 ++ os1 /\ sruns lt fmt_key fmt_mean w chk s h0 s1 os0 /\
    sruns lt fmt_key fmt_mean w chk s1 h1 s' os1.
Proof.
  induction h0 as [|c h0 IH]; intros s h1 s' os N R.
  - exists s, [], os. split; [reflexivity|]. split; [constructor|exact R].
  - cbn [app] in R. inversion R as [|? ? ? s1 St|? ? ? s1 o ? os1 St No R1]; subst; [exfalso; apply N; now left|].
    destruct (IH _ _ _ _ (fun H => N (or_intror H)) R1) as (s2 & os0 & os2 & -> & R2 & R3).
    exists s2, (o :: os0), os2. split; [reflexivity|]. split; [econstructor; eassumption|exact R3].
Qed.

Lemma sstep_keys w s c s' o : sstep lt fmt_key fmt_mean w chk s c s' o -> o <> UB ->
  forall k, s_vals s' k <> None <-> s_vals s k <> None \/ In k (added [c]).
Proof.
  intros H N j. inversion H; subst; unfold same_vals, same_except in *; cbn [added In]; try congruence;
    try (destruct (key_dec lt O j k) as [->|Nj]);
    repeat match goal with
    | H : forall k', s_vals s' k' = _ |- _ => rewrite H
    | H : forall k', k' <> _ -> s_vals s' k' = _, Nj : _ <> _ |- _ => rewrite (H _ Nj)
    end; try solve [intuition congruence]; try solve [destruct (s_vals s j); intuition congruence];
    destruct (s_vals s k); intuition congruence.
Qed.

Lemma sruns_keys w h : forall s s' os, ~ In UB os -> sruns lt fmt_key fmt_mean w chk s h s' os ->
  forall k, s_vals s' k <> None <-> s_vals s k <> None \/ In k (added h).
Proof.
  induction h as [|c h IH]; intros s s' os N R k.
  - inversion R; subst. cbn [added In]. tauto.
  - inversion R as [|? ? ? s1 St|? ? ? s1 o ? os1 St No R1]; subst; [exfalso; apply N; now left|].
    rewrite (IH _ _ _ (fun H => N (or_intror H)) R1), (sstep_keys _ _ _ _ _ St No).
    destruct c; cbn [added In]; tauto.
Qed.

(** Histories that leave the columns as they are. *)
Definition keeps (s : sstate (K:=K)) (c : ogcall (K:=K)) : Prop :=
  match c with OHeaders => False | OAdd k => s_vals s k <> None | _ => True end.

Context (Ck : forall k, clean (fmt_key k)) (Cm : forall p x, clean (fmt_mean p x)).

Lemma sruns_rows ks h : ks <> [] -> forall s s' os rows,
  lists_keys lt s ks -> s_file s = Some (List.concat (map line rows)) ->
  Forall (keeps s) h -> sruns lt fmt_key fmt_mean true chk s h s' os ->
  ~ In UB os /\ exists rows', List.length rows' = prints h /\
    Forall (fun r => List.length r = S (List.length ks) /\ Forall clean r) rows' /\
    s_file s' = Some (List.concat (map line (rows ++ rows'))).
Proof.
  intros Nk. induction h as [|c h IH]; intros s s' os rows LK Hf Hk R.
  - inversion R; subst. split; [intros []|]. exists []. rewrite app_nil_r. repeat split; auto; constructor.
  - inversion Hk as [|? ? Hc Hh]; subst.
    assert (Step : forall s1 o, sstep lt fmt_key fmt_mean true chk s c s1 o -> o <> UB /\ lists_keys lt s1 ks /\
      Forall (keeps s1) h /\ exists rows1, List.length rows1 = prints [c] /\
      Forall (fun r => List.length r = S (List.length ks) /\ Forall clean r) rows1 /\
      s_file s1 = Some (List.concat (map line (rows ++ rows1)))).
    { intros s1 o St.
      assert (No : o <> UB).
      { intros ->. inversion St as [| | | | | | |? L|? ? L]; subst;
          apply Nk, (keys_unique s s ks [] (conj (fun _ => eq_refl) eq_refl) LK L). }
      assert (KS : forall k, s_vals s1 k <> None <-> s_vals s k <> None).
      { intros k. rewrite (sstep_keys _ _ _ _ _ St No). destruct c; cbn [added In]; try tauto.
        cbn [keeps] in Hc. split; [intros [H|[->|[]]]|]; auto. }
      split; [exact No|]. split; [destruct LK as [L1 L2]; split; [exact L1|intros k; now rewrite L2, KS]|].
      split; [eapply Forall_impl; [|exact Hh]; intros [] Hd; cbn [keeps] in *; auto; now apply KS|].
      assert (Same : s_file s1 = s_file s -> prints [c] = 0%nat -> exists rows1, List.length rows1 = prints [c] /\
        Forall (fun r => List.length r = S (List.length ks) /\ Forall clean r) rows1 /\
        s_file s1 = Some (List.concat (map line (rows ++ rows1)))).
      { intros E1 E2. exists []. rewrite app_nil_r, E2, E1, Hf. repeat split; auto. }
      inversion St; subst; try (apply Same; [assumption|reflexivity]); try contradiction; try congruence.
      match goal with H : lists_keys lt s (k :: ks0) |- _ =>
        rename H into L0; pose proof (keys_unique s s _ _ (conj (fun _ => eq_refl) eq_refl) LK L0) as -> end.
      match goal with H : written _ _ _ _ |- _ => unfold written in H; rewrite Hf in H; rename H into W end.
      exists [map (mean_cell fmt_mean p s) (k :: ks0) ++ [count_cell vs]]. split; [reflexivity|]. split.
      - constructor; [|constructor]. split; [rewrite app_length, map_length; cbn [List.length]; lia|].
        apply Forall_app. split; [|repeat constructor; apply put_int_clean].
        apply Forall_forall. intros x Hx. apply in_map_iff in Hx as (j & <- & _). apply Cm.
      - rewrite W, map_app, concat_app. cbn [map List.concat]. now rewrite app_nil_r. }
    inversion R as [|? ? ? s1 St|? ? ? s1 o ? os1 St No R1]; subst.
    { destruct (Step _ _ St) as [No _]. congruence. }
    destruct (Step _ _ St) as (_ & LK1 & Hh1 & rows1 & Hl1 & Hr1 & Hf1).
    destruct (IH s1 s' os1 (rows ++ rows1) LK1 Hf1 Hh1 R1) as (N1 & rows2 & Hl2 & Hr2 & Hf2).
    split; [intros [E|E]; [congruence|contradiction]|]. exists (rows1 ++ rows2). split.
    + rewrite app_length, Hl1, Hl2. destruct c; reflexivity.
    + split; [now apply Forall_app|]. now rewrite app_assoc.
Qed.

Lemma sruns_ok w h : forall s s' os, (exists k, s_vals s k <> None) -> sruns lt fmt_key fmt_mean w chk s h s' os -> ~ In UB os.
Proof.
  induction h as [|c h IH]; intros s s' os [k Hk] R.
  - inversion R; subst. intros [].
  - inversion R as [|? ? ? s1 St|? ? ? s1 o ? os1 St No R1]; subst.
    + exfalso. inversion St as [| | | | | | |? L|? ? L]; subst; apply (proj2 L) in Hk; exact Hk.
    + intros [E|E]; [congruence|]. revert E. apply (IH s1 s' os1); [|exact R1]. exists k.
      apply (sstep_keys _ _ _ _ _ St No). now left.
Qed.
End Obs.

(** * Archives *)
Section Archive.
Context {K : Type} (lt : K -> K -> bool) (O : strict_total lt).

Lemma emplace_all (m : list (K * kahan f64)) : forall acc, sorted lt (acc ++ m) ->
  fold_left (fun m e => map_emplace lt m (fst e) (snd e)) m acc = acc ++ m.
Proof.
  induction m as [|[k v] m IH]; intros acc S; [now rewrite app_nil_r|]. cbn [fold_left fst snd].
  assert (S1 : sorted lt ((acc ++ [(k, v)]) ++ m)) by (rewrite <- app_assoc; exact S).
  assert (B : forall k', In k' (map fst acc) -> lt k' k = true).
  { unfold sorted in S. rewrite map_app in S. cbn [map fst] in S. clear - S.
    induction (map fst acc) as [|a l IH]; intros k' H; [destruct H|]. cbn [app] in S. inversion S as [|? ? S' F]; subst.
    destruct H as [->|H]; [|now apply IH]. rewrite Forall_forall in F. apply F. apply in_or_app. right. now left. }
  rewrite (emplace_sorted_new lt O).
  - rewrite IH by exact S1. now rewrite <- app_assoc.
  - unfold sorted in *. rewrite map_app in S. clear - S. induction (map fst acc) as [|a l IH]; [constructor|].
    cbn [app] in S. inversion S as [|? ? S' F]; subst. constructor; [now apply IH|]. now apply Forall_app in F as [F _].
  - exact B.
Qed.

Context (save_key : K -> list tok) (load_key : loader K).
Context (RK : forall k rest, load_key (save_key k ++ rest) = Some (k, rest)).

Lemma og_archive g b rest : sorted lt (og_acc g) ->
  og_load lt load_key b (og_save save_key g ++ rest) = Some (g, rest).
Proof.
  intros S. unfold og_load, og_save, lbind. cbn [app load_s].
  change (fun a : list tok => match load_key a with Some (x, r) => _ | None => None end)
    with (lbind load_key (fun k => lbind (kahan_load (kahan_new numF)) (fun a => lret (k, a)))).
  rewrite load_vector_save.
  - rewrite (emplace_all _ [] S). unfold lret. destruct g as [f m]. cbn [app og_file og_acc]. rewrite map_map.
    rewrite (map_ext _ (fun c => c)) by (intros c; rewrite Nat2Z.id; apply ascii_nat_embedding). now rewrite map_id.
  - intros [k a] r. cbn [fst snd]. unfold lbind. rewrite <- app_assoc, RK. destruct a. reflexivity.
Qed.
End Archive.
