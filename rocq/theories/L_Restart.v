(** Lemmas about clients that save and restart. *)
From Coq Require Import ZArith List Bool Lia.
From Verif Require Import Base F64 Num M_Archive M_Accum S_Accum L_Accum M_Hist L_Hist M_Move L_Move M_Util M_Obs S_Obs L_Obs
  S_Restart M_Restart.
Import ListNotations.

Section Client.
Context {C S W : Type}.
Context (call : S -> W -> C -> S * W * out unit).
Context (save : S -> list tok) (load : S -> loader S) (first : S).

Lemma straight_app l1 : forall l2 s w s' w', straight call l1 s w = Some (s', w') ->
  straight call (l1 ++ l2) s w = straight call l2 s' w'.
Proof.
  induction l1 as [|c l1 IH]; intros l2 s w s' w' H; cbn [straight app] in *.
  - injection H as -> ->. reflexivity.
  - destruct (call s w c) as [[s1 w1] []]; try discriminate; now apply IH.
Qed.

Lemma straight_one c s w s' w' l : straight call (c :: l) s w = Some (s', w') ->
  exists s1 w1, straight call [c] s w = Some (s1, w1) /\ straight call l s1 w1 = Some (s', w').
Proof.
  cbn [straight]. destruct (call s w c) as [[s1 w1] []]; try discriminate; intros H; eauto.
Qed.

(** What a call does to the object does not depend on the rest of the world. *)
Definition separate : Prop := forall s w1 w2 c,
  fst (fst (call s w1 c)) = fst (fst (call s w2 c)) /\ snd (call s w1 c) = snd (call s w2 c).

Definition quiet (c : C) : Prop := forall s w, snd (fst (call s w c)) = w.

Lemma straight_separate l : separate -> forall s w1 w2 s' w', straight call l s w1 = Some (s', w') ->
  exists w'', straight call l s w2 = Some (s', w'').
Proof.
  intros Hs. induction l as [|c l IH]; intros s w1 w2 s' w' H; cbn [straight] in *.
  - injection H as -> _. eauto.
  - destruct (Hs s w1 w2 c) as [E1 E2]. destruct (call s w1 c) as [[s1 v1] o1], (call s w2 c) as [[s2 v2] o2].
    cbn [fst snd] in E1, E2. subst s2 o2. destruct o1; try discriminate; exact (IH _ _ v2 _ _ H).
Qed.

Lemma straight_quiet l : Forall quiet l -> forall s w s' w', straight call l s w = Some (s', w') -> w' = w.
Proof.
  induction 1 as [|c l Q _ IH]; intros s w s' w' H; cbn [straight] in H.
  - now injection H as _ ->.
  - specialize (Q s w). destruct (call s w c) as [[s1 v1] o1]. cbn [fst snd] in Q. subst v1.
    destruct o1; try discriminate; exact (IH _ _ _ _ H).
Qed.

(** Loading what was saved of an object the client can have into the target t. *)
Definition restores (t : S) : Prop := forall l w s w',
  straight call l first w = Some (s, w') -> exists r, load t (save s) = Some (s, r).

(** The file holds the object after the kept calls. *)
Definition on_file (kept : list C) (w0 : W) (file : option (list tok)) : Prop :=
  match file with
  | None => kept = []
  | Some f => exists s w, straight call kept first w0 = Some (s, w) /\ f = save s
  end.

Lemma client_object h : separate -> Forall restores (targets h) ->
  forall kept recent w0 s w w1 file s' w',
  straight call (kept ++ recent) first w0 = Some (s, w1) -> on_file kept w0 file ->
  client call save load first h s w file = Some (s', w') ->
  exists w2, straight call (surviving kept recent h) first w0 = Some (s', w2).
Proof.
  intros Hs. induction h as [|e h IH]; intros HT kept recent w0 s w w1 file s' w' H F K; cbn [client surviving] in *.
  - injection K as <- _. eauto.
  - destruct e as [c| |t].
    + destruct (Hs s w w1 c) as [E1 E2]. destruct (call s w c) as [[s1 v1] o1] eqn:Ec.
      destruct (call s w1 c) as [[s2 v2] o2] eqn:Ec2. cbn [fst snd] in E1, E2. subst s2 o2.
      assert (G : straight call (kept ++ recent ++ [c]) first w0 =
                  match o1 with Ok _ | Throw _ => Some (s1, v2) | _ => None end).
      { rewrite app_assoc, (straight_app _ _ _ _ _ _ H). cbn [straight]. rewrite Ec2. now destruct o1. }
      destruct o1; try discriminate; exact (IH HT _ _ _ _ _ _ _ _ _ G F K).
    + refine (IH HT (kept ++ recent) [] w0 s w w1 _ s' w' _ _ K); [now rewrite app_nil_r|].
      cbn [on_file]. eauto.
    + cbn [targets flat_map app] in HT. apply Forall_cons_iff in HT. destruct HT as [HR HT].
      destruct file as [f|]; cbn [on_file] in F.
      * destruct F as (sk & wk & Ek & ->). destruct (HR _ _ _ _ Ek) as [r El]. rewrite El in K.
        refine (IH HT kept [] w0 sk w wk _ s' w' _ _ K); [now rewrite app_nil_r|]. cbn [on_file]. eauto.
      * subst kept. exact (IH HT [] [] w0 first w w0 None s' w' eq_refl eq_refl K).
Qed.

Lemma client_world h : separate -> Forall restores (targets h) ->
  forall kept recent w0 s w file s' w',
  straight call (kept ++ recent) first w0 = Some (s, w) ->
  match file with
  | None => kept = []
  | Some f => exists s w, straight call kept first w0 = Some (s, w) /\ f = save s
  end ->
  Forall quiet (lost recent h) ->
  client call save load first h s w file = Some (s', w') ->
  straight call (surviving kept recent h) first w0 = Some (s', w').
Proof.
  intros Hs. induction h as [|e h IH]; intros HT kept recent w0 s w file s' w' H F Q K; cbn [client surviving lost] in *.
  - injection K as <- <-. exact H.
  - destruct e as [c| |t].
    + destruct (call s w c) as [[s1 v1] o1] eqn:Ec.
      assert (G : straight call (kept ++ recent ++ [c]) first w0 =
                  match o1 with Ok _ | Throw _ => Some (s1, v1) | _ => None end).
      { rewrite app_assoc, (straight_app _ _ _ _ _ _ H). cbn [straight]. rewrite Ec. now destruct o1. }
      destruct o1; try discriminate; exact (IH HT _ _ _ _ _ _ _ _ G F Q K).
    + refine (IH HT (kept ++ recent) [] w0 s w _ s' w' _ _ Q K); [now rewrite app_nil_r|]. eauto.
    + cbn [targets flat_map app] in HT. apply Forall_cons_iff in HT. destruct HT as [HR HT].
      apply Forall_app in Q. destruct Q as [Q1 Q2].
      destruct file as [f|].
      * destruct F as (sk & wk & Ek & ->). destruct (HR _ _ _ _ Ek) as [r El]. rewrite El in K.
        assert (wk = w); [|subst wk].
        { rewrite (straight_app _ _ _ _ _ _ Ek) in H. symmetry. exact (straight_quiet _ Q1 _ _ _ _ H). }
        refine (IH HT kept [] w0 sk w _ s' w' _ _ Q2 K); [now rewrite app_nil_r|]. eauto.
      * subst kept. assert (w = w0) by exact (straight_quiet _ Q1 _ _ _ _ H). subst w.
        exact (IH HT [] [] w0 first w0 None s' w' eq_refl eq_refl Q2 K).
Qed.

(** The client goes on as long as its calls are defined. *)
Lemma client_total h : separate -> Forall restores (targets h) ->
  (forall s w c, match snd (call s w c) with Ok _ | Throw _ => True | _ => False end) ->
  forall kept recent w0 s w w1 file,
  straight call (kept ++ recent) first w0 = Some (s, w1) -> on_file kept w0 file ->
  exists s' w', client call save load first h s w file = Some (s', w').
Proof.
  intros Hs. induction h as [|e h IH]; intros HT D kept recent w0 s w w1 file H F; cbn [client] in *.
  - eauto.
  - destruct e as [c| |t].
    + destruct (Hs s w w1 c) as [E1 E2]. pose proof (D s w c) as Dc. destruct (call s w c) as [[s1 v1] o1] eqn:Ec.
      destruct (call s w1 c) as [[s2 v2] o2] eqn:Ec2. cbn [fst snd] in E1, E2, Dc. subst s2 o2.
      assert (G : straight call (kept ++ recent ++ [c]) first w0 =
                  match o1 with Ok _ | Throw _ => Some (s1, v2) | _ => None end).
      { rewrite app_assoc, (straight_app _ _ _ _ _ _ H). cbn [straight]. rewrite Ec2. now destruct o1. }
      destruct o1; try contradiction; exact (IH HT D _ _ _ _ _ _ _ G F).
    + refine (IH HT D (kept ++ recent) [] w0 s w w1 _ _ _); [now rewrite app_nil_r|]. cbn [on_file]. eauto.
    + cbn [targets flat_map app] in HT. apply Forall_cons_iff in HT. destruct HT as [HR HT].
      destruct file as [f|]; cbn [on_file] in F.
      * destruct F as (sk & wk & Ek & ->). destruct (HR _ _ _ _ Ek) as [r El]. rewrite El.
        refine (IH HT D kept [] w0 sk w wk _ _ _); [now rewrite app_nil_r|]. cbn [on_file]. eauto.
      * subst kept. exact (IH HT D [] [] w0 first w w0 None eq_refl eq_refl).
Qed.
End Client.

(** ** Objects whose calls change nothing else *)

Lemma alone_separate {C S} (call : S -> C -> S * out unit) : separate (alone call).
Proof. intros s w1 w2 c. unfold alone. destruct (call s c). split; reflexivity. Qed.

Lemma alone_client {C S} (call : S -> C -> S * out unit) save load first h s w :
  Forall (restores (alone call) save load first) (targets h) ->
  client (alone call) save load first h first tt None = Some (s, w) ->
  straight (alone call) (surviving [] [] h) first tt = Some (s, w).
Proof.
  intros HT K. destruct (client_object (alone call) save load first h (alone_separate call) HT
    [] [] tt first tt tt None s w eq_refl eq_refl K) as [[] E]. destruct w. exact E.
Qed.

Lemma alone_total {C S} (call : S -> C -> S * out unit) save load first h :
  Forall (restores (alone call) save load first) (targets h) ->
  (forall s c, match snd (call s c) with Ok _ | Throw _ => True | _ => False end) ->
  client (alone call) save load first h first tt None = straight (alone call) (surviving [] [] h) first tt.
Proof.
  intros HT D. destruct (client_total (alone call) save load first h (alone_separate call) HT) with
    (kept := @nil C) (recent := @nil C) (w0 := tt) (s := first) (w := tt) (w1 := tt) (file := @None (list tok)) as (s & w & E).
  - intros s w c. specialize (D s c). unfold alone. destruct (call s c). exact D.
  - reflexivity.
  - reflexivity.
  - rewrite E. symmetry. now apply (alone_client call save load first h).
Qed.

Lemma restores_all {C S W} (call : S -> W -> C -> S * W * out unit) save load first l :
  (forall a b, load b (save a) = Some (a, [])) -> Forall (restores call save load first) l.
Proof. intros H. apply Forall_forall. intros t _ k w s w' _. eauto. Qed.

(** The calls of a straight client, when none of them fails. *)
Lemma straight_fold {C S} (call : S -> C -> S * out unit) l : forall s,
  (forall s c, match snd (call s c) with Ok _ | Throw _ => True | _ => False end) ->
  straight (alone call) l s tt = Some (fold_left (fun s c => fst (call s c)) l s, tt).
Proof.
  induction l as [|c l IH]; intros s D; [reflexivity|]. cbn [straight fold_left]. unfold alone at 1.
  specialize (D s c) as Dc. destruct (call s c) as [s' o]. cbn [fst snd] in *.
  destruct o; try contradiction; exact (IH s' D).
Qed.

(** ** Accumulators *)

Lemma calls_since {S X} (add : S -> X -> S * out unit) (reset : S -> S) (step : S -> X -> S) (new : S) (cnt : S -> Z) chk :
  (forall a x, (chk = true -> cnt a <> ulong_max) -> add a x = (step a x, Ok tt)) ->
  (forall a x, cnt (step a x) = u64 (cnt a + 1)) -> (forall a, reset a = new) -> cnt new = 0%Z ->
  forall l old, (chk = true -> (Z.of_nat (length l + length old) < two64)%Z) ->
  straight (alone (acc_call add reset)) l (fold_left step old new) tt = Some (fold_left step (since_reset l old) new, tt).
Proof.
  intros HA HS HR H0. induction l as [|c l IH]; intros old HL; [reflexivity|]. cbn [straight since_reset]. unfold alone at 1.
  destruct c as [x|]; cbn [acc_call].
  - rewrite HA.
    + specialize (IH (old ++ [x])). rewrite fold_left_app in IH. apply IH. intros E. specialize (HL E).
      cbn [length] in HL. rewrite app_length. cbn [length]. lia.
    + intros E. specialize (HL E). cbn [length] in HL.
      rewrite (count_mod step cnt new HS H0), u64_small by lia. unfold ulong_max. lia.
  - rewrite HR. apply (IH []). intros E. specialize (HL E). cbn [length] in *. lia.
Qed.

Lemma acc_call_defined {S X} (add : S -> X -> S * out unit) (reset : S -> S) :
  (forall a x, match snd (add a x) with Ok _ | Throw _ => True | _ => False end) ->
  forall a c, match snd (acc_call add reset a c) with Ok _ | Throw _ => True | _ => False end.
Proof. intros H a [x|]; [apply H|exact I]. Qed.

(** ** Archives of single objects *)

Lemma kahan_restored a b : kahan_load b (kahan_save a) = Some (a, []).
Proof. now destruct a. Qed.
Lemma neumaier_restored a b : neumaier_load b (neumaier_save a) = Some (a, []).
Proof. now destruct a. Qed.
Lemma kw_restored a b : kw_load b (kw_save a) = Some (a, []).
Proof. now destruct a. Qed.
Lemma west_restored a b : west_load b (west_save a) = Some (a, []).
Proof. now destruct a. Qed.
Lemma naive_restored a b : naive_load b (naive_save a) = Some (a, []).
Proof. now destruct a. Qed.
Lemma hist_restored a b : hist_load b (hist_save a) = Some (a, []).
Proof. rewrite <- (app_nil_r (hist_save a)). apply hist_archive. Qed.

(** ** Move statistics *)

Lemma kahan_add_defined {X} (N : num X) chk a x : match snd (KahanAdd N chk a x) with Ok _ | Throw _ => True | _ => False end.
Proof. unfold KahanAdd. now destruct (chk && _). Qed.

Lemma update_defined chk c p s : match snd (UpdateIfProposed chk c p s) with Ok _ | Throw _ => True | _ => False end.
Proof.
  unfold UpdateIfProposed. destruct (negb (m_flag s)); [exact I|].
  pose proof (kahan_add_defined numF chk (m_prob (bump c s)) p) as D. now destruct (KahanAdd _ _ _ _).
Qed.
Lemma update_name chk c p s : m_name (fst (UpdateIfProposed chk c p s)) = m_name s.
Proof.
  unfold UpdateIfProposed. destruct (negb (m_flag s)); [reflexivity|]. destruct (KahanAdd _ _ _ _). now destruct c.
Qed.

Lemma ms_call_defined chk s c : match snd (ms_call chk s c) with Ok _ | Throw _ => True | _ => False end.
Proof.
  destruct c as [|p|p| |r|]; cbn [ms_call]; try apply update_defined; try exact I.
  - unfold MS_Propose, UpdateIfNotProposed. now destruct (m_flag s).
  - unfold MS_Add, MS_Propose, UpdateIfNotProposed. destruct (m_flag s); [exact I|].
    repeat match goal with |- context [if ?b then _ else _] => destruct b end; try apply update_defined; exact I.
Qed.
Lemma ms_call_name chk s c : m_name (fst (ms_call chk s c)) = m_name s.
Proof.
  destruct c as [|p|p| |r|]; cbn [ms_call]; try apply update_name; try reflexivity.
  - unfold MS_Propose, UpdateIfNotProposed. now destruct (m_flag s).
  - unfold MS_Add, MS_Propose, UpdateIfNotProposed. destruct (m_flag s); [reflexivity|].
    repeat match goal with |- context [if ?b then _ else _] => destruct b end; try (unfold MS_Accept, MS_Reject, MS_Impossible; now rewrite update_name); reflexivity.
Qed.
Lemma ms_calls_name chk l : forall s, m_name (ms_calls chk l s) = m_name s.
Proof.
  induction l as [|c l IH]; intros s; [reflexivity|]. unfold ms_calls in *. cbn [fold_left]. now rewrite IH, ms_call_name.
Qed.
Lemma ms_restored s t : m_name t = m_name s -> ms_load t (ms_save s) = Some (s, []).
Proof.
  intros H. rewrite <- (app_nil_r (ms_save s)), ms_archive, H. now destruct s.
Qed.

(** ** Groups of observables *)

Lemma straight_og_run {K} (lt : K -> K -> bool) fmt_key fmt_mean wr chk l : forall g fs g' fs',
  straight (og_call lt fmt_key fmt_mean wr chk) l g fs = Some (g', fs') ->
  exists os, og_run lt fmt_key fmt_mean wr chk l g fs = (g', fs', os).
Proof.
  induction l as [|c l IH]; intros g fs g' fs' H; cbn [straight og_run] in *.
  - injection H as -> ->. eauto.
  - destruct (og_call lt fmt_key fmt_mean wr chk g fs c) as [[g1 fs1] []]; try discriminate;
      destruct (IH _ _ _ _ H) as [os E]; rewrite E; eauto.
Qed.

Lemma og_separate {K} (lt : K -> K -> bool) fmt_key fmt_mean wr chk : separate (og_call lt fmt_key fmt_mean wr chk).
Proof.
  intros g w1 w2 [k x| |p|k]; cbn [og_call].
  - destruct (OgMeasure lt chk g k x). split; reflexivity.
  - unfold OgPrintHeaders. destruct (og_acc g) as [|[]]; split; reflexivity.
  - unfold OgPrintAndReset. destruct (og_acc g) as [|[]]; split; reflexivity.
  - split; reflexivity.
Qed.

Lemma og_quiet {K} (lt : K -> K -> bool) fmt_key fmt_mean wr chk c :
  match c with OHeaders | OPrint _ => False | _ => True end -> quiet (og_call lt fmt_key fmt_mean wr chk) c.
Proof.
  intros H g w. destruct c as [k x| |p|k]; try contradiction; cbn [og_call]; [|reflexivity].
  now destruct (OgMeasure lt chk g k x).
Qed.

Lemma og_restores {K} (lt : K -> K -> bool) : strict_total lt -> forall save_key load_key,
  (forall k rest, load_key (save_key k ++ rest) = Some (k, rest)) ->
  forall fmt_key fmt_mean wr chk file indices t,
  restores (og_call lt fmt_key fmt_mean wr chk) (og_save save_key) (og_load lt load_key) (og_new lt file indices) t.
Proof.
  intros O save_key load_key RK fmt_key fmt_mean wr chk file indices t l fs s w' H.
  destruct (straight_og_run lt fmt_key fmt_mean wr chk l _ _ _ _ H) as [os E].
  assert (S0 : sorted lt (@nil (K * list f64))) by constructor.
  destruct (new_abs lt O indices [] S0) as (S & En & L). unfold og_new in E.
  change (@nil (K * kahan f64)) with (accs (@nil (K * list f64))) in E. rewrite En in E.
  destruct (run_spec lt O fmt_key fmt_mean wr chk file l _ fs (mkS (lookup lt _) (fs file)) S (conj (fun _ => eq_refl) eq_refl))
    as (m' & fs2 & os2 & E2 & S' & _). rewrite E2 in E. injection E as <- _ _.
  exists []. rewrite <- (app_nil_r (og_save _ _)). apply (og_archive lt O save_key load_key RK).
  unfold sorted. cbn [og_acc]. unfold accs. now rewrite fst_map.
Qed.
