(** Properties of groups of observables (C63, C64) and their archives (C71). *)
From Coq Require Import ZArith List Bool Ascii String Sorted Lia.
From Verif Require Import Base F64 Num M_Text M_Archive M_Accum M_Util M_Obs S_Obs L_Obs.
Import ListNotations.
Open Scope Z_scope.

(** C63: from any construction and under any history of calls, what is seen (the
    outcomes and the files) is a run of the specification, where every key of the
    constructor starts without values.  No other file changes. *)
Theorem C63_refinement :
  forall {K} (lt : K -> K -> bool), strict_total lt ->
  forall fmt_key fmt_mean wr chk file indices fs h s0,
  (forall k, In k indices -> s_vals s0 k = Some []) -> (forall k, ~ In k indices -> s_vals s0 k = None) ->
  s_file s0 = fs file ->
  let '(_, fs', outcomes) := og_run lt fmt_key fmt_mean wr chk h (og_new lt file indices) fs in
  (exists s', sruns lt fmt_key fmt_mean (wr file) chk s0 h s' outcomes /\ fs' file = s_file s') /\
  forall p, p <> file -> fs' p = fs p.
Proof.
  intros K lt O fmt_key fmt_mean wr chk file indices fs h s0 H1 H2 H3.
  assert (S0 : sorted lt (@nil (K * list f64))) by constructor.
  destruct (new_abs lt O indices [] S0) as (S & E & L).
  unfold og_new. change (@nil (K * kahan f64)) with (accs (@nil (K * list f64))). rewrite E.
  set (m := fold_left _ indices []) in *. clearbody m.
  assert (A : abs lt m fs file s0).
  { split; [|exact H3]. intros k. destruct (L k) as (_ & L2 & L3).
    destruct (lookup lt m k) as [vs|] eqn:Lk.
    - assert (I : In k indices) by (apply L2; [reflexivity|discriminate]). rewrite (H1 k I). symmetry. now apply L3.
    - apply H2. intros I. discriminate (L3 eq_refl I). }
  destruct (run_spec lt O fmt_key fmt_mean wr chk file h m fs s0 S A) as (m' & fs' & os & -> & _ & F & s' & R & A').
  split; [|exact F]. exists s'. split; [exact R|]. symmetry. apply A'.
Qed.
Print Assumptions C63_refinement.

(** C63: the specification leaves no freedom in what is seen. *)
Theorem C63_specification_deterministic :
  forall {K} (lt : K -> K -> bool), strict_total lt ->
  forall fmt_key fmt_mean w chk h s t s' t' os os',
  (forall k, s_vals t k = s_vals s k) -> s_file t = s_file s ->
  sruns lt fmt_key fmt_mean w chk s h s' os -> sruns lt fmt_key fmt_mean w chk t h t' os' ->
  os = os' /\ s_file s' = s_file t'.
Proof.
  intros K lt O fmt_key fmt_mean w chk h s t s' t' os os' Hv Hf. exact (sruns_det lt O fmt_key fmt_mean chk w h s t s' t' os os' (conj Hv Hf)).
Qed.
Print Assumptions C63_specification_deterministic.

(** C64: after PrintHeaders, as long as no new observable is added, the file is a
    table: the header has the keys in increasing order and Count, and every
    PrintAndReset has added one line with as many cells. *)
Theorem C64_table :
  forall {K} (lt : K -> K -> bool), strict_total lt ->
  forall fmt_key fmt_mean wr chk file indices fs h0 h1 g fs' outcomes,
  (forall k, clean (fmt_key k)) -> (forall p x, clean (fmt_mean p x)) -> wr file = true ->
  Forall (fun c => match c with OHeaders => False | OAdd k => In k (indices ++ added h0) | _ => True end) h1 ->
  og_run lt fmt_key fmt_mean wr chk (h0 ++ OHeaders :: h1) (og_new lt file indices) fs = (g, fs', outcomes) ->
  ~ In UB outcomes ->
  exists ks text rows,
    StronglySorted (fun a b => lt a b = true) ks /\ (forall k, In k ks <-> In k (indices ++ added h0)) /\
    fs' file = Some text /\ text = List.concat (map line (table text)) /\
    table text = (map fmt_key ks ++ [chars "Count"]) :: rows /\
    List.length rows = prints h1 /\ Forall (fun r => List.length r = S (List.length ks)) rows.
Proof.
  intros K lt O fmt_key fmt_mean wr chk file indices fs h0 h1 g fs' outcomes Ck Cm W Hh E N.
  assert (D : forall k, In k indices \/ ~ In k indices).
  { intros k. clear - O. induction indices as [|i l [I|I]]; [now right|left; now right|].
    destruct (key_dec lt O i k) as [->|Ni]; [left; now left|right; intros [->|J]; [now apply Ni|contradiction]]. }
  assert (S0 : exists s0 : sstate, (forall k, In k indices -> s_vals s0 k = Some []) /\
                (forall k, ~ In k indices -> s_vals s0 k = None) /\ s_file s0 = fs file).
  { assert (S0 : sorted lt (@nil (K * list f64))) by constructor.
    destruct (new_abs lt O indices [] S0) as (S & _ & L).
    set (m0 := fold_left _ indices []) in *. clearbody m0.
    exists (mkS (lookup lt m0) (fs file)).
    split; [|split; [|reflexivity]]; intros k I; cbn [s_vals]; destruct (L k) as (_ & L2 & L3); [now apply L3|].
    destruct (lookup lt m0 k); [|reflexivity]. exfalso. apply I, L2; [reflexivity|discriminate]. }
  destruct S0 as (s0 & H1 & H2 & H3).
  pose proof (C63_refinement lt O fmt_key fmt_mean wr chk file indices fs (h0 ++ OHeaders :: h1) s0 H1 H2 H3) as R.
  rewrite E in R. destruct R as [(s' & R & Hf) _].
  destruct (sruns_app lt fmt_key fmt_mean chk _ h0 s0 (OHeaders :: h1) s' outcomes N R) as (s1 & os0 & os1 & -> & R0 & R1).
  assert (N0 : ~ In UB os0) by (intros I; apply N, in_or_app; now left).
  assert (N1 : ~ In UB os1) by (intros I; apply N, in_or_app; now right).
  pose proof (sruns_keys lt O fmt_key fmt_mean chk _ h0 s0 s1 os0 N0 R0) as KS.
  inversion R1 as [|? ? ? s2 St|? ? ? s2 o ? os2 St No R2]; subst; [exfalso; apply N1; now left|].
  inversion St as [| | | | |ks ? LK Nk SV Wr| | |]; subst; try congruence.
  unfold written in Wr. rewrite W in Wr, R2.
  assert (KI : forall k, In k ks <-> In k (indices ++ added h0)).
  { intros k. rewrite (proj2 LK), KS, in_app_iff. split; intros [A|A]; auto; left.
    - destruct (D k) as [I|I]; [exact I|]. rewrite (H2 k I) in A. congruence.
    - rewrite (H1 k A). discriminate. }
  assert (LK2 : lists_keys lt s2 ks) by (destruct LK as [L1 L2]; split; [exact L1|intros k; now rewrite L2, SV]).
  assert (Hh2 : Forall (keeps s2) h1).
  { eapply Forall_impl; [|exact Hh]. intros [] Hc; cbn [keeps]; auto. apply (proj2 LK2). now apply KI. }
  assert (Hf2 : s_file s2 = Some (List.concat (map line [map fmt_key ks ++ [chars "Count"]]))) by (cbn [map List.concat]; now rewrite app_nil_r).
  destruct (sruns_rows lt O fmt_key fmt_mean chk Cm ks h1 Nk s2 s' os2 _ LK2 Hf2 Hh2 R2) as (_ & rows & Hl & Hr & Hs).
  assert (T : table (List.concat (map line ([map fmt_key ks ++ [chars "Count"]] ++ rows))) = [map fmt_key ks ++ [chars "Count"]] ++ rows).
  { apply table_lines. apply Forall_app. split.
    - constructor; [|constructor]. split; [destruct ks; discriminate|]. apply Forall_app. split.
      + apply Forall_forall. intros x Hx. apply in_map_iff in Hx as (k & <- & _). apply Ck.
      + repeat constructor; vm_compute; intuition discriminate.
    - eapply Forall_impl; [|exact Hr]. intros r [A B]. split; [destruct r; [discriminate A|discriminate]|exact B]. }
  exists ks, (List.concat (map line ([map fmt_key ks ++ [chars "Count"]] ++ rows))), rows.
  split; [apply LK|]. split; [exact KI|]. split; [congruence|]. rewrite T. split; [reflexivity|]. split; [reflexivity|].
  split; [exact Hl|]. eapply Forall_impl; [|exact Hr]. intros r [A _]. exact A.
Qed.
Print Assumptions C64_table.

(** C64: a group constructed with a key never runs into undefined behaviour ... *)
Theorem C64_defined :
  forall {K} (lt : K -> K -> bool), strict_total lt ->
  forall fmt_key fmt_mean wr chk file k indices fs h g fs' outcomes,
  og_run lt fmt_key fmt_mean wr chk h (og_new lt file (k :: indices)) fs = (g, fs', outcomes) ->
  ~ In UB outcomes /\ List.length outcomes = List.length h.
Proof.
  intros K lt O fmt_key fmt_mean wr chk file k indices fs h g fs' outcomes E.
  assert (S0 : sorted lt (@nil (K * list f64))) by constructor.
  destruct (new_abs lt O (k :: indices) [] S0) as (S & En & L). unfold og_new in E.
  change (@nil (K * kahan f64)) with (accs (@nil (K * list f64))) in E. rewrite En in E.
  set (m := fold_left _ (k :: indices) []) in *. clearbody m.
  destruct (run_spec lt O fmt_key fmt_mean wr chk file h m fs (mkS (lookup lt m) (fs file)) S (conj (fun _ => eq_refl) eq_refl))
    as (m' & fs2 & os & E2 & _ & _ & s' & R & _).
  rewrite E2 in E. injection E as <- <- <-.
  assert (N : ~ In UB os).
  { apply (sruns_ok lt O fmt_key fmt_mean chk _ h _ s' os) in R; [exact R|]. exists k. cbn [s_vals].
    destruct (L k) as (_ & _ & L3). rewrite L3; [discriminate|reflexivity|now left]. }
  split; [exact N|]. clear - R N. induction R as [|? ? ? ? St|? ? ? ? ? ? ? St No R IH]; [reflexivity|exfalso; apply N; now left|].
  cbn [List.length]. f_equal. apply IH. intros I. apply N. now right.
Qed.
Print Assumptions C64_defined.

(** ... but on a group without observables both printing calls are undefined. *)
Theorem C64_empty_undefined :
  forall {K} (lt : K -> K -> bool) fmt_key fmt_mean wr chk file fs c h,
  c = OHeaders \/ (exists p, c = OPrint p) ->
  snd (og_run lt fmt_key fmt_mean wr chk (c :: h) (og_new lt file []) fs) = [UB].
Proof. intros K lt fmt_key fmt_mean wr chk file fs c h [->|[p ->]]; reflexivity. Qed.
Print Assumptions C64_empty_undefined.

(** C64: the count in a line is that of the first key only. *)
Theorem C64_count_of_every_key_refuted :
  let '(_, fs, _) := og_run Z.ltb put_int (fun _ _ => chars "x") (fun _ => true) false
      [OHeaders; OMeasure 2 f1; OMeasure 2 f1; OPrint 10] (og_new Z.ltb (chars "f") [1; 2]) (fun _ => None) in
  fs (chars "f") = Some (chars "1,2,Count" ++ [newline] ++ chars "x,x,0" ++ [newline]).
Proof. reflexivity. Qed.
Print Assumptions C64_count_of_every_key_refuted.

(** C71: an archived group is restored whatever the target held. *)
Theorem C71_round_trip :
  forall {K} (lt : K -> K -> bool), strict_total lt ->
  forall save_key load_key, (forall k rest, load_key (save_key k ++ rest) = Some (k, rest)) ->
  forall fmt_key fmt_mean wr chk file indices fs h b rest,
  let '(g, _, _) := og_run lt fmt_key fmt_mean wr chk h (og_new lt file indices) fs in
  og_load lt load_key b (og_save save_key g ++ rest) = Some (g, rest).
Proof.
  intros K lt O save_key load_key RK fmt_key fmt_mean wr chk file indices fs h b rest.
  assert (S0 : sorted lt (@nil (K * list f64))) by constructor.
  destruct (new_abs lt O indices [] S0) as (S & En & L). unfold og_new.
  change (@nil (K * kahan f64)) with (accs (@nil (K * list f64))). rewrite En.
  destruct (run_spec lt O fmt_key fmt_mean wr chk file h _ fs (mkS (lookup lt _) (fs file)) S (conj (fun _ => eq_refl) eq_refl))
    as (m' & fs2 & os & -> & S' & _).
  apply (og_archive lt O save_key load_key RK). unfold sorted. cbn [og_acc]. unfold accs. now rewrite fst_map.
Qed.
Print Assumptions C71_round_trip.

Lemma Zlt_strict_total : strict_total Z.ltb.
Proof.
  split.
  - apply Z.ltb_irrefl.
  - intros a b c H1 H2. apply Z.ltb_lt in H1, H2. apply Z.ltb_lt. lia.
  - intros a b H1 H2. apply Z.ltb_ge in H1, H2. lia.
Qed.

Example C63_example :
  let '(g, fs, os) := og_run Z.ltb put_int (fun p _ => chars "m") (fun _ => true) true
      [OMeasure 3 f1; OHeaders; OPrint 5; OMeasure 7 f1; OAdd 3; OMeasure 1 f1; OMeasure 1 f1; OPrint 5]
      (og_new Z.ltb (chars "out") [3; 1; 3]) (fun p => if str_eq p (chars "out") then Some (chars "old") else None) in
  fs (chars "out") = Some (chars "1,3,Count" ++ [newline] ++ chars "m,m,0" ++ [newline] ++ chars "m,m,2" ++ [newline]) /\
  os = [Ok tt; Ok tt; Ok tt; Throw ExOutOfRange; Ok tt; Ok tt; Ok tt; Ok tt] /\
  table (contents fs (chars "out")) =
    map (map chars) [["1"; "3"; "Count"]; ["m"; "m"; "0"]; ["m"; "m"; "2"]]%string /\
  map fst (og_acc g) = [1; 3] /\ clean (chars "m") /\ (forall z, clean (put_int z)).
Proof.
  cbn zeta. split; [reflexivity|]. split; [reflexivity|]. split; [reflexivity|]. split; [reflexivity|].
  split; [vm_compute; intuition discriminate|exact put_int_clean].
Qed.

Example C71_example :
  let save_key k := [TL k] in
  (forall k rest, load_l (save_key k ++ rest) = Some (k, rest)) /\
  map (fun t => match t with TL z => z | TU z => z | _ => -1 end)
      (og_save save_key (OgAddObservable Z.ltb (og_new Z.ltb (chars "f") [2; 1]) 5)) =
  [-1; 3; 1; -1; -1; 0; 2; -1; -1; 0; 5; -1; -1; 0].
Proof. split; [reflexivity|]. vm_compute. reflexivity. Qed.
