(** Lemmas about the numbers in the file of a group of observables. *)
From Coq Require Import ZArith Reals List Bool Ascii String Sorted Lia Lra.
From Flocq Require Import Core.
From Flocq Require Import IEEE754.BinarySingleNaN.
From Verif Require Import Base F64 Num M_Text M_Archive M_Accum S_Accum M_Util M_Obs S_Obs L_Obs M_Fmt S_Fmt L_Fmt L_Sum L_Accum L_Welford S_ObsFile.
Import ListNotations.
Open Scope Z_scope.

Section File.
Context {K : Type} (lt : K -> K -> bool) (O : strict_total lt).
Context (same : K -> K -> bool) (Hsame : forall a b, same a b = true <-> a = b).
Context (fmt_key : K -> list ascii) (fmt_mean : Z -> f64 -> list ascii) (chk : bool).

Lemma same_refl k : same k k = true.
Proof. now apply Hsame. Qed.
Lemma same_neq a b : a <> b -> same a b = false.
Proof. intros H. destruct (same a b) eqn:E; [|reflexivity]. apply Hsame in E. contradiction. Qed.

Lemma measured_snoc k h c : measured same k (h ++ [c]) =
  measured same k h ++ match c with OMeasure k' x => if same k' k then [x] else [] | _ => [] end.
Proof.
  induction h as [|d h IH]; cbn [app measured].
  - destruct c as [k' x| | |]; reflexivity.
  - destruct d as [k' x| | |]; try exact IH. destruct (same k' k); [cbn [app]; now rewrite IH|exact IH].
Qed.

Lemma measured_length k h : (List.length (measured same k h) <= List.length h)%nat.
Proof. induction h as [|d h IH]; [apply le_n|]. cbn [measured]. destruct d as [k' x| | |]; cbn [List.length]; try lia. destruct (same k' k); cbn [List.length]; lia. Qed.

Definition row_text (k0 : K) (ks : list K) (e : Z * list (ogcall (K:=K))) : list (list ascii) :=
  map (fun k => fmt_mean (fst e) (KahanMean numF (kahan_after (measured same k (snd e))))) (k0 :: ks) ++
  [put_int (Z.of_nat (List.length (measured same k0 (snd e))))].

Lemma sruns_segments k0 ks h : forall s s' os rows old,
  lists_keys lt s (k0 :: ks) -> (forall k, In k (k0 :: ks) -> s_vals s k = Some (measured same k old)) ->
  s_file s = Some (List.concat (map line rows)) -> Forall (keeps s) h ->
  Z.of_nat (List.length old + List.length h) <= 2 ^ 53 ->
  sruns lt fmt_key fmt_mean true chk s h s' os ->
  s_file s' = Some (List.concat (map line (rows ++ map (row_text k0 ks) (segments old h)))).
Proof.
  induction h as [|c h IH]; intros s s' os rows old LK V Hf Hk HL R.
  - inversion R; subst. cbn [segments map]. now rewrite app_nil_r.
  - inversion Hk as [|? ? Hc Hh]; subst.
    inversion R as [|? ? ? s1 St|? ? ? s1 o ? os1 St No R1]; subst.
    { exfalso. inversion St as [| | | | | | |? L|? ? L]; subst;
        pose proof (keys_unique lt O _ _ _ _ (conj (fun _ => eq_refl) eq_refl) LK L); discriminate. }
    assert (KS : forall k, s_vals s1 k <> None <-> s_vals s k <> None).
    { intros k. rewrite (sstep_keys lt O fmt_key fmt_mean chk _ _ _ _ _ St No). destruct c; cbn [added In]; try tauto.
      cbn [keeps] in Hc. split; [intros [H|[->|[]]]|]; auto. }
    assert (LK1 : lists_keys lt s1 (k0 :: ks)) by (destruct LK as [L1 L2]; split; [exact L1|intros k; now rewrite L2, KS]).
    assert (Hh1 : Forall (keeps s1) h) by (eapply Forall_impl; [|exact Hh]; intros [] Hd; cbn [keeps] in *; auto; now apply KS).
    cbn [List.length] in HL.
    assert (NF : forall vs k, s_vals s k = Some vs -> In k (k0 :: ks) /\ vs = measured same k old).
    { intros vs k E. assert (I : In k (k0 :: ks)) by (apply LK; congruence). split; [exact I|]. rewrite (V k I) in E. congruence. }
    assert (SM : forall k, Z.of_nat (List.length (measured same k old)) mod 2 ^ 64 = Z.of_nat (List.length (measured same k old))).
    { intros k. pose proof (measured_length k old). apply Z.mod_small. lia. }
    inversion St as [k x vs s1' Vk Fu Vk1 Ex Sf|k x vs s1' Vk Fu Sv Sf|k x s1' Vk Sv Sf|k s1' Vk Vk1 Ex Sf|k s1' Vk Sv Sf| |p k ks1 vs s1' LK0 Vk Vall Wr| |]; subst; try contradiction.
    + (* Measure *)
      cbn [segments]. apply (IH s1 s' os1 rows (old ++ [OMeasure k x])); auto.
      * intros j Hj. rewrite measured_snoc. destruct (NF _ _ Vk) as [_ ->]. destruct (key_dec lt O j k) as [->|N].
        { now rewrite same_refl, Vk1. }
        { rewrite (Ex j N), same_neq, app_nil_r by congruence. now apply V. }
      * now rewrite Sf.
      * rewrite app_length; cbn [List.length]; lia.
    + (* full *)
      exfalso. destruct (NF _ _ Vk) as [_ ->]. unfold full in Fu. rewrite SM in Fu.
      apply andb_true_iff in Fu as [_ Fu]. apply Z.eqb_eq in Fu. pose proof (measured_length k old). lia.
    + (* unknown *)
      cbn [segments]. apply (IH s1 s' os1 rows (old ++ [OMeasure k x])); auto.
      * intros j Hj. rewrite measured_snoc. rewrite (Sv j), (V j Hj), same_neq, app_nil_r; [reflexivity|]. intros ->. rewrite (V j Hj) in Vk. discriminate.
      * now rewrite Sf.
      * rewrite app_length; cbn [List.length]; lia.
    + (* add old *)
      cbn [segments]. apply (IH s1 s' os1 rows (old ++ [OAdd k])); auto.
      * intros j Hj. rewrite measured_snoc, app_nil_r, (Sv j). now apply V.
      * now rewrite Sf.
      * rewrite app_length; cbn [List.length]; lia.
    + (* print *)
      pose proof (keys_unique lt O s s _ _ (conj (fun _ => eq_refl) eq_refl) LK LK0) as Ek. injection Ek as <- <-.
      cbn [segments map]. rewrite (IH s1 s' os1 (rows ++ [row_text k0 ks (p, old)]) []); auto.
      * now rewrite <- app_assoc.
      * intros j Hj. rewrite Vall, (V j Hj). reflexivity.
      * unfold written in Wr. rewrite Hf in Wr. rewrite Wr, map_app, concat_app. cbn [map List.concat]. rewrite app_nil_r. do 2 f_equal.
        unfold row_text. cbn [fst snd]. do 2 f_equal.
        { apply (map_ext_in (mean_cell fmt_mean p s) _ (k0 :: ks)). intros j Hj. unfold mean_cell. now rewrite (V j Hj). }
        { unfold count_cell. destruct (NF _ _ Vk) as [_ ->]. now rewrite SM. }
      * cbn [List.length]. lia.
Qed.
End File.

(** Adding observables before anything else is naming them in the constructor. *)
Lemma adds_run {K} (lt : K -> K -> bool) fmt_key fmt_mean wr chk file fs h more : forall indices,
  fst (og_run lt fmt_key fmt_mean wr chk (map OAdd more ++ h) (og_new lt file indices) fs) =
  fst (og_run lt fmt_key fmt_mean wr chk h (og_new lt file (indices ++ more)) fs).
Proof.
  induction more as [|k more IH]; intros indices; [now rewrite app_nil_r|]. cbn [map app og_run og_call].
  replace (OgAddObservable lt (og_new lt file indices) k) with (og_new lt file (indices ++ [k])).
  2:{ unfold OgAddObservable, og_new. cbn [og_file og_acc]. now rewrite fold_left_app. }
  specialize (IH (indices ++ [k])). rewrite <- app_assoc in IH. cbn [app] in IH. rewrite <- IH.
  destruct (og_run lt fmt_key fmt_mean wr chk (map OAdd more ++ h) (og_new lt file (indices ++ [k])) fs) as [[g2 fs2] os]. reflexivity.
Qed.

(** The file after a history that starts with the header. *)
Lemma file_rows {K} (lt : K -> K -> bool) (O : strict_total lt) same (Hsame : forall a b, same a b = true <-> a = b)
    fmt_key fmt_mean wr chk file indices fs h g fs' outcomes :
  (forall k, clean (fmt_key k)) -> (forall p x, clean (fmt_mean p x)) -> wr file = true -> indices <> [] ->
  Forall (fun c => match c with OHeaders => False | OAdd k => In k indices | _ => True end) h ->
  Z.of_nat (List.length h) <= 2 ^ 53 ->
  og_run lt fmt_key fmt_mean wr chk (OHeaders :: h) (og_new lt file indices) fs = (g, fs', outcomes) ->
  exists k0 ks text, StronglySorted (fun a b => lt a b = true) (k0 :: ks) /\ (forall k, In k (k0 :: ks) <-> In k indices) /\
    fs' file = Some text /\ text = List.concat (map line (table text)) /\
    table text = (map fmt_key (k0 :: ks) ++ [chars "Count"]) :: map (row_text same fmt_mean k0 ks) (segments [] h).
Proof.
  intros Ck Cm W Ni Hh HL E.
  assert (S0 : sorted lt (@nil (K * list f64))) by constructor.
  destruct (new_abs lt O indices [] S0) as (S & En & L). unfold og_new in E.
  change (@nil (K * kahan f64)) with (accs (@nil (K * list f64))) in E. rewrite En in E.
  set (m := fold_left _ indices []) in *. clearbody m.
  destruct (run_spec lt O fmt_key fmt_mean wr chk file (OHeaders :: h) m fs (mkS (lookup lt m) (fs file)) S (conj (fun _ => eq_refl) eq_refl))
    as (m' & fs2 & os & E2 & _ & _ & s' & R & A).
  rewrite E2 in E. injection E as <- <- <-. destruct A as [_ Af].
  assert (LK : lists_keys lt (mkS (lookup lt m) (fs file)) (map fst m)) by (split; [exact S|]; intros k; cbn [s_vals]; symmetry; now apply lookup_keys).
  assert (V : forall k, lookup lt m k = if lookup lt m k then Some [] else None).
  { intros k. destruct (L k) as (_ & L2 & L3). destruct (lookup lt m k) as [vs|] eqn:Lk; [|reflexivity].
    apply L3; [reflexivity|]. apply L2; [reflexivity|discriminate]. }
  assert (I : forall k, In k (map fst m) <-> In k indices).
  { intros k. rewrite <- (lookup_keys lt O) by exact S. destruct (L k) as (_ & L2 & L3). split; [intros H; now apply L2|].
    intros H. rewrite L3; [discriminate|reflexivity|exact H]. }
  destruct (map fst m) as [|k0 ks] eqn:Em.
  { exfalso. destruct indices as [|i l]; [congruence|]. apply (proj2 (I i)). now left. }
  inversion R as [|? ? ? s2 St|? ? ? s2 o ? os2 St No R2]; subst.
  { exfalso. inversion St as [| | | | | | |? L0|]; subst. pose proof (keys_unique lt O _ _ _ _ (conj (fun _ => eq_refl) eq_refl) LK L0). discriminate. }
  inversion St as [| | | | |ks1 ? LK1 Nk SV Wr| | |]; subst; try congruence.
  pose proof (keys_unique lt O _ _ _ _ (conj (fun _ => eq_refl) eq_refl) LK LK1) as <-.
  unfold written in Wr. rewrite W in Wr, R2.
  set (hd := map fmt_key (k0 :: ks) ++ [chars "Count"]) in *.
  assert (Hs : s_file s' = Some (List.concat (map line ([hd] ++ map (row_text same fmt_mean k0 ks) (segments [] h))))).
  { apply (sruns_segments lt O same Hsame fmt_key fmt_mean chk k0 ks h s2 s' os2 [hd] []); auto.
    - destruct LK as [LA LB]. split; [exact LA|]. intros k. rewrite LB. now rewrite SV.
    - intros k Hk. rewrite SV. cbn [s_vals measured]. rewrite V. apply LK in Hk. cbn [s_vals] in Hk. destruct (lookup lt m k); [reflexivity|congruence].
    - rewrite Wr. cbn [map List.concat]. now rewrite app_nil_r.
    - eapply Forall_impl; [|exact Hh]. intros [] Hc; cbn [keeps]; auto. rewrite SV. apply LK. now apply I. }
  assert (T : table (List.concat (map line ([hd] ++ map (row_text same fmt_mean k0 ks) (segments [] h)))) = [hd] ++ map (row_text same fmt_mean k0 ks) (segments [] h)).
  { apply table_lines. apply Forall_app. split.
    - constructor; [|constructor]. split; [discriminate|]. apply Forall_app. split.
      + apply Forall_forall. intros x Hx. apply in_map_iff in Hx as (k & <- & _). apply Ck.
      + repeat constructor; vm_compute; intuition discriminate.
    - apply Forall_forall. intros r Hr. apply in_map_iff in Hr as (e & <- & _). split; [discriminate|]. unfold row_text. apply Forall_app. split.
      + apply Forall_forall. intros x Hx. apply in_map_iff in Hx as (k & <- & _). apply Cm.
      + repeat constructor; apply put_int_clean. }
  exists k0, ks, (List.concat (map line ([hd] ++ map (row_text same fmt_mean k0 ks) (segments [] h)))).
  rewrite T. split; [apply LK|]. split; [exact I|]. split; [congruence|]. split; reflexivity.
Qed.

(** One cell. *)
Lemma empty_cell p : forall v, ~ denotes (fmt_sci p (KahanMean numF (kahan_after []))) v.
Proof.
  intros v (q & s & n & k & T & _). apply sci_text_head in T as (c & r & D & E).
  assert (F : fmt_sci p (KahanMean numF (kahan_after [])) = chars "nan") by reflexivity. rewrite F in E.
  destruct s; cbn in E; [discriminate|]. injection E as <- _. discriminate D.
Qed.

Lemma mean_cell_error p vs B : 0 <= p -> vs <> [] -> Z.of_nat (List.length vs) <= 2 ^ 49 ->
  Forall (fun x => fin x /\ (Rabs (RR x) <= B)%R) vs -> (bpow radix2 (-900) <= B <= bpow radix2 960)%R ->
  exists v, denotes (fmt_sci p (KahanMean numF (kahan_after vs))) v /\
  (Rabs (v - meanR (map RR vs)) <= (/ 2 * bpow ten (- p) + 11 * uro) * B)%R.
Proof.
  intros Hp Hn Hl HF HB. destruct (kahan_mean_error B vs HF HB) as [F E].
  { destruct vs; [congruence|]. cbn [List.length] in *. lia. }
  change (kahan_of vs) with (kahan_after vs) in F, E. set (m := KahanMean numF (kahan_after vs)) in *.
  exists (rnd10 p (RR m)). split; [now apply fmt_sci_denotes|]. pose proof (rnd10_error p (RR m) Hp) as R.
  assert (M : (- B <= meanR (map RR vs) <= B)%R).
  { apply meanR_bounds; [destruct vs; [congruence|discriminate]|]. apply Forall_map. revert HF. apply Forall_impl. intros x [_ H]. now apply Rabs_le_inv. }
  assert (B0 : (0 < B)%R) by (pose proof (bpow_gt_0 radix2 (-900)); lra).
  assert (T : (0 < bpow ten (- p) <= 1)%R) by (split; [apply bpow_gt_0|]; apply (bpow_le ten (- p) 0); lia).
  pose proof uro_pos as U.
  assert (Mm : (Rabs (RR m) <= B + 7 * uro * B)%R).
  { apply Rabs_le. apply Rabs_le_inv in E. lra. }
  replace (rnd10 p (RR m) - meanR (map RR vs))%R with ((rnd10 p (RR m) - RR m) + (RR m - meanR (map RR vs)))%R by ring.
  apply Rle_trans with (1 := Rabs_triang _ _).
  assert (G : (/ 2 * bpow ten (- p) * Rabs (RR m) <= / 2 * bpow ten (- p) * (B + 7 * uro * B))%R) by (apply Rmult_le_compat_l; lra).
  assert (UB : (0 < uro * B)%R) by now apply Rmult_lt_0_compat.
  assert (H : (bpow ten (- p) * (uro * B) <= 1 * (uro * B))%R) by (apply Rmult_le_compat_r; lra).
  lra.
Qed.

Lemma Forall2_map_r {A B} (f : A -> B) (P : A -> B -> Prop) l : (forall a, P a (f a)) -> Forall2 P l (map f l).
Proof. intros H. induction l as [|a l IH]; cbn [map]; constructor; auto. Qed.

Lemma segments_rows {K} (n : nat) (f : Z * list (ogcall (K:=K)) -> list (list ascii)) (P : Z * list (ogcall (K:=K)) -> list (list ascii) -> Prop) h :
  Forall (fun c => match c with OPrint p => 0 <= p | _ => True end) h ->
  (forall p calls, 0 <= p -> (List.length calls <= n)%nat -> P (p, calls) (f (p, calls))) ->
  forall old, (List.length old + List.length h <= n)%nat -> Forall2 P (segments old h) (map f (segments old h)).
Proof.
  intros Hh HP. induction Hh as [|c h Hc Hh IH]; intros old HL; [constructor|]. cbn [List.length] in HL.
  destruct c as [k x| |p|k]; cbn [segments map]; try (apply IH; rewrite app_length; cbn [List.length]; lia).
  constructor; [apply HP; [exact Hc|lia]|]. apply IH. cbn [List.length]. lia.
Qed.
