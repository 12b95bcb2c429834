(** Property theorems C97 (programs that save, stop and start again).  Nothing
    else is proved here.  [surviving [] [] h] are the calls of the history h that
    were not lost with a restart (S_Restart). *)
From Coq Require Import ZArith List Bool Ascii String Lia.
From Flocq Require Import IEEE754.BinarySingleNaN.
From Verif Require Import Base F64 Num M_Text M_Archive M_Accum S_Accum L_Accum M_Hist L_Hist M_Move L_Move M_Util M_Obs S_Obs L_Obs
  S_Restart M_Restart L_Restart.
Import ListNotations.
Open Scope Z_scope.
Open Scope list_scope.

(** The accumulator holds the surviving values added since the last surviving Reset. *)
Theorem C97_kahan : forall chk h,
  (chk = true -> Z.of_nat (List.length (surviving [] [] h)) < two64) ->
  client (alone (acc_call (KahanAdd numF chk) (KahanReset numF))) kahan_save kahan_load (kahan_new numF)
    h (kahan_new numF) tt None =
  Some (fst (apply_accumulator (KahanAdd numF false) (since_reset (surviving [] [] h) []) (kahan_new numF)), tt).
Proof.
  intros chk h Hc. rewrite alone_total.
  - rewrite (apply_step (KahanAdd numF false) (kahan_step numF)) by reflexivity.
    apply (calls_since (KahanAdd numF chk) (KahanReset numF) (kahan_step numF) (kahan_new numF) k_count chk) with (old := []);
      try reflexivity; [|cbn [List.length]; rewrite Nat.add_0_r; exact Hc].
    intros a x H. unfold KahanAdd. destruct chk; [|reflexivity]. cbn [andb]. destruct (Z.eqb_spec (k_count a) ulong_max); [|reflexivity].
    exfalso. now apply H.
  - apply restores_all. exact kahan_restored.
  - apply acc_call_defined. intros a x. unfold KahanAdd. now destruct (chk && _).
Qed.
Print Assumptions C97_kahan.

Theorem C97_neumaier : forall chk h,
  (chk = true -> Z.of_nat (List.length (surviving [] [] h)) < two64) ->
  client (alone (acc_call (NeumaierAdd numF chk) (NeumaierReset numF))) neumaier_save neumaier_load (neumaier_new numF)
    h (neumaier_new numF) tt None =
  Some (fst (apply_accumulator (NeumaierAdd numF false) (since_reset (surviving [] [] h) []) (neumaier_new numF)), tt).
Proof.
  intros chk h Hc. rewrite alone_total.
  - rewrite (apply_step (NeumaierAdd numF false) (neumaier_step numF)) by reflexivity.
    apply (calls_since (NeumaierAdd numF chk) (NeumaierReset numF) (neumaier_step numF) (neumaier_new numF) n_count chk) with (old := []);
      try reflexivity; [|cbn [List.length]; rewrite Nat.add_0_r; exact Hc].
    intros a x H. unfold NeumaierAdd. destruct chk; [|reflexivity]. cbn [andb]. destruct (Z.eqb_spec (n_count a) ulong_max); [|reflexivity].
    exfalso. now apply H.
  - apply restores_all. exact neumaier_restored.
  - apply acc_call_defined. intros a x. unfold NeumaierAdd. now destruct (chk && _).
Qed.
Print Assumptions C97_neumaier.

Theorem C97_knuth_welford : forall chk h,
  (chk = true -> Z.of_nat (List.length (surviving [] [] h)) < two64) ->
  client (alone (acc_call (KwAdd numF chk) (KwReset numF))) kw_save kw_load (kw_new numF)
    h (kw_new numF) tt None =
  Some (fst (apply_accumulator (KwAdd numF false) (since_reset (surviving [] [] h) []) (kw_new numF)), tt).
Proof.
  intros chk h Hc. rewrite alone_total.
  - rewrite (apply_step (KwAdd numF false) (kw_step numF)) by reflexivity.
    apply (calls_since (KwAdd numF chk) (KwReset numF) (kw_step numF) (kw_new numF) kw_count chk) with (old := []);
      try reflexivity; [|cbn [List.length]; rewrite Nat.add_0_r; exact Hc].
    intros a x H. unfold KwAdd. destruct chk; [|reflexivity]. cbn [andb]. destruct (Z.eqb_spec (kw_count a) ulong_max); [|reflexivity].
    exfalso. now apply H.
  - apply restores_all. exact kw_restored.
  - apply acc_call_defined. intros a x. unfold KwAdd. now destruct (chk && _).
Qed.
Print Assumptions C97_knuth_welford.

(** Weighted accumulators, accumulators of integers and histograms: the object is
    the one that the surviving calls alone would have made. *)
Theorem C97_west : forall chk h,
  let c := alone (acc_call (fun a p => WestAdd numF chk a (fst p) (snd p)) (WestReset numF)) in
  client c west_save west_load (west_new numF) h (west_new numF) tt None =
  straight c (surviving [] [] h) (west_new numF) tt.
Proof.
  intros chk h c. apply alone_total.
  - apply restores_all. exact west_restored.
  - apply acc_call_defined. intros a x. unfold WestAdd. destruct (n_lt numF _ _); [destruct (chk && _)|]; exact I.
Qed.
Print Assumptions C97_west.

Theorem C97_naive : forall chk h a,
  let c := alone (acc_call (NaiveAdd chk) NaiveReset) in
  client c naive_save naive_load naive_new h naive_new tt None = Some (a, tt) ->
  straight c (surviving [] [] h) naive_new tt = Some (a, tt).
Proof.
  intros chk h a c. apply alone_client.
  apply restores_all. exact naive_restored.
Qed.
Print Assumptions C97_naive.

Theorem C97_histogram : forall chk n h a,
  client (alone (hist_call chk)) hist_save hist_load (HistAccumulator n) h (HistAccumulator n) tt None = Some (a, tt) ->
  straight (alone (hist_call chk)) (surviving [] [] h) (HistAccumulator n) tt = Some (a, tt).
Proof.
  intros chk n h a. apply alone_client.
  apply restores_all. exact hist_restored.
Qed.
Print Assumptions C97_histogram.

(** Move statistics, loaded into objects of the same name. *)
Theorem C97_move_stats : forall chk name h,
  Forall (fun t => MS_GetName t = name) (targets h) ->
  client (alone (ms_call chk)) ms_save ms_load (MoveStats name) h (MoveStats name) tt None =
  Some (ms_calls chk (surviving [] [] h) (MoveStats name), tt).
Proof.
  intros chk name h HT. rewrite alone_total.
  - apply straight_fold. apply ms_call_defined.
  - revert HT. apply Forall_impl. intros t Ht l [] s w' E. rewrite straight_fold in E by apply ms_call_defined.
    injection E as <- _. exists []. apply ms_restored.
    change (m_name t) with (MS_GetName t). rewrite Ht. symmetry. exact (ms_calls_name chk l (MoveStats name)).
  - apply ms_call_defined.
Qed.
Print Assumptions C97_move_stats.

(** The archive does not hold the name: loaded into an object of another name,
    the statistics go on under that name. *)
Theorem C97_move_stats_name_refuted :
  let h := [Do (McAdd (MR_Accept f1)); Save; Restart MS_default] in
  option_map (fun p => (MS_GetName (fst p), m_accepted (fst p)))
    (client (alone (ms_call false)) ms_save ms_load (MoveStats [65]) h (MoveStats [65]) tt None) = Some (unknown_name, 1) /\
  MS_GetName (ms_calls false (surviving [] [] h) (MoveStats [65])) = [65].
Proof. split; vm_compute; reflexivity. Qed.
Print Assumptions C97_move_stats_name_refuted.

(** Groups of observables: the group is the one the surviving calls would have made. *)
Theorem C97_group :
  forall {K} (lt : K -> K -> bool), strict_total lt ->
  forall save_key load_key, (forall k rest, load_key (save_key k ++ rest) = Some (k, rest)) ->
  forall fmt_key fmt_mean wr chk file indices fs h g fs',
  client (og_call lt fmt_key fmt_mean wr chk) (og_save save_key) (og_load lt load_key) (og_new lt file indices)
    h (og_new lt file indices) fs None = Some (g, fs') ->
  exists fs'' outcomes,
    og_run lt fmt_key fmt_mean wr chk (surviving [] [] h) (og_new lt file indices) fs = (g, fs'', outcomes).
Proof.
  intros K lt O save_key load_key RK fmt_key fmt_mean wr chk file indices fs h g fs' E.
  assert (HT : Forall (restores (og_call lt fmt_key fmt_mean wr chk) (og_save save_key) (og_load lt load_key) (og_new lt file indices)) (targets h))
    by (apply Forall_forall; intros t _; now apply og_restores).
  destruct (client_object _ _ _ _ h (og_separate lt fmt_key fmt_mean wr chk) HT [] [] fs (og_new lt file indices) fs fs None g fs' eq_refl eq_refl E) as [w H].
  destruct (straight_og_run _ _ _ _ _ _ _ _ _ _ H) as [os R]. eauto.
Qed.
Print Assumptions C97_group.

(** The files, too, if no printing call is lost. *)
Theorem C97_group_files :
  forall {K} (lt : K -> K -> bool), strict_total lt ->
  forall save_key load_key, (forall k rest, load_key (save_key k ++ rest) = Some (k, rest)) ->
  forall fmt_key fmt_mean wr chk file indices fs h g fs',
  Forall (fun c => match c with OHeaders | OPrint _ => False | _ => True end) (lost [] h) ->
  client (og_call lt fmt_key fmt_mean wr chk) (og_save save_key) (og_load lt load_key) (og_new lt file indices)
    h (og_new lt file indices) fs None = Some (g, fs') ->
  exists outcomes,
    og_run lt fmt_key fmt_mean wr chk (surviving [] [] h) (og_new lt file indices) fs = (g, fs', outcomes).
Proof.
  intros K lt O save_key load_key RK fmt_key fmt_mean wr chk file indices fs h g fs' Q E.
  assert (HT : Forall (restores (og_call lt fmt_key fmt_mean wr chk) (og_save save_key) (og_load lt load_key) (og_new lt file indices)) (targets h))
    by (apply Forall_forall; intros t _; now apply og_restores).
  apply (straight_og_run lt fmt_key fmt_mean wr chk).
  apply (client_world _ _ _ _ h (og_separate lt fmt_key fmt_mean wr chk) HT [] [] fs (og_new lt file indices) fs None g fs' eq_refl eq_refl); [|exact E].
  revert Q. apply Forall_impl. intros c. apply og_quiet.
Qed.
Print Assumptions C97_group_files.

(** A row that was printed after the last save stays in the file and is printed
    again: two rows, although the surviving calls print one. *)
Definition row_twice : list (event (ogcall (K:=Z)) (group (K:=Z))) :=
  [Do OHeaders; Save; Do (OMeasure 1 f1); Do (OPrint 5); Restart (og_empty []); Do (OMeasure 1 f1); Do (OPrint 5)].

Theorem C97_group_files_refuted :
  surviving [] [] row_twice = [OHeaders; OMeasure 1 f1; OPrint 5] /\
  option_map (fun p => snd p (chars "f"))
    (client (og_call Z.ltb put_int (fun _ _ => chars "m") (fun _ => true) false) (og_save (fun k => [TL k])) (og_load Z.ltb load_l)
       (og_new Z.ltb (chars "f") [1]) row_twice (og_new Z.ltb (chars "f") [1]) (fun _ => None) None) =
  Some (Some (chars "1,Count" ++ [newline] ++ chars "m,1" ++ [newline] ++ chars "m,1" ++ [newline])).
Proof. split; [reflexivity|]. vm_compute. reflexivity. Qed.
Print Assumptions C97_group_files_refuted.

(** Non-vacuity: values 1 and 2 saved, 4 lost, 7 added after the restart. *)
Definition sample_restart {T} (t : T) : list (event (call f64) T) :=
  [Do (CAdd (of_Z 9)); Do CReset; Do (CAdd f1); Do (CAdd (of_Z 2)); Save; Do (CAdd (of_Z 4)); Restart t; Do (CAdd (of_Z 7))].

Example C97_ex :
  since_reset (surviving [] [] (sample_restart (mkKahan fnan f1 3))) [] = [f1; of_Z 2; of_Z 7] /\
  lost [] (sample_restart (mkKahan fnan f1 3)) = [CAdd (of_Z 4)] /\
  option_map (fun p => B2SF (KahanSum (fst p)))
    (client (alone (acc_call (KahanAdd numF true) (KahanReset numF))) kahan_save kahan_load (kahan_new numF)
       (sample_restart (mkKahan fnan f1 3)) (kahan_new numF) tt None) = Some (B2SF (of_Z 10)) /\
  option_map (fun p => (HistGetNbins (fst p), HistGetCount (fst p)))
    (client (alone (hist_call false)) hist_save hist_load (HistAccumulator 2)
       [Do (HCAdd 1 f1); Save; Do (HCForceAdd 5 f1); Restart hist_default; Do (HCAdd 0 f1)] (HistAccumulator 2) tt None) = Some (2, 2) /\
  option_map (fun p => ni_sum (fst p))
    (client (alone (acc_call (NaiveAdd false) NaiveReset)) naive_save naive_load naive_new
       [Do (CAdd 3); Save; Do (CAdd 5); Restart naive_new] naive_new tt None) = Some 3 /\
  Forall (fun t => MS_GetName t = [65]) (targets [Do McPropose; Save; Restart (MoveStats [65]); Do (McAccept f1)]).
Proof.
  split; [reflexivity|]. split; [reflexivity|]. split; [vm_compute; reflexivity|]. split; [vm_compute; reflexivity|].
  split; [vm_compute; reflexivity|]. repeat constructor.
Qed.
