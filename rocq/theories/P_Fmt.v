(** Properties of printed doubles (C85). *)
From Coq Require Import ZArith Reals List Bool Ascii String Sorted Lia Lra.
From Flocq Require Import Core.
From Flocq Require Import IEEE754.BinarySingleNaN.
From Verif Require Import Base F64 Num S_Rational M_Text M_Accum M_Util M_Obs S_Obs M_Move M_Fmt S_Fmt L_Obs L_Fmt P_Obs P_Move.
Import ListNotations.
Open Scope Z_scope.

(** C85: with p digits after the point a finite double is printed as a numeral
    with a normalised leading digit and the sign of the double, for the double
    correctly rounded to p+1 significant digits. *)
Theorem C85_text : forall p x, 0 <= p -> fin x ->
  exists n k, sci_text p (fmt_sci p x) (Bsign x) n k /\
  sci_value p (Bsign x) n k = round ten (FLX_exp (p + 1)) ZnearestE (RR x) /\
  (RR x = 0%R -> n = 0 /\ k = 0) /\ (RR x <> 0%R -> 10 ^ p <= n < 10 ^ (p + 1)).
Proof. exact fmt_sci_spec. Qed.
Print Assumptions C85_text.

(** C85: the text has one reading, a number with p+1 digits than which none is
    nearer; the relative error is at most half a unit in digit p+1. *)
Theorem C85_nearest : forall p x, 0 <= p -> fin x ->
  exists v, (forall w, denotes (fmt_sci p x) w <-> w = v) /\ nearest_decimal p (RR x) v /\
  (Rabs (v - RR x) <= / 2 * bpow ten (- p) * Rabs (RR x))%R.
Proof.
  intros p x Hp Fx. exists (rnd10 p (RR x)). split; [|split; [now apply rnd10_nearest|now apply rnd10_error]].
  intros w. split; [|intros ->; now apply fmt_sci_denotes]. intros D. apply (denotes_fun (fmt_sci p x)); [exact D|now apply fmt_sci_denotes].
Qed.
Print Assumptions C85_nearest.

(** C85: printing keeps the order and is exact on numbers of p+1 digits. *)
Theorem C85_order : forall p x y, 0 <= p -> fin x -> fin y -> (RR x <= RR y)%R ->
  exists v w, denotes (fmt_sci p x) v /\ denotes (fmt_sci p y) w /\ (v <= w)%R.
Proof.
  intros p x y Hp Fx Fy L. exists (rnd10 p (RR x)), (rnd10 p (RR y)). split; [now apply fmt_sci_denotes|]. split; [now apply fmt_sci_denotes|]. now apply rnd10_le.
Qed.
Print Assumptions C85_order.

Theorem C85_exact : forall p x, 0 <= p -> fin x -> decimal p (RR x) -> denotes (fmt_sci p x) (RR x).
Proof. intros p x Hp Fx D. pose proof (fmt_sci_denotes p x Hp Fx) as E. now rewrite (rnd10_exact p (RR x) Hp D) in E. Qed.
Print Assumptions C85_exact.

(** C85: with 16 or more digits after the point different doubles are printed
    differently, the signs of zeros and the infinities included ... *)
Theorem C85_distinguishes : forall p x y, 16 <= p -> fmt_sci p x = fmt_sci p y -> x = y.
Proof. exact fmt_sci_inj. Qed.
Print Assumptions C85_distinguishes.

(** ... which 15 digits after the point do not achieve, and so neither the default of
    ObservableGroup (10). *)
Theorem C85_distinguishes_15_refuted : exists x y, fin x /\ fin y /\ (RR x < RR y)%R /\
  fmt_sci 15 x = fmt_sci 15 y /\ fmt_sci 10 x = fmt_sci 10 y.
Proof.
  exists (dyad 8192000000000001 (-13)), (dyad 8192000000000002 (-13)).
  assert (A : fin (dyad 8192000000000001 (-13))) by (vm_compute; reflexivity). assert (B : fin (dyad 8192000000000002 (-13))) by (vm_compute; reflexivity).
  split; [exact A|]. split; [exact B|]. split; [apply flt_R; [exact A|exact B|vm_compute; reflexivity]|]. split; vm_compute; reflexivity.
Qed.
Print Assumptions C85_distinguishes_15_refuted.

(** C85: what is not finite has its own three texts. *)
Theorem C85_not_finite : forall p x, 0 <= p ->
  (fmt_sci p x = chars "inf" <-> x = finf) /\ (fmt_sci p x = chars "-inf" <-> x = fopp finf) /\ (fmt_sci p x = chars "nan" <-> x = fnan).
Proof.
  intros p x Hp. destruct (is_finite x) eqn:Fx.
  - destruct (fmt_sci_spec p x Hp Fx) as (n & k & T & _). apply sci_text_head in T as (c & r & D & ->).
    repeat split; intros H; try (rewrite H in Fx; discriminate Fx);
      destruct (Bsign x); cbn in H; try discriminate H; injection H as -> _; discriminate D.
  - destruct x as [s|s| |s m e B]; try discriminate Fx; try destruct s; repeat split; intros H; try discriminate H; try reflexivity.
Qed.
Print Assumptions C85_not_finite.

(** C85: the file of a group of observables with integer keys is a table, whatever
    is measured. *)
Theorem C85_table : forall wr chk file indices fs h0 h1 g fs' outcomes,
  wr file = true ->
  Forall (fun c => match c with OHeaders => False | OAdd k => In k (indices ++ added h0) | _ => True end) h1 ->
  og_run Z.ltb put_int fmt_sci wr chk (h0 ++ OHeaders :: h1) (og_new Z.ltb file indices) fs = (g, fs', outcomes) ->
  ~ In UB outcomes ->
  exists ks text rows,
    StronglySorted Z.lt ks /\ (forall k, In k ks <-> In k (indices ++ added h0)) /\
    fs' file = Some text /\ text = List.concat (map line (table text)) /\
    table text = (map put_int ks ++ [chars "Count"]) :: rows /\
    List.length rows = prints h1 /\ Forall (fun r => List.length r = S (List.length ks)) rows.
Proof.
  intros wr chk file indices fs h0 h1 g fs' outcomes W F E N.
  assert (O : strict_total Z.ltb) by (constructor; intros *; rewrite ?Z.ltb_ge, ?Z.ltb_lt; lia).
  destruct (C64_table Z.ltb O put_int fmt_sci wr chk file indices fs h0 h1 g fs' outcomes put_int_clean fmt_sci_clean W F E N) as (ks & text & rows & S & R).
  exists ks, text, rows. split; [|exact R]. eapply StronglySorted_ind with (P := StronglySorted Z.lt); [constructor| |exact S].
  intros a l _ IH H. constructor; [exact IH|]. eapply Forall_impl; [|exact H]. intros b Hb. now apply Z.ltb_lt.
Qed.
Print Assumptions C85_table.

(** C85: a MoveStats is printed with its name and numerals within 1/1999 (relative)
    of the ratios. *)
Theorem C85_move_stats : forall chk name h, Z.of_nat (List.length h) < two64 ->
  let s := ms_calls chk h (MoveStats name) in
  0 < m_proposed s <= 2 ^ 53 ->
  exists a r i q, ms_print s = map (fun z => ascii_of_nat (Z.to_nat z)) name ++
    chars "(accepted = " ++ a ++ chars ", rejected = " ++ r ++ chars ", impossible = " ++ i ++ chars ", probability = " ++ q ++ chars ")" /\
  (forall t c, In (t, c) [(a, m_accepted s); (r, m_rejected s); (i, m_impossible s)] ->
     exists v, denotes t v /\ let e := (IZR c / IZR (m_proposed s))%R in (Rabs (v - e) <= / 1999 * e)%R) /\
  (fin (MS_GetAverageProbability s) -> exists v, denotes q v /\ nearest_decimal 3 (RR (MS_GetAverageProbability s)) v).
Proof.
  intros chk name h Hh s Hp. exists (fmt_sci 3 (MS_GetAcceptedRatio s)), (fmt_sci 3 (MS_GetRejectedRatio s)), (fmt_sci 3 (MS_GetImpossibleRatio s)), (fmt_sci 3 (MS_GetAverageProbability s)).
  split; [unfold ms_print; change (m_name s) with (MS_GetName s)|split].
  - assert (MS_GetName s = name) as ->; [|reflexivity]. destruct (C59_statistics chk name h) as [E _]; [intros _; exact Hh|exact E].
  - pose proof (C60_ratios chk name h Hh (proj1 Hp)) as R. fold s in R.
    assert (G : forall r c, fin r /\ (0 <= RR r <= 1)%R /\ (m_proposed s <= 2 ^ 53 -> RR r = rnd (IZR c / IZR (m_proposed s))) -> 0 <= c ->
      exists v, denotes (fmt_sci 3 r) v /\ let e := (IZR c / IZR (m_proposed s))%R in (Rabs (v - e) <= / 1999 * e)%R).
    { intros r c (F & _ & E) Hc. apply ratio_print; [exact F|exact Hc|exact Hp|now apply E]. }
    assert (C : 0 <= m_accepted s /\ 0 <= m_rejected s /\ 0 <= m_impossible s).
    { destruct (C59_statistics chk name h) as (_ & _ & _ & A & B & D & _); [intros _; exact Hh|]. fold s in A, B, D. rewrite A, B, D. unfold u64.
      split; [|split]; apply Z.mod_pos_bound; reflexivity. }
    intros t c [E|[E|[E|[]]]]; injection E as <- <-; apply G; try apply R; cbn [In]; auto; apply C.
  - intros F. exists (rnd10 3 (RR (MS_GetAverageProbability s))). split; [now apply fmt_sci_denotes|now apply rnd10_nearest].
Qed.
Print Assumptions C85_move_stats.

(** Non-vacuity. *)
Example C85_example :
  fmt_sci 10 f1 = chars "1.0000000000e+00" /\ fmt_sci 0 (fdiv (of_Z 5) (of_Z 2)) = chars "2e+00" /\
  fmt_sci 3 (fopp (fdiv f1 (of_Z 3))) = chars "-3.333e-01" /\ fmt_sci 2 (of_Z 9995) = chars "1.00e+04" /\
  fmt_sci 16 (fdiv f1 (of_Z 10)) = chars "1.0000000000000001e-01" /\ fmt_sci 4 (dyad 1 (-1074)) = chars "4.9407e-324" /\
  fmt_sci 1 (fopp f0) = chars "-0.0e+00" /\ fmt_sci 17 (fdiv f1 f0) = chars "inf".
Proof. vm_compute. repeat split. Qed.

Example C85_example_table :
  let '(_, fs, o) := og_run Z.ltb put_int fmt_sci (fun _ => true) false
      [OHeaders; OMeasure 2 f1; OMeasure 2 (of_Z 2); OMeasure 10 (of_Z 3); OPrint 2] (og_new Z.ltb (chars "f") [10; 2]) (fun _ => None) in
  ~ In UB o /\ fs (chars "f") = Some (chars "2,10,Count" ++ [newline] ++ chars "1.50e+00,3.00e+00,2" ++ [newline]).
Proof. vm_compute. split; [intuition discriminate|reflexivity]. Qed.

Example C85_example_stats :
  let s := ms_calls true [McPropose; McAccept f1; McPropose; McReject f0; McPropose; McReject f0] MS_default in
  m_proposed s = 3 /\
  ms_print s = chars "Unknown(accepted = 3.333e-01, rejected = 6.667e-01, impossible = 0.000e+00, probability = 3.333e-01)" /\
  ms_print MS_default = chars "Unknown(accepted = 0.000e+00, rejected = nan, impossible = nan, probability = nan)".
Proof. vm_compute. repeat split. Qed.
