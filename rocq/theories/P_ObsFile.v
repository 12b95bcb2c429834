(** Properties of the numbers in the file of a group of observables (C93).
    [uro] is 2^-53, [meanR] the exact mean of real numbers. *)
From Coq Require Import ZArith Reals List Bool Ascii String Sorted Lia Lra.
From Flocq Require Import Core.
From Flocq Require Import IEEE754.BinarySingleNaN.
From Verif Require Import Base F64 Num M_Text M_Accum S_Accum M_Util M_Obs S_Obs L_Obs M_Fmt S_Fmt L_Fmt S_ObsFile L_ObsFile.
Import ListNotations.
Open Scope Z_scope.

(** C93: observables are named in the constructor or added, the headers are
    printed, and then there are any calls that add nothing new.  The file is
    a table with the keys in increasing order above the columns, and one row for
    each PrintAndReset.  The cell of a key is no number when nothing was measured
    for it since the previous PrintAndReset.  Otherwise it is a number within
    half a unit of the last printed digit, and 11 units of rounding, of the exact
    mean of the values measured since then.  The last cell is how many values
    were measured for the first key. *)
Theorem C93_rows :
  forall {K} (lt same : K -> K -> bool), strict_total lt -> (forall a b, same a b = true <-> a = b) ->
  forall fmt_key wr chk file indices more fs h g fs' outcomes,
  (forall k, clean (fmt_key k)) -> wr file = true -> indices ++ more <> [] ->
  Forall (fun c => match c with OHeaders => False | OAdd k => In k (indices ++ more) | OPrint p => 0 <= p | _ => True end) h ->
  Z.of_nat (List.length h) <= 2 ^ 49 ->
  og_run lt fmt_key fmt_sci wr chk (map OAdd more ++ OHeaders :: h) (og_new lt file indices) fs = (g, fs', outcomes) ->
  exists k0 ks text rows,
    StronglySorted (fun a b => lt a b = true) (k0 :: ks) /\ (forall k, In k (k0 :: ks) <-> In k (indices ++ more)) /\
    fs' file = Some text /\ table text = (map fmt_key (k0 :: ks) ++ [chars "Count"]) :: rows /\
    Forall2 (fun e row => let '(p, calls) := e in
      exists cells, row = cells ++ [put_int (Z.of_nat (List.length (measured same k0 calls)))] /\
      Forall2 (fun k cell => let vs := measured same k calls in
        (vs = [] -> forall v, ~ denotes cell v) /\
        (forall B, vs <> [] -> Forall (fun x => fin x /\ (Rabs (RR x) <= B)%R) vs -> (bpow radix2 (-900) <= B <= bpow radix2 960)%R ->
           exists v, denotes cell v /\ (Rabs (v - meanR (map RR vs)) <= (/ 2 * bpow ten (- p) + 11 * uro) * B)%R))
        (k0 :: ks) cells) (segments [] h) rows.
Proof.
  intros K lt same O Hs fmt_key wr chk file indices more fs h g fs' outcomes Ck W Ni Hh HL E.
  pose proof (adds_run lt fmt_key fmt_sci wr chk file fs (OHeaders :: h) more indices) as A. rewrite E in A. cbn [fst] in A.
  destruct (og_run lt fmt_key fmt_sci wr chk (OHeaders :: h) (og_new lt file (indices ++ more)) fs) as [[g2 fs2] os2] eqn:E2.
  injection A as <- <-.
  destruct (file_rows lt O same Hs fmt_key fmt_sci wr chk file (indices ++ more) fs h g fs' os2 Ck fmt_sci_clean W Ni) as (k0 & ks & text & S & I & F & _ & T);
    [eapply Forall_impl; [|exact Hh]; intros []; auto|lia|exact E2|].
  exists k0, ks, text, (map (row_text same fmt_sci k0 ks) (segments [] h)). split; [exact S|]. split; [exact I|]. split; [exact F|]. split; [exact T|].
  apply (segments_rows (List.length h)); [eapply Forall_impl; [|exact Hh]; intros []; auto| |cbn [List.length]; lia].
  intros p calls Hp Hc. exists (map (fun k => fmt_sci p (KahanMean numF (kahan_after (measured same k calls)))) (k0 :: ks)). split; [reflexivity|].
  apply Forall2_map_r. intros k. cbv zeta. split; [intros ->; apply empty_cell|].
  intros B N FB HB. apply mean_cell_error; auto. pose proof (measured_length same k calls). lia.
Qed.
Print Assumptions C93_rows.

(** Non-vacuity: two observables, two rows, a key without values, a throwing call. *)
Example C93_example :
  let h := [OMeasure 2 f1; OMeasure 2 (of_Z 2); OMeasure 7 f1; OMeasure 10 (of_Z 3); OPrint 2; OMeasure 10 (of_Z 4); OMeasure 10 (of_Z 5); OPrint 3] in
  let '(_, fs, o) := og_run Z.ltb put_int fmt_sci (fun _ => true) false (map OAdd [2] ++ OHeaders :: h) (og_new Z.ltb (chars "f") [10]) (fun _ => None) in
  List.length o = 10%nat /\ nth 4 o UB = Throw ExOutOfRange /\
  fs (chars "f") = Some (chars "2,10,Count" ++ [newline] ++ chars "1.50e+00,3.00e+00,2" ++ [newline] ++ chars "nan,4.500e+00,0" ++ [newline]) /\
  map (fun e => (fst e, List.length (measured Z.eqb 2 (snd e)), List.length (measured Z.eqb 10 (snd e)))) (segments [] h) = [(2, 2%nat, 1%nat); (3, 0%nat, 2%nat)].
Proof. vm_compute. repeat split. Qed.
