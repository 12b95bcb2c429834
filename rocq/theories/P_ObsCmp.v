(** Property theorems C116 (comparing the files of two groups of observables).
    Nothing else is proved here but lemmas named [obs_...]. *)
From Coq Require Import ZArith Reals List Bool Ascii String Sorted Lia Lra.
From Flocq Require Import Core.Core IEEE754.BinarySingleNaN.
From Verif Require Import Base F64 Num M_Text M_Accum S_Accum M_Util L_Util M_Obs S_Obs L_Obs M_Fmt S_Fmt L_Fmt S_ObsFile L_ObsFile L_MathF S_ObsCmp.
Import ListNotations.
Open Scope Z_scope.

Lemma obs_put_int_inj a b : 0 <= a -> 0 <= b -> put_int a = put_int b -> a = b.
Proof. intros Ha Hb E. apply (digits_text_fun (put_int a)); [now apply put_int_digits|rewrite E; now apply put_int_digits]. Qed.

Lemma obs_frame {K} (lt : K -> K -> bool) (O : strict_total lt) fmt_key fmt_mean wr chk file indices fs h g fs' os :
  og_run lt fmt_key fmt_mean wr chk h (og_new lt file indices) fs = (g, fs', os) -> forall p, p <> file -> fs' p = fs p.
Proof.
  intros E. assert (S0 : sorted lt (@nil (K * list f64))) by constructor.
  destruct (new_abs lt O indices [] S0) as (S & En & L). unfold og_new in E.
  change (@nil (K * kahan f64)) with (accs (@nil (K * list f64))) in E. rewrite En in E.
  set (m := fold_left _ indices []) in *. clearbody m.
  destruct (run_spec lt O fmt_key fmt_mean wr chk file h m fs (mkS (lookup lt m) (fs file)) S (conj (fun _ => eq_refl) eq_refl))
    as (m' & fs2 & os' & E2 & _ & F & _).
  rewrite E2 in E. injection E as _ <- _. exact F.
Qed.

Lemma obs_cons {A} (a b : A) l l' : a :: l = b :: l' -> a = b /\ l = l'.
Proof. intros [= -> ->]. now split. Qed.

Lemma obs_map_inj {A B} (f : A -> B) : (forall a b, f a = f b -> a = b) -> forall l l', map f l = map f l' -> l = l'.
Proof. intros I. induction l as [|a l IH]; intros [|b l'] E; try discriminate E; [reflexivity|]. injection E as E1 E2. f_equal; auto. Qed.

Lemma obs_map_eq {A B} (f g : A -> B) l : map f l = map g l <-> forall a, In a l -> f a = g a.
Proof.
  split; [|apply map_ext_in]. induction l as [|x l IH]; intros E a Ha; [destruct Ha|]. injection E as E1 E2. destruct Ha as [<-|Ha]; auto.
Qed.

Lemma obs_rows {K} (lt same : K -> K -> bool) k0 ks keys p (s s' : list (Z * list (ogcall (K:=K)))) : 16 <= p ->
  (forall k, In k (k0 :: ks) <-> In k keys) -> (forall k, first_key lt keys k <-> k = k0) ->
  Forall (fun e => fst e = p) s -> Forall (fun e => fst e = p) s' ->
  map (row_text same fmt_sci k0 ks) s = map (row_text same fmt_sci k0 ks) s' <-> Forall2 (same_results lt same keys) s s'.
Proof.
  intros Hp I F1. revert s'. induction s as [|e s IH]; intros s' Fs Fs'.
  - destruct s' as [|e' s']; cbn [map]; split; intros E; try discriminate E; [constructor|reflexivity|inversion E].
  - destruct s' as [|e' s']; cbn [map]; [split; intros E; [discriminate E|inversion E]|].
    inversion Fs as [|? ? P1 Fs1]; subst. inversion Fs' as [|? ? P2 Fs2]; subst.
    assert (R : row_text same fmt_sci k0 ks e = row_text same fmt_sci k0 ks e' <-> same_results lt same keys e e').
    { unfold row_text, same_results. rewrite P2. split.
      - intros E. apply app_inj_tail in E as [E C]. apply obs_put_int_inj in C; [|lia|lia]. split.
        + intros k Hk. apply I in Hk. rewrite obs_map_eq in E. exact (fmt_sci_inj _ _ _ Hp (E k Hk)).
        + intros k Hk. apply F1 in Hk. subst k. lia.
      - intros [E C]. rewrite (C k0) by now apply F1. f_equal. apply map_ext_in. intros k Hk. f_equal. apply E. now apply I. }
    split.
    + intros E. apply obs_cons in E as [E1 E2]. constructor; [apply R; exact E1|]. apply IH; assumption.
    + intros E. inversion E; subst. f_equal; [apply R; assumption|]. apply IH; assumption.
Qed.

Lemma obs_prints {K} p (h : list (ogcall (K:=K))) : Forall (fun c => match c with OPrint q => q = p | _ => True end) h ->
  forall old, Forall (fun e => fst e = p) (segments old h).
Proof. intros F. induction F as [|c h Hc F IH]; intros old; [constructor|]. destruct c; cbn [segments]; try apply IH. constructor; [exact Hc|apply IH]. Qed.

(** Two programs print the headers of their groups and then measure, add known
    observables and print with at least 16 digits after the point, in any order.  The
    files compare equal exactly if the observables are the same, and print for print
    the accumulators reported the same doubles and the first observable had been
    measured equally often. *)
Theorem C116_files_equal :
  forall {K} (lt same : K -> K -> bool), strict_total lt -> (forall a b, same a b = true <-> a = b) ->
  forall fmt_key wr chk chk' file file' keys keys' p fs h h' g fs1 os g' fs2 os',
  (forall k, clean (fmt_key k)) -> (forall k l, fmt_key k = fmt_key l -> k = l) -> 16 <= p ->
  wr file = true -> wr file' = true -> file <> file' -> keys <> [] -> keys' <> [] ->
  Forall (fun c => match c with OHeaders => False | OAdd k => In k keys | OPrint q => q = p | OMeasure _ _ => True end) h ->
  Forall (fun c => match c with OHeaders => False | OAdd k => In k keys' | OPrint q => q = p | OMeasure _ _ => True end) h' ->
  Z.of_nat (List.length h) <= 2 ^ 53 -> Z.of_nat (List.length h') <= 2 ^ 53 ->
  og_run lt fmt_key fmt_sci wr chk (OHeaders :: h) (og_new lt file keys) fs = (g, fs1, os) ->
  og_run lt fmt_key fmt_sci wr chk' (OHeaders :: h') (og_new lt file' keys') fs1 = (g', fs2, os') ->
  compare_files fs2 file file' = Ok true <->
  (forall k, In k keys <-> In k keys') /\ Forall2 (same_results lt same keys) (segments [] h) (segments [] h').
Proof.
  intros K lt same O Hs fmt_key wr chk chk' file file' keys keys' p fs h h' g fs1 os g' fs2 os' Ck Ik Hp W W' Nf N N' Hh Hh' HL HL' E E'.
  assert (Weak : forall ks h, Forall (fun c => match c with OHeaders => False | OAdd k => In k ks | OPrint q => q = p | OMeasure _ _ => True end) h ->
    Forall (fun c : ogcall (K:=K) => match c with OHeaders => False | OAdd k => In k ks | _ => True end) h /\
    Forall (fun c : ogcall (K:=K) => match c with OPrint q => q = p | _ => True end) h).
  { intros ks l F. split; (eapply Forall_impl; [|exact F]); intros []; auto. }
  destruct (Weak _ _ Hh) as [Hw Hpr]. destruct (Weak _ _ Hh') as [Hw' Hpr'].
  destruct (file_rows lt O same Hs fmt_key fmt_sci wr chk file keys fs h g fs1 os Ck fmt_sci_clean W N Hw HL E) as (k0 & ks & text & S & I & F & X & T).
  destruct (file_rows lt O same Hs fmt_key fmt_sci wr chk' file' keys' fs1 h' g' fs2 os' Ck fmt_sci_clean W' N' Hw' HL' E') as (k0' & ks' & text' & S' & I' & F' & X' & T').
  assert (F2 : fs2 file = Some text) by (rewrite (obs_frame lt O _ _ _ _ _ _ _ _ _ _ _ E' file Nf); exact F).
  assert (FK : forall k, first_key lt keys k <-> k = k0).
  { intros k. unfold first_key. split.
    - intros [H1 H2]. apply I in H1. destruct H1 as [->|H1]; [reflexivity|]. inversion S as [|? ? _ G]; subst. rewrite Forall_forall in G.
      specialize (H2 k0 (proj1 (I k0) (or_introl eq_refl))). rewrite (G k H1) in H2. discriminate.
    - intros ->. split; [apply I; now left|]. intros k' H1. apply I in H1. destruct H1 as [<-|H1]; [apply (st_irrefl lt O)|].
      inversion S as [|? ? _ G]; subst. rewrite Forall_forall in G. destruct (lt k' k0) eqn:Q; [|reflexivity].
      pose proof (st_trans lt O _ _ _ Q (G k' H1)) as Y. rewrite (st_irrefl lt O) in Y. discriminate. }
  destruct (compare_files_spec fs2 file file') as (b & -> & Hb).
  assert (TT : b = true <-> table text = table text').
  { rewrite Hb, F2, F'. split; [intros (f & [= ->] & [= ->]); reflexivity|]. intros Q. exists text. split; [reflexivity|]. f_equal. now rewrite X, X', Q. }
  transitivity (b = true); [split; congruence|]. rewrite TT, T, T'.
  assert (KK : (forall k, In k keys <-> In k keys') <-> k0 :: ks = k0' :: ks').
  { split.
    - intros Q. apply (sorted_unique lt O); [exact S|exact S'|]. intros k. now rewrite I, I', Q.
    - intros Q k. now rewrite <- I, <- I', Q. }
  split.
  - intros Q. apply obs_cons in Q as [Q Q3]. apply app_inj_tail in Q as [Q _].
    apply (obs_map_inj fmt_key Ik) in Q. split; [now apply KK|]. injection Q as <- <-.
    apply (obs_rows lt same k0 ks keys p); auto using obs_prints.
  - intros [Q R]. apply KK in Q. injection Q as <- <-. f_equal.
    apply (obs_rows lt same k0 ks keys p); auto using obs_prints.
Qed.
Print Assumptions C116_files_equal.

(** The same values in the same order between the prints: equal files, whatever the order of the
    calls for different observables, and whether or not overflows are checked. *)
Theorem C116_reproducible :
  forall {K} (lt same : K -> K -> bool), strict_total lt -> (forall a b, same a b = true <-> a = b) ->
  forall fmt_key wr chk chk' file file' keys keys' p fs h h' g fs1 os g' fs2 os',
  (forall k, clean (fmt_key k)) -> (forall k l, fmt_key k = fmt_key l -> k = l) -> 16 <= p ->
  wr file = true -> wr file' = true -> file <> file' -> keys <> [] -> (forall k, In k keys <-> In k keys') ->
  Forall (fun c => match c with OHeaders => False | OAdd k => In k keys | OPrint q => q = p | OMeasure _ _ => True end) h ->
  Forall (fun c => match c with OHeaders => False | OAdd k => In k keys' | OPrint q => q = p | OMeasure _ _ => True end) h' ->
  Z.of_nat (List.length h) <= 2 ^ 53 -> Z.of_nat (List.length h') <= 2 ^ 53 ->
  og_run lt fmt_key fmt_sci wr chk (OHeaders :: h) (og_new lt file keys) fs = (g, fs1, os) ->
  og_run lt fmt_key fmt_sci wr chk' (OHeaders :: h') (og_new lt file' keys') fs1 = (g', fs2, os') ->
  Forall2 (fun e e' => forall k, In k keys -> measured same k (snd e) = measured same k (snd e')) (segments [] h) (segments [] h') ->
  compare_files fs2 file file' = Ok true.
Proof.
  intros K lt same O Hs fmt_key wr chk chk' file file' keys keys' p fs h h' g fs1 os g' fs2 os' Ck Ik Hp W W' Nf N Q Hh Hh' HL HL' E E' M.
  assert (N' : keys' <> []).
  { destruct keys as [|k l]; [congruence|]. intros ->. apply (proj1 (Q k)). now left. }
  apply (C116_files_equal lt same O Hs fmt_key wr chk chk' file file' keys keys' p fs h h' g fs1 os g' fs2 os'); auto.
  split; [exact Q|]. clear E E' Hh Hh' HL HL'. induction M as [|e e' l l' R M IH]; constructor; [|exact IH]. split.
  - intros k Hk. now rewrite (R k Hk).
  - intros k [Hk _]. now rewrite (R k Hk).
Qed.
Print Assumptions C116_reproducible.

(** With the default precision of 10 digits, and still with 15, different results can go
    unnoticed. *)
Theorem C116_fifteen_digits_refuted :
  exists x y, fin x /\ fin y /\ RR x <> RR y /\ forall p, In p [10; 15] ->
  let '(_, fs1, _) := og_run Z.ltb put_int fmt_sci (fun _ => true) false [OHeaders; OMeasure 1 x; OPrint p] (og_new Z.ltb (chars "f") [1]) (fun _ => None) in
  let '(_, fs2, _) := og_run Z.ltb put_int fmt_sci (fun _ => true) false [OHeaders; OMeasure 1 y; OPrint p] (og_new Z.ltb (chars "g") [1]) fs1 in
  compare_files fs2 (chars "f") (chars "g") = Ok true.
Proof.
  destruct (RR_dyad 1 0) as [A B]; [lia|lia|]. destruct (RR_dyad (2 ^ 52 + 1) (-52)) as [C D]; [lia|lia|].
  exists (dyad 1 0), (dyad (2 ^ 52 + 1) (-52)). split; [exact B|]. split; [exact D|]. split.
  - rewrite A, C. unfold F2R. cbn [Fnum Fexp]. cbn -[IZR Rmult]. intros E. lra.
  - intros p [<-|[<-|[]]]; vm_compute; reflexivity.
Qed.
Print Assumptions C116_fifteen_digits_refuted.

(** Keys in another order, calls in another order, checked and unchecked; and a run that
    differs by one unit in the last place of one value. *)
Example C116_example :
  let run chk file keys h fs := og_run Z.ltb put_int fmt_sci (fun _ => true) chk (OHeaders :: h) (og_new Z.ltb (chars file) keys) fs in
  let x := dyad (2 ^ 52 + 1) (-52) in
  let '(_, fs1, _) := run false "a"%string [1; 5] [OMeasure 1 f1; OMeasure 5 x; OPrint 16] (fun _ => None) in
  let '(_, fs2, _) := run true "b"%string [5; 1; 5] [OMeasure 5 x; OAdd 1; OMeasure 1 f1; OPrint 16] fs1 in
  let '(_, fs3, _) := run false "c"%string [1; 5] [OMeasure 1 x; OMeasure 5 x; OPrint 16] fs2 in
  compare_files fs3 (chars "a") (chars "b") = Ok true /\ compare_files fs3 (chars "a") (chars "c") = Ok false.
Proof. vm_compute. split; reflexivity. Qed.
