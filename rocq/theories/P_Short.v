(** Properties of doubles printed with fmt's default format (C86). *)
From Coq Require Import ZArith Reals List Bool Ascii String Lia.
From Flocq Require Import Core.
From Flocq Require Import IEEE754.BinarySingleNaN.
From Verif Require Import Base F64 Num M_Text M_Util M_Obs S_Obs M_MathInt M_Grid M_Bravais M_Lattice S_Math S_Grid S_Bravais S_Lattice S_LatticeF S_Fmt M_Fmt M_Short S_Short L_Lattice L_LatticeF L_Fmt L_Short P_Lattice.
Import ListNotations.
Open Scope Z_scope.

(** C86: a finite double is printed as a literal with its sign for a number that is
    read back as this double; no other reading of the text is possible, and the
    number is the shortest such, the nearest among the shortest. *)
Theorem C86_text : forall dot0 x, fin x ->
  exists v, (forall s w, spells (fmt_short dot0 x) s w <-> s = Bsign x /\ w = v) /\ shortest_for (RR x) v.
Proof.
  intros d x Fx. destruct (fmt_short_spec d x Fx) as (v & W & S). exists v. split; [|exact S]. intros s w. split.
  - intros H. apply (spells_fun _ _ _ _ _ H W).
  - intros [-> ->]. exact W.
Qed.
Print Assumptions C86_text.

(** C86: seventeen significant digits are enough. *)
Theorem C86_length : forall dot0 x v s, fin x -> spells (fmt_short dot0 x) s v -> decimal 16 v.
Proof. exact fmt_short_digits. Qed.
Print Assumptions C86_length.

(** C86: different doubles have different texts, the signs of zeros and the
    infinities included. *)
Theorem C86_distinguishes : forall dot0 x y, fmt_short dot0 x = fmt_short dot0 y -> x = y.
Proof. exact fmt_short_inj. Qed.
Print Assumptions C86_distinguishes.

(** C86: the exponent notation is used exactly for numbers below 10^-4 and from 10^16
    on; without the .0 of old versions no zero is written that could be left out after
    the point. *)
Theorem C86_layout : forall dot0 x v, fin x -> spells (fmt_short dot0 x) (Bsign x) v ->
  (In "e"%char (fmt_short dot0 x) <-> v <> 0%R /\ ~ (bpow ten (-4) <= Rabs v < bpow ten 16)%R) /\
  (dot0 = false -> forall s n f k, literal (fmt_short dot0 x) s n f k -> 0 < f -> n mod 10 <> 0).
Proof. exact fmt_short_layout. Qed.
Print Assumptions C86_layout.

(** C86: what is not finite has its own three texts. *)
Theorem C86_not_finite : forall dot0 x,
  (fmt_short dot0 x = chars "inf" <-> x = finf) /\ (fmt_short dot0 x = chars "-inf" <-> x = fopp finf) /\ (fmt_short dot0 x = chars "nan" <-> x = fnan).
Proof.
  intros d x. split; [|split]; (split; [|now intros ->]); intros H.
  - apply (fmt_short_inj d). now rewrite H.
  - apply (fmt_short_inj d). now rewrite H.
  - apply (fmt_short_inj d). now rewrite H.
Qed.
Print Assumptions C86_not_finite.

Example C86_example :
  map (fmt_short false) [f1; fdiv f1 (of_Z 10); fopp (fdiv f1 (of_Z 3)); of_Z 123456789012345678; of_Z 1000000000000000; of_Z 10000000000000000;
    fdiv (of_Z 3) (of_Z 200000); fdiv f1 (of_Z 10000); fdiv (of_Z 25) (of_Z 2); fopp f0; dyad 1 (-1074); dyad 9007199254740991 971; fadd (fdiv f1 (of_Z 10)) (fdiv (of_Z 2) (of_Z 10))] =
  map chars ["1"; "0.1"; "-0.3333333333333333"; "1.2345678901234568e+17"; "1000000000000000"; "1e+16"; "1.5e-05"; "0.0001"; "12.5"; "-0"; "5e-324";
    "1.7976931348623157e+308"; "0.30000000000000004"]%string /\
  map (fmt_short true) [f1; of_Z 1000000000000000; of_Z 10000000000000000; f0] = map chars ["1.0"; "1000000000000000.0"; "1e+16"; "0.0"]%string.
Proof. vm_compute. repeat split. Qed.

(** C86: the files of positions, distance vectors and momenta hold the vectors of the
    lattice: every cell is read back as the double the lattice returns. *)
Theorem C86_files : forall dot0 pi wr B size cl, lattice_ok B size ->
  exists L p v m, Lattice numF pi B size cl = Ok L /\
  (forall i, valid_site size i -> GetPosition L i = Ok (p i) /\ GetVector L 0 i = Ok (v i) /\ (cl = true -> GetMomentum L i = Ok (m i))) /\
  forall fs fname, wr fname = true ->
  file_holds (SavePositions (fmt_short dot0) wr L fs fname) fname (prodZ size) (vsize size) p /\
  file_holds (SaveDistances (fmt_short dot0) wr L fs fname) fname (prodZ size) (vsize size) v /\
  (cl = true -> file_holds (SaveMomenta (fmt_short dot0) wr L fs fname) fname (prodZ size) (vsize size) m).
Proof.
  intros d pi wr B size cl H. destruct (C41_site_files f64 numF pi (fmt_short d) wr B size cl (fmt_short_clean d) H) as (L & p & v & m & EL & G & S).
  exists L, p, v, m. split; [exact EL|]. split; [intros i Hi; destruct (G i Hi) as (A & _ & C & _ & E); repeat split; auto; intros Hc; now apply E|].
  assert (D0 : 0 <= vsize size) by (unfold vsize; lia). assert (N0 : 0 <= prodZ size) by (pose proof H as (_ & _ & _ & Hok & _); pose proof (grid_sites size cl Hok); lia).
  intros fs fname W. destruct (S fs fname W) as (S1 & S2 & S3). split; [|split].
  - apply (saved_holds d fs fname _ "x"); [exact D0|exact N0|exact S1|]. intros i Hi. now apply G.
  - apply (saved_holds d fs fname _ "d"); [exact D0|exact N0|exact S2|]. intros i Hi. now apply G.
  - intros Hc. apply (saved_holds d fs fname _ "k"); [exact D0|exact N0|now apply S3|]. intros i Hi. now apply G.
Qed.
Print Assumptions C86_files.

(** C86: nothing is lost: lattices that write the same file have the same positions
    (likewise distance vectors, momenta). *)
Theorem C86_files_determine : forall dot0 pi wr B size cl B' size' cl' L L' fs fs' fname r r',
  lattice_ok B size -> lattice_ok B' size' -> wr fname = true ->
  Lattice numF pi B size cl = Ok L -> Lattice numF pi B' size' cl' = Ok L' ->
  forall save get, In (save, get) [(SavePositions (fmt_short dot0) wr, GetPosition); (SaveDistances (fmt_short dot0) wr, fun L => GetVector L 0)] \/
    cl = true /\ cl' = true /\ (save, get) = (SaveMomenta (fmt_short dot0) wr, GetMomentum) ->
  save L fs fname = Ok r -> save L' fs' fname = Ok r' -> r fname = r' fname ->
  prodZ size = prodZ size' /\ forall i, valid_site size i -> get L i = get L' i.
Proof.
  intros d pi wr B size cl B' size' cl' L L' fs fs' fname r r' H H' W EL EL' save get Hs E E' Er.
  destruct (C41_site_files f64 numF pi (fmt_short d) wr B size cl (fmt_short_clean d) H) as (L0 & p & v & m & EL0 & G & S). rewrite EL in EL0. injection EL0 as <-.
  destruct (C41_site_files f64 numF pi (fmt_short d) wr B' size' cl' (fmt_short_clean d) H') as (L0 & p' & v' & m' & EL0 & G' & S'). rewrite EL' in EL0. injection EL0 as <-.
  destruct (S fs fname W) as (S1 & S2 & S3). destruct (S' fs' fname W) as (S1' & S2' & S3').
  assert (N0 : 0 <= prodZ size) by (pose proof H as (_ & _ & _ & Hok & _); pose proof (grid_sites size cl Hok); lia).
  assert (N0' : 0 <= prodZ size') by (pose proof H' as (_ & _ & _ & Hok & _); pose proof (grid_sites size' cl' Hok); lia).
  destruct Hs as [[Hs|[Hs|[]]]|(Hc & Hc' & Hs)]; [injection Hs as <- <-|injection Hs as <- <-|injection Hs as -> ->].
  - destruct (saved_same d fs fs' fname _ _ r r' _ _ _ _ _ _ _ N0 N0' S1 S1' E E' Er) as [N P]. split; [exact N|]. intros i Hi.
    rewrite (proj1 (G i Hi)), (P i Hi). symmetry. apply G'. unfold valid_site in *. now rewrite <- N.
  - destruct (saved_same d fs fs' fname _ _ r r' _ _ _ _ _ _ _ N0 N0' S2 S2' E E' Er) as [N P]. split; [exact N|]. intros i Hi.
    destruct (G i Hi) as (_ & _ & -> & _). rewrite (P i Hi). symmetry. apply G'. unfold valid_site in *. now rewrite <- N.
  - destruct (saved_same d fs fs' fname _ _ r r' _ _ _ _ _ _ _ N0 N0' (S3 Hc) (S3' Hc') E E' Er) as [N P]. split; [exact N|]. intros i Hi.
    destruct (G i Hi) as (_ & _ & _ & _ & Em). destruct (Em Hc) as [-> _]. rewrite (P i Hi). symmetry. assert (Hi' : valid_site size' i) by (unfold valid_site in *; now rewrite <- N).
    destruct (G' i Hi') as (_ & _ & _ & _ & Em'). now destruct (Em' Hc').
Qed.
Print Assumptions C86_files_determine.

Example C86_example_file :
  lattice_ok (TriangularLattice numF) [2; 2] /\
  (L <- Lattice numF pi_d (TriangularLattice numF) [2; 2] true ;; fs <- SavePositions (fmt_short false) (fun _ => true) L (fun _ => None) (chars "f") ;;
   Ok (fs (chars "f"))) = Ok (Some (List.concat (map (fun l => chars l ++ [newline]) ["i,x0,x1"; "0,0,0"; "1,0.5,0.8660254037844386"; "2,1,0"; "3,1.5,0.8660254037844386"]%string))).
Proof. split; [standard_lattice|vm_compute; reflexivity]. Qed.
