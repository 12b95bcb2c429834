(** Properties of pair files read back (C86). *)
From Coq Require Import ZArith Reals List Bool Ascii String Lia.
From Verif Require Import Base F64 Num M_Text M_Util M_Obs S_Obs M_MathInt M_Grid M_Bravais M_Lattice S_Math S_Grid S_Bravais S_Lattice S_LatticeF S_Fmt M_Fmt M_Short S_Short S_Pfile L_Lattice L_LatticeF L_Short L_Pfile P_Lattice.
Import ListNotations.
Open Scope Z_scope.

(** C86: the pair file of a closed lattice has one row for each ordered pair of sites;
    the vectors in it are read back as the doubles the lattice returns. *)
Theorem C86_pair_file : forall dot0 pi wr B size, lattice_ok B size -> prodZ size < 2 ^ 32 ->
  exists L v, Lattice numF pi B size true = Ok L /\
  (forall a b, valid_site size a -> valid_site size b -> GetVector L a b = Ok (v a b)) /\
  forall fs fname, wr fname = true -> pair_file_holds (SavePairs (fmt_short dot0) wr L fs fname) fname (prodZ size) (vsize size) v.
Proof.
  intros d pi wr B size H Hn. destruct (C41_pair_file f64 numF pi (fmt_short d) wr B size (fmt_short_clean d) H Hn) as (L & v & EL & G & S).
  exists L, v. split; [exact EL|]. split; [intros a b Ha Hb; now apply G|]. intros fs fname W.
  assert (N0 : 0 <= prodZ size) by (pose proof H as (_ & _ & _ & Hok & _); pose proof (grid_sites size true Hok); lia).
  apply (saved_pairs_hold d fs); [unfold vsize; lia|exact N0|now apply S|]. intros a b Ha Hb. now apply G.
Qed.
Print Assumptions C86_pair_file.

(** C86: closed lattices that write the same pair file have the same vectors between
    all pairs of sites. *)
Theorem C86_pair_file_determines : forall dot0 pi wr B size B' size' L L' fs fs' fname r r',
  lattice_ok B size -> lattice_ok B' size' -> prodZ size < 2 ^ 32 -> prodZ size' < 2 ^ 32 -> wr fname = true ->
  Lattice numF pi B size true = Ok L -> Lattice numF pi B' size' true = Ok L' ->
  SavePairs (fmt_short dot0) wr L fs fname = Ok r -> SavePairs (fmt_short dot0) wr L' fs' fname = Ok r' -> r fname = r' fname ->
  prodZ size = prodZ size' /\ forall a b, valid_site size a -> valid_site size b -> GetVector L a b = GetVector L' a b.
Proof.
  intros d pi wr B size B' size' L L' fs fs' fname r r' H H' Hn Hn' W EL EL' E E' Er.
  destruct (C41_pair_file f64 numF pi (fmt_short d) wr B size (fmt_short_clean d) H Hn) as (L0 & v & EL0 & G & S). rewrite EL in EL0. injection EL0 as <-.
  destruct (C41_pair_file f64 numF pi (fmt_short d) wr B' size' (fmt_short_clean d) H' Hn') as (L0 & v' & EL0 & G' & S'). rewrite EL' in EL0. injection EL0 as <-.
  assert (N0 : 0 <= prodZ size) by (pose proof H as (_ & _ & _ & Hok & _); pose proof (grid_sites size true Hok); lia).
  assert (N0' : 0 <= prodZ size') by (pose proof H' as (_ & _ & _ & Hok & _); pose proof (grid_sites size' true Hok); lia).
  assert (V : forall a b, 0 <= a < prodZ size -> 0 <= b < prodZ size -> vsize (v a b) = vsize size) by (intros a b Ha Hb; now apply G).
  assert (V' : forall a b, 0 <= a < prodZ size' -> 0 <= b < prodZ size' -> vsize (v' a b) = vsize size') by (intros a b Ha Hb; now apply G').
  assert (D0 : 0 <= vsize size) by (unfold vsize; lia). assert (D0' : 0 <= vsize size') by (unfold vsize; lia).
  destruct (saved_pairs_same d fs fs' fname _ _ r r' _ _ _ _ _ _ N0 N0' D0 D0' (S fs fname W) (S' fs' fname W) V V' E E' Er) as [N P].
  split; [exact N|]. intros a b Ha Hb. destruct (G a b Ha Hb) as [-> _]. rewrite (P a b Ha Hb). symmetry.
  apply G'; unfold valid_site in *; now rewrite <- N.
Qed.
Print Assumptions C86_pair_file_determines.

Example C86_pair_file_ex :
  lattice_ok (SquareLattice numF) [1; 2] /\ prodZ [1; 2] < 2 ^ 32 /\
  (L <- Lattice numF pi_d (SquareLattice numF) [1; 2] true ;; fs <- SavePairs (fmt_short false) (fun _ => true) L (fun _ => None) (chars "f") ;;
   Ok (fs (chars "f"))) = Ok (Some (List.concat (map (fun l => chars l ++ [newline])
     ["i,a,b,x0,x1,y0,y1,d0,d1"; "0,0,0,0,0,0,0,0,0"; "1,1,0,0,1,0,0,0,1"; "2,0,1,0,0,0,1,0,1"; "3,1,1,0,1,0,1,0,0"]%string))).
Proof. split; [standard_lattice|]. split; [reflexivity|]. vm_compute. reflexivity. Qed.
