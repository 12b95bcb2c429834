(** Specification of the files written by lattices: tables of cells. *)
From Coq Require Import ZArith List Ascii String.
From Verif Require Import Base M_Text M_Util M_Obs S_Obs.
Import ListNotations.
Open Scope Z_scope.

(** After the call the file holds the lines of [rows], which is also what reading
    it back as a table gives; no other file is touched. *)
Definition saved (fs : filesystem) (fname : list ascii) (r : out filesystem) (rows : list (list (list ascii))) : Prop :=
  exists fs' text, r = Ok fs' /\ fs' fname = Some text /\ (forall f, f <> fname -> fs' f = fs f) /\
  text = List.concat (map line rows) /\ table text = rows.

(** Column titles c0, c1, ... *)
Definition titles (c : ascii) (d : Z) : list (list ascii) := map (fun k => c :: put_int k) (upto d).

(** One row per site: its number, then its vector. *)
Definition site_rows {T} (fmt : T -> list ascii) (c : ascii) (d n : Z) (p : Z -> list T) : list (list (list ascii)) :=
  (chars "i" :: titles c d) :: map (fun i => put_int i :: map fmt (p i)) (upto n).

(** One row per ordered pair: its number, the sites, their vectors, and the vector between them. *)
Definition pair_rows {T} (fmt : T -> list ascii) (d n : Z) (v : Z -> Z -> list T) : list (list (list ascii)) :=
  (chars "i" :: chars "a" :: chars "b" :: titles "x" d ++ titles "y" d ++ titles "d" d) ::
  map (fun i => let a := i mod n in let b := i / n in
    put_int i :: put_int a :: put_int b :: map fmt (v 0 a) ++ map fmt (v 0 b) ++ map fmt (v a b)) (upto (n * n)).
