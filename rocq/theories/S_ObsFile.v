(** Specification of the numbers in the file of a group of observables. *)
From Coq Require Import ZArith List Bool Ascii.
From Verif Require Import Base F64 M_Obs.
Import ListNotations.

Section Segments.
Context {K : Type} (same : K -> K -> bool).

(** The calls between one PrintAndReset and the next, with the number of digits
    asked for by the later one; [old] are calls made before the history. *)
Fixpoint segments (old : list (ogcall (K:=K))) (h : list (ogcall (K:=K))) : list (Z * list ogcall) :=
  match h with
  | [] => []
  | OPrint p :: h' => (p, old) :: segments [] h'
  | c :: h' => segments (old ++ [c]) h'
  end.

(** The values measured for a key, in the order of the calls. *)
Fixpoint measured (k : K) (h : list (ogcall (K:=K))) : list f64 :=
  match h with
  | [] => []
  | OMeasure k' x :: h' => if same k' k then x :: measured k h' else measured k h'
  | _ :: h' => measured k h'
  end.
End Segments.
