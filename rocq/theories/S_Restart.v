(** Specification of a program that is stopped and started again: which of its
    calls survive.  Calls made after the last save are lost with a restart. *)
From Coq Require Import List.
Import ListNotations.

Section Restart.
Context {C T : Type}.

(** A call, a save, or a stop followed by a start that loads what was saved into
    the object [t]. *)
Inductive event := Do (c : C) | Save | Restart (t : T).

(** [kept]: the calls before the last save; [recent]: those since. *)
Fixpoint surviving (kept recent : list C) (h : list event) : list C :=
  match h with
  | [] => kept ++ recent
  | Do c :: h' => surviving kept (recent ++ [c]) h'
  | Save :: h' => surviving (kept ++ recent) [] h'
  | Restart _ :: h' => surviving kept [] h'
  end.

Fixpoint lost (recent : list C) (h : list event) : list C :=
  match h with
  | [] => []
  | Do c :: h' => lost (recent ++ [c]) h'
  | Save :: h' => lost [] h'
  | Restart _ :: h' => recent ++ lost [] h'
  end.

(** The objects that are loaded into. *)
Definition targets (h : list event) : list T :=
  flat_map (fun e => match e with Restart t => [t] | _ => [] end) h.
End Restart.
Arguments event : clear implicits.
