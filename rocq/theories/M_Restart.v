(** A client program that archives one object, is stopped and starts again.
    This is not code of the library but of its clients, as the serialize members
    are meant to be used (KahanAccumulator.hpp:109-118, NeumaierAccumulator.hpp:114-123,
    KnuthWelfordAccumulator.hpp:163-173, WestAccumulator.hpp:168-179,
    NaiveIntegerAccumulator.hpp:159-168, HistAccumulator.hpp:196-204,
    MoveStats.hpp:200-212, ObservableGroup.hpp:157-167).  [W] is what the calls
    change outside the object and what a restart leaves as it is, such as files. *)
From Coq Require Import List.
From Verif Require Import Base M_Archive S_Accum S_Restart.
Import ListNotations.

Section Client.
Context {C S W : Type}.
(** A call on the object; the client catches exceptions. *)
Context (call : S -> W -> C -> S * W * out unit).
Context (save : S -> list tok) (load : S -> loader S) (first : S).

(** The calls one after the other; [None]: a call is undefined or does not return. *)
Fixpoint straight (l : list C) (s : S) (w : W) : option (S * W) :=
  match l with
  | [] => Some (s, w)
  | c :: l' =>
      match call s w c with
      | (s', w', Ok _) | (s', w', Throw _) => straight l' s' w'
      | _ => None
      end
  end.

(** With saves and restarts; [file] is what was saved last. *)
Fixpoint client (h : list (event C S)) (s : S) (w : W) (file : option (list tok)) : option (S * W) :=
  match h with
  | [] => Some (s, w)
  | Do c :: h' =>
      match call s w c with
      | (s', w', Ok _) | (s', w', Throw _) => client h' s' w' file
      | _ => None
      end
  | Save :: h' => client h' s w (Some (save s))
  | Restart t :: h' =>
      match file with
      | None => client h' first w None
      | Some f => match load t f with Some (s', _) => client h' s' w file | None => None end
      end
  end.
End Client.

(** An object whose calls change nothing but the object. *)
Definition alone {C S} (call : S -> C -> S * out unit) (s : S) (w : unit) (c : C) : S * unit * out unit :=
  let '(s', o) := call s c in (s', w, o).

(** The calls on an accumulator. *)
Definition acc_call {S X} (add : S -> X -> S * out unit) (reset : S -> S) (a : S) (c : call X) : S * out unit :=
  match c with CAdd x => add a x | CReset => (reset a, Ok tt) end.
