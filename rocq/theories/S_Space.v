(** Specification of a sequence generator: a position in a sequence of values. *)
From Coq Require Import ZArith List.
From Verif Require Import Base Num M_Space.
Import ListNotations.
Open Scope Z_scope.

Section Seq.
Context {T : Type} (value : nat -> T).

(** The [n] values from position [k] on. *)
Definition from (k n : nat) : list T := map value (seq k n).

(** What a call shows at position [k], and the new position. *)
Definition seq_call (k : nat) (c : spcall) : list T * nat :=
  match c with
  | ScCall => ([value k], S k)
  | ScPre => ([value (S k)], S k)
  | ScPost => ([value k], S k)
  | ScDeref => ([value k], k)
  | ScCollect n => (from k (Z.to_nat n), k)
  end.

Fixpoint seq_calls (h : list spcall) (k : nat) : list (list T) * nat :=
  match h with
  | [] => ([], k)
  | c :: h' => let '(v, k1) := seq_call k c in let '(vs, k2) := seq_calls h' k1 in (v :: vs, k2)
  end.
End Seq.

(** The sequence of a LinSpace; positions are counted modulo 2^64. *)
Definition lin_value {T} (N : num T) (first last : T) (steps : Z) (k : nat) : T :=
  match k with
  | O => first
  | _ => n_add N first (n_mul N (n_div N (n_sub N last first) (n_ofZ N steps)) (n_ofZ N (u64 (Z.of_nat k))))
  end.

(** The sequence of a LogSpace: repeated multiplication. *)
Fixpoint log_value {T} (N : num T) (first base : T) (k : nat) : T :=
  match k with O => first | S k' => n_mul N (log_value N first base k') base end.
