(** Specification of move statistics: is a proposal pending, and which outcomes
    (with their probabilities) were recorded since the last Reset. *)
From Coq Require Import ZArith List Bool.
From Verif Require Import Base F64 M_Accum M_Move.
Import ListNotations.
Open Scope Z_scope.

Inductive outcome := Oaccepted (p : f64) | Orejected (p : f64) | Oimpossible.

Record journal := mkJ { j_pending : bool; j_outcomes : list outcome }.

Definition prob_of (o : outcome) : f64 :=
  match o with Oaccepted p | Orejected p => p | Oimpossible => f0 end.

Definition is_acc o := match o with Oaccepted _ => true | _ => false end.
Definition is_rej o := match o with Orejected _ => true | _ => false end.
Definition is_imp o := match o with Oimpossible => true | _ => false end.
Definition count_if (f : outcome -> bool) (l : list outcome) : Z := Z.of_nat (length (filter f l)).

(** Record an outcome; refused unless a proposal is pending. *)
Definition settle (j : journal) (o : outcome) : journal :=
  if j_pending j then mkJ false (j_outcomes j ++ [o]) else j.

Definition journal_call (j : journal) (c : mcall) : journal :=
  match c with
  | McPropose => mkJ true (j_outcomes j)
  | McAccept p => settle j (Oaccepted p)
  | McReject p => settle j (Orejected p)
  | McImpossible => settle j Oimpossible
  | McAdd (mkMR st p) =>
      if j_pending j then j
      else if st =? Accepted then mkJ false (j_outcomes j ++ [Oaccepted p])
      else if st =? Rejected then mkJ false (j_outcomes j ++ [Orejected p])
      else if st =? Impossible then mkJ false (j_outcomes j ++ [Oimpossible])
      else mkJ true (j_outcomes j)
  | McReset => mkJ false []
  end.

Definition journal_of (h : list mcall) : journal := fold_left journal_call h (mkJ false []).
