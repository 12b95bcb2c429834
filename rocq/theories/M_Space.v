(** Model of include/bwsl/LinSpace.hpp and include/bwsl/LogSpace.hpp over the
    numeric record; numF is T = double. *)
From Coq Require Import ZArith List Bool.
From Verif Require Import Base F64 Num.
Import ListNotations.
Open Scope Z_scope.
Open Scope out_scope.

(** * LinSpace *)

(** LinSpace.hpp:58-74 *)
Record linspace (T : Type) := mkLin {
  li_current : T; li_first : T; li_last : T; li_stepsize : T; li_nsteps : Z; li_step : Z }.
Arguments mkLin {T}. Arguments li_current {T}. Arguments li_first {T}. Arguments li_last {T}.
Arguments li_stepsize {T}. Arguments li_nsteps {T}. Arguments li_step {T}.

Section Lin.
Context {T : Type} (N : num T).

(** LinSpace.hpp:83-93; the assertion at line 91 vanishes in release builds. *)
Definition LinSpace (first last : T) (steps : Z) : linspace T :=
  mkLin first first last (n_div N (n_sub N last first) (n_ofZ N steps)) steps 0.

(** LinSpace.hpp:39 *)
Definition LinDeref (l : linspace T) : T := li_current l.

(** LinSpace.hpp:104-111 *)
Definition LinIncr (l : linspace T) : linspace T :=
  let step := u64 (li_step l + 1) in
  mkLin (n_add N (li_first l) (n_mul N (li_stepsize l) (n_ofZ N step)))
        (li_first l) (li_last l) (li_stepsize l) (li_nsteps l) step.

(** LinSpace.hpp:122-130, 132-140 *)
Definition LinBegin (l : linspace T) : linspace T :=
  mkLin (li_first l) (li_first l) (li_last l) (li_stepsize l) (li_nsteps l) 0.
Definition LinEnd (l : linspace T) : linspace T :=
  mkLin (li_last l) (li_first l) (li_last l) (li_stepsize l) (li_nsteps l) (li_nsteps l).

(** LinSpace.hpp:152-157.  (The non-template friend declared at line 77 is
    preferred by overload resolution and is defined nowhere, so a program that
    compares two LinSpaces does not link; the model is of the template.) *)
Definition LinEq (a b : linspace T) : bool := li_step a =? li_step b.
End Lin.

(** * LogSpace *)

(** The library functions pow and log and the constant M_E. *)
Record transc (T : Type) := mkTransc { t_pow : T -> T -> T; t_log : T -> T; t_e : T }.
Arguments t_pow {T}. Arguments t_log {T}. Arguments t_e {T}.

(** LogSpace.hpp:64-80 *)
Record logspace (T : Type) := mkLog {
  lo_base : T; lo_current : T; lo_first : T; lo_last : T; lo_nsteps : Z; lo_step : Z }.
Arguments mkLog {T}. Arguments lo_base {T}. Arguments lo_current {T}. Arguments lo_first {T}.
Arguments lo_last {T}. Arguments lo_nsteps {T}. Arguments lo_step {T}.

Section Log.
Context {T : Type} (N : num T) (M : transc T).

(** LogSpace.hpp:103 and 115 *)
Definition log_base (first last : T) (steps : Z) : T :=
  t_pow M (t_e M) (n_div N (n_sub N (t_log M last) (t_log M first)) (n_ofZ N steps)).

(** LogSpace.hpp:95-105 *)
Definition LogSpaceExp (start stop : Z) (steps : Z) (base : T) : logspace T :=
  let first := t_pow M base (n_ofZ N start) in
  let last := t_pow M base (n_ofZ N stop) in
  mkLog (log_base first last steps) (t_pow M base (n_ofZ N start)) first last steps 0.

(** LogSpace.hpp:107-117 *)
Definition LogSpace (first last : T) (steps : Z) : logspace T :=
  mkLog (log_base first last steps) first first last steps 0.

(** LogSpace.hpp:45 *)
Definition LogDeref (l : logspace T) : T := lo_current l.

(** LogSpace.hpp:128-135 *)
Definition LogIncr (l : logspace T) : logspace T :=
  mkLog (lo_base l) (n_mul N (lo_current l) (lo_base l)) (lo_first l) (lo_last l) (lo_nsteps l) (u64 (lo_step l + 1)).

(** LogSpace.hpp:146-154, 156-164 *)
Definition LogBegin (l : logspace T) : logspace T :=
  mkLog (lo_base l) (lo_first l) (lo_first l) (lo_last l) (lo_nsteps l) 0.
Definition LogEnd (l : logspace T) : logspace T :=
  mkLog (lo_base l) (lo_last l) (lo_first l) (lo_last l) (lo_nsteps l) (lo_nsteps l).

(** LogSpace.hpp:83-86 *)
Definition LogEq (a b : logspace T) : bool := lo_step a =? lo_step b.
End Log.

(** * Member functions with the same text in both classes
    [obj] is the class, [deref] and [incr] its operators. *)
Section Both.
Context {obj T : Type} (deref : obj -> T) (incr : obj -> obj).

(** LinSpace.hpp:95-102, LogSpace.hpp:119-126: the value and the new object *)
Definition SpCall (o : obj) : T * obj := let retval := deref o in (retval, incr o).

(** LinSpace.hpp:113-120, LogSpace.hpp:137-144 *)
Definition SpPost (o : obj) : obj * obj := let tmp := o in (tmp, incr o).

(** std::generate_n: the generator [g] is passed by value and called n times. *)
Fixpoint generate (n : nat) (g : obj) : list T :=
  match n with O => [] | S n' => let '(v, g') := SpCall g in v :: generate n' g' end.

(** LinSpace.hpp:142-150, LogSpace.hpp:166-174 *)
Definition SpCollect (o : obj) (n : Z) : list T := generate (Z.to_nat n) o.

(** What a client can do with one object, and what it sees. *)
Inductive spcall := ScCall | ScPre | ScPost | ScDeref | ScCollect (n : Z).

Definition sp_call (o : obj) (c : spcall) : list T * obj :=
  match c with
  | ScCall => let '(v, o') := SpCall o in ([v], o')
  | ScPre => let o' := incr o in ([deref o'], o')
  | ScPost => let '(t, o') := SpPost o in ([deref t], o')
  | ScDeref => ([deref o], o)
  | ScCollect n => (SpCollect o n, o)
  end.

Fixpoint sp_calls (h : list spcall) (o : obj) : list (list T) * obj :=
  match h with
  | [] => ([], o)
  | c :: h' => let '(v, o1) := sp_call o c in let '(vs, o2) := sp_calls h' o1 in (v :: vs, o2)
  end.

(** for (auto it = o.begin(); it != o.end(); ++it) out.push_back( *it); *)
Definition sp_for (eq : obj -> obj -> bool) (b e : obj) : out (list T) :=
  while_ (fun '(it, acc) => if eq it e then inr (Ok (rev acc)) else inl (incr it, deref it :: acc)) (b, []).
End Both.
