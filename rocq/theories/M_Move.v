(** Model of include/bwsl/mcutils/MoveStatus.hpp, MoveResult.hpp, MoveStats.hpp.
    A std::string is the list of its characters. *)
From Coq Require Import ZArith List Bool.
From Verif Require Import Base F64 Num M_Archive M_Accum.
Import ListNotations.
Open Scope Z_scope.
Open Scope out_scope.

(** MoveStatus.hpp:22-27: an enum with underlying type char; every char is a
    value of the type, three of them are named. *)
Definition Accepted : Z := 65.
Definition Rejected : Z := 82.
Definition Impossible : Z := 73.

(** MoveResult.hpp:87-92 *)
Record moveresult := mkMR { mr_status : Z; mr_prob : f64 }.
(** MoveResult.hpp:29 and the member initialisers; 44-47 *)
Definition MR_default : moveresult := mkMR Impossible f0.
Definition MoveResult (status : Z) (prob : f64) : moveresult := mkMR status prob.
(** MoveResult.hpp:53, 56, 59-62, 65, 68 *)
Definition MR_IsAccepted (r : moveresult) : bool := mr_status r =? Accepted.
Definition MR_IsRejected (r : moveresult) : bool := mr_status r =? Rejected.
Definition MR_IsImpossible (r : moveresult) : bool := mr_status r =? Impossible.
Definition MR_Probability (r : moveresult) : f64 := mr_prob r.
Definition MR_GetStatus (r : moveresult) : Z := mr_status r.
(** MoveResult.hpp:72-83 *)
Definition MR_Accept (prob : f64) : moveresult := MoveResult Accepted prob.
Definition MR_Reject (prob : f64) : moveresult := MoveResult Rejected prob.
Definition MR_Impossible : moveresult := MoveResult Impossible f0.

(** MoveStats.hpp:166-186 *)
Record mstats := mkMS {
  m_name : list Z; m_flag : bool;
  m_proposed : Z; m_accepted : Z; m_rejected : Z; m_impossible : Z;
  m_prob : kahan f64 }.

(** "Unknown" *)
Definition unknown_name : list Z := [85; 110; 107; 110; 111; 119; 110].

(** MoveStats.hpp:94 and 214-216 *)
Definition MoveStats (name : list Z) : mstats := mkMS name false 0 0 0 0 (kahan_new numF).
Definition MS_default : mstats := MoveStats unknown_name.

(** Which counter a member reference designates. *)
Inductive counter := CntAccepted | CntRejected | CntImpossible.

Definition bump (c : counter) (s : mstats) : mstats :=
  match c with
  | CntAccepted => mkMS (m_name s) (m_flag s) (m_proposed s) (u64 (m_accepted s + 1)) (m_rejected s) (m_impossible s) (m_prob s)
  | CntRejected => mkMS (m_name s) (m_flag s) (m_proposed s) (m_accepted s) (u64 (m_rejected s + 1)) (m_impossible s) (m_prob s)
  | CntImpossible => mkMS (m_name s) (m_flag s) (m_proposed s) (m_accepted s) (m_rejected s) (u64 (m_impossible s + 1)) (m_prob s)
  end.

(** MoveStats.hpp:218-229 *)
Definition UpdateIfProposed (chk : bool) (c : counter) (prob : f64) (s : mstats) : mstats * out unit :=
  if negb (m_flag s) then (s, Throw ExMoveInvalidSequence)
  else
    let s1 := bump c s in
    let '(p, o) := KahanAdd numF chk (m_prob s1) prob in
    (mkMS (m_name s1) false (m_proposed s1) (m_accepted s1) (m_rejected s1) (m_impossible s1) p, o).

(** MoveStats.hpp:231-241, used with proposed_ only *)
Definition UpdateIfNotProposed (s : mstats) : mstats * out unit :=
  if m_flag s then (s, Throw ExMoveInvalidSequence)
  else (mkMS (m_name s) true (u64 (m_proposed s + 1)) (m_accepted s) (m_rejected s) (m_impossible s) (m_prob s), Ok tt).

(** MoveStats.hpp:115, 118, 121, 124 *)
Definition MS_Propose (s : mstats) : mstats * out unit := UpdateIfNotProposed s.
Definition MS_Accept (chk : bool) (s : mstats) (prob : f64) := UpdateIfProposed chk CntAccepted prob s.
Definition MS_Reject (chk : bool) (s : mstats) (prob : f64) := UpdateIfProposed chk CntRejected prob s.
Definition MS_Impossible (chk : bool) (s : mstats) := UpdateIfProposed chk CntImpossible f0 s.

(** MoveStats.hpp:254-270: without a matching case the switch does nothing. *)
Definition MS_Add (chk : bool) (s : mstats) (res : moveresult) : mstats * out unit :=
  match MS_Propose s with
  | (s1, Ok _) =>
      if MR_GetStatus res =? Accepted then MS_Accept chk s1 (MR_Probability res)
      else if MR_GetStatus res =? Rejected then MS_Reject chk s1 (MR_Probability res)
      else if MR_GetStatus res =? Impossible then MS_Impossible chk s1
      else (s1, Ok tt)
  | (s1, e) => (s1, e)
  end.

(** MoveStats.hpp:243-252 *)
Definition MS_Reset (s : mstats) : mstats :=
  mkMS (m_name s) false 0 0 0 0 (KahanReset numF (m_prob s)).

(** MoveStats.hpp:130, 133-136, 139-142, 145-148, 151-154 *)
Definition MS_GetName (s : mstats) : list Z := m_name s.
Definition MS_GetAcceptedRatio (s : mstats) : f64 :=
  if m_proposed s =? 0 then f0 else fdiv (of_Z (m_accepted s)) (of_Z (m_proposed s)).
Definition MS_GetRejectedRatio (s : mstats) : f64 := fdiv (of_Z (m_rejected s)) (of_Z (m_proposed s)).
Definition MS_GetImpossibleRatio (s : mstats) : f64 := fdiv (of_Z (m_impossible s)) (of_Z (m_proposed s)).
Definition MS_GetAverageProbability (s : mstats) : f64 := KahanMean numF (m_prob s).

(** MoveStats.hpp:200-212; a bool is archived as an integer. *)
Definition ms_save (s : mstats) : list tok :=
  kahan_save (m_prob s) ++ [TU (m_proposed s); TU (m_accepted s); TU (m_rejected s);
    TU (m_impossible s); TU (Z.b2z (m_flag s))].
Definition ms_load (b : mstats) : loader mstats :=
  lbind (kahan_load (m_prob b)) (fun p =>
  let b := mkMS (m_name b) (m_flag b) (m_proposed b) (m_accepted b) (m_rejected b) (m_impossible b) p in
  lbind load_u (fun v =>
  let b := mkMS (m_name b) (m_flag b) v (m_accepted b) (m_rejected b) (m_impossible b) (m_prob b) in
  lbind load_u (fun v =>
  let b := mkMS (m_name b) (m_flag b) (m_proposed b) v (m_rejected b) (m_impossible b) (m_prob b) in
  lbind load_u (fun v =>
  let b := mkMS (m_name b) (m_flag b) (m_proposed b) (m_accepted b) v (m_impossible b) (m_prob b) in
  lbind load_u (fun v =>
  let b := mkMS (m_name b) (m_flag b) (m_proposed b) (m_accepted b) (m_rejected b) v (m_prob b) in
  lbind load_u (fun v =>
  lret (mkMS (m_name b) (negb (v =? 0)) (m_proposed b) (m_accepted b) (m_rejected b) (m_impossible b) (m_prob b)))))))).

(** A client's calls; the client goes on after an exception. *)
Inductive mcall :=
| McPropose | McAccept (p : f64) | McReject (p : f64) | McImpossible | McAdd (r : moveresult) | McReset.

Definition ms_call (chk : bool) (s : mstats) (c : mcall) : mstats * out unit :=
  match c with
  | McPropose => MS_Propose s
  | McAccept p => MS_Accept chk s p
  | McReject p => MS_Reject chk s p
  | McImpossible => MS_Impossible chk s
  | McAdd r => MS_Add chk s r
  | McReset => (MS_Reset s, Ok tt)
  end.

Definition ms_calls (chk : bool) (h : list mcall) (s : mstats) : mstats :=
  fold_left (fun s c => fst (ms_call chk s c)) h s.
