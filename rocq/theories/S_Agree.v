(** Data that different accumulators are given. *)
From Coq Require Import ZArith Reals List.
From Verif Require Import Base S_Accum.
Import ListNotations.
Open Scope R_scope.

(** Each value as many times as stated, and the same as weights. *)
Definition repeated {A} (l : list (A * nat)) : list A := flat_map (fun p => repeat (fst p) (snd p)) l.
Definition as_weights (l : list (R * nat)) : list (R * R) := map (fun p => (fst p, INR (snd p))) l.
(** Values a + b x; weights c w. *)
Definition affine (a b : R) (l : list R) : list R := map (fun x => a + b * x) l.
Definition reweighted (c : R) (l : list (R * R)) : list (R * R) := map (fun p => (fst p, c * snd p)) l.
