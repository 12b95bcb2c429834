(** The textbook Metropolis rule. *)
From Coq Require Import ZArith Reals List.
From Flocq Require Import Core.Core.
From Verif Require Import Base F64 S_Hop.
Import ListNotations.
Open Scope R_scope.

(** Probability to accept a move from weight x to weight y. *)
Definition acceptance (x y : R) : R := Rmin 1 (y / x).

(** Weights between 2^-500 and 2^500. *)
Definition weights_ok (weight : list f64) : Prop := Forall (fun x => fin x /\ bpow radix2 (-500) <= RR x <= bpow radix2 500) weight.

(** Allowance for one move on a lattice with gamma directions. *)
Definition move_error (gamma : Z) : R := 2 * (hop_error gamma + 4 * bpow radix2 (-53)).
