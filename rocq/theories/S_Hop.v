(** Counting the words that make something happen. *)
From Coq Require Import ZArith Reals List.
From Flocq Require Import Core.Core.
From Verif Require Import Base F64 S_Random.
Import ListNotations.
Open Scope R_scope.

(** The event happens for exactly x different things. *)
Definition counted {A} (event : A -> Prop) (x : R) : Prop :=
  exists l, NoDup l /\ (forall a, In a l <-> event a) /\ INR (length l) = x.

(** n words of a 64-bit engine; there are (2^64)^n of them. *)
Definition words (n : nat) (ws : list Z) : Prop := length ws = n /\ Forall word ws.
Definition all_words (n : nat) : R := IZR (2 ^ 64) ^ n.

(** Allowance for one hop on a lattice with gamma directions. *)
Definition hop_error (gamma : Z) : R := IZR gamma * ((6 * IZR gamma + 7) * bpow radix2 (-53)).
