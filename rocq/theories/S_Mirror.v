(** Results on data with the opposite sign, or in units smaller by a power of two. *)
From Coq Require Import ZArith Reals List.
From Flocq Require Import Core.Core.
From Verif Require Import Base F64.
Open Scope R_scope.

(** The same double, up to the sign of zero. *)
Definition alike (x y : f64) : Prop := y = x \/ (fin x /\ fin y /\ RR x = 0 /\ RR y = 0).
(** Finite, and 2^k times as large. *)
Definition scaled (k : Z) (x y : f64) : Prop := fin x /\ fin y /\ RR y = RR x * bpow radix2 k.
