(** Specification: products of reals, partial products, and doubles that are not NaN. *)
From Coq Require Import ZArith Reals List.
From Flocq Require Import Core.Core IEEE754.BinarySingleNaN.
From Verif Require Import F64.
Import ListNotations.
Open Scope R_scope.

Definition prodR (l : list R) : R := fold_right Rmult 1 l.

(** No partial product comes near the smallest doubles, unless it is zero. *)
Definition no_underflow (l : list R) : Prop :=
  forall p q, l = p ++ q -> prodR p = 0 \/ bpow radix2 (-1000) <= Rabs (prodR p).

Definition numbers (v : list f64) : Prop := Forall (fun x => is_nan x = false) v.
