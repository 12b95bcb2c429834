(** What it means for a mathematics library to be accurate, and how near the
    values of a logarithmic sequence then have to be. *)
From Coq Require Import ZArith Reals.
From Flocq Require Import Core.Core.
From Verif Require Import F64 M_Space.
Open Scope R_scope.

(** std::log is defined for every positive finite double and has relative
    error at most eps. *)
Definition accurate_log (eps : R) (M : transc f64) : Prop :=
  forall x, fin x -> 0 < RR x -> fin (t_log M x) /\ Rabs (RR (t_log M x) - ln (RR x)) <= eps * Rabs (ln (RR x)).

(** std::pow with a positive base has relative error at most eps whenever the
    exact power neither overflows nor underflows. *)
Definition accurate_pow (eps : R) (M : transc f64) : Prop :=
  forall x y, fin x -> fin y -> 0 < RR x ->
  bpow radix2 (-1022) <= Rpower (RR x) (RR y) <= bpow radix2 1023 ->
  fin (t_pow M x y) /\ Rabs (RR (t_pow M x y) - Rpower (RR x) (RR y)) <= eps * Rpower (RR x) (RR y).

(** M_E of <cmath>: 2.718281828459045 as a double. *)
Definition M_E : f64 := dyad 6121026514868073 (-51).

(** Value number i of n steps from a to b, equally spaced in the logarithm. *)
Definition log_point (a b : R) (n : Z) (i : nat) : R := a * Rpower (b / a) (INR i / IZR n).

(** The unit roundoff of doubles. *)
Definition ulp1 : R := bpow radix2 (-53).

(** Relative error granted to value number i: i roundings and i uses of an
    inexact base, and the share i/n of the errors of the logarithms of the ends
    and of the three operations on their difference. *)
Definition log_allowance (eps a b : R) (n : Z) (i : nat) : R :=
  5 / 4 * (INR i * (eps + ulp1) +
           INR i / IZR n * (eps * (Rabs (ln a) + Rabs (ln b)) + 4 * ulp1 * Rabs (ln b - ln a))).

(** The values asked for with exponents: base^(start + (stop-start) i/n). *)
Definition exp_point (base : R) (start stop n : Z) (i : nat) : R :=
  Rpower base (IZR start + IZR (stop - start) * (INR i / IZR n)).
