(** Numeric code that is generic in the C++ sources, or whose exact-arithmetic
    behaviour is of interest, is written over this record.  [numF] is C++
    [double]; [numR] are Coq's real numbers (which have no NaN: [n_nan numR] is an
    arbitrary number, every statement about [numR] avoids it). *)
From Coq Require Import ZArith Reals.
From Flocq Require Import Core.Core.
From Verif Require Import F64.

Record num (T : Type) := mkNum {
  n_add : T -> T -> T;
  n_sub : T -> T -> T;
  n_mul : T -> T -> T;
  n_div : T -> T -> T;
  n_opp : T -> T;
  n_abs : T -> T;
  n_sqrt : T -> T;
  n_ofZ : Z -> T;
  n_lt : T -> T -> bool;
  n_le : T -> T -> bool;
  n_eq : T -> T -> bool;
  n_nan : T }.
Arguments n_add {T} n. Arguments n_sub {T} n. Arguments n_mul {T} n. Arguments n_div {T} n.
Arguments n_opp {T} n. Arguments n_abs {T} n. Arguments n_nan {T} n. Arguments n_sqrt {T} n. Arguments n_ofZ {T} n.
Arguments n_lt {T} n. Arguments n_le {T} n. Arguments n_eq {T} n.

Definition numF : num f64 :=
  mkNum f64 fadd fsub fmul fdiv fopp fabs fsqrt of_Z flt fle feq fnan.

Definition numR : num R :=
  mkNum R Rplus Rminus Rmult Rdiv Ropp Rabs sqrt IZR Rlt_bool Rle_bool Req_bool 0%R.
