(** Model of the text that fmt writes for a double with the format {}, as used by the
    Save functions of include/bwsl/Lattice.hpp: the shortest decimal number that is read
    back as the double, the nearest to it if there are several, in fixed notation when
    the decimal exponent lies between -4 and 15 and in scientific notation otherwise.
    Up to version 7 fmt appends .0 to whole numbers in fixed notation ([dot0]). *)
From Coq Require Import ZArith List Bool Ascii String.
From Flocq Require Import IEEE754.BinarySingleNaN.
From Verif Require Import Base F64 M_Text M_Util M_Fmt.
Import ListNotations.
Open Scope Z_scope.

(** The binary exponent of num/den: the k with 2^k <= num/den < 2^(k+1). *)
Definition bin_exp (num den : Z) : Z :=
  let j := Z.log2 num - Z.log2 den in
  if den * 2 ^ Z.max j 0 <=? num * 2 ^ Z.max (- j) 0 then j else j - 1.

(** num/den rounded to 53 bits (to a multiple of 2^-1074), ties to even. *)
Definition read_bin (num den : Z) : Z * Z :=
  let e := Z.max (bin_exp num den - 52) (-1074) in
  (nearest_even (num * 2 ^ Z.max (- e) 0) (den * 2 ^ Z.max e 0), e).

(** c * 10^j is read as num/den. *)
Definition reads_as (num den c j : Z) : bool :=
  let '(m, e) := read_bin (c * 10 ^ Z.max j 0) (10 ^ Z.max (- j) 0) in
  m * 2 ^ Z.max e 0 * den =? num * 2 ^ Z.max (- e) 0.

(** The first number of digits after the leading one, from p on, for which one of the two
    neighbouring decimal numbers is read back. *)
Fixpoint shortest_ (fuel : nat) (num den k p : Z) : Z * Z :=
  let a := num * 10 ^ Z.max (p - k) 0 in
  let b := den * 10 ^ Z.max (k - p) 0 in
  let c := nearest_even a b in
  match fuel with
  | O => (p, c)
  | S f =>
      let c' := 2 * (a / b) + 1 - c in
      if reads_as num den c (k - p) then (p, c)
      else if reads_as num den c' (k - p) then (p, c')
      else shortest_ f num den k (p + 1)
  end.
(** Digits after the leading one, digits, exponent. *)
Definition shortest (num den : Z) : Z * Z * Z :=
  let k := dec_exp num den in
  let '(p, n) := shortest_ 16 num den k 0 in
  if n =? 10 ^ (p + 1) then (p, 10 ^ p, k + 1) else (p, n, k).

(** n * 10^-f in fixed notation with at least w digits before the point. *)
Definition put_fixed (s : bool) (w f n : Z) : list ascii :=
  (if s then ["-"%char] else []) ++ put_digits (Z.to_nat w) (n / 10 ^ f) ++
  (if f =? 0 then [] else "."%char :: put_digits (Z.to_nat f) n).

Definition put_short (dot0 s : bool) (p n k : Z) : list ascii :=
  if (k <? -4) || (16 <=? k) then put_sci p s n k
  else
    let f := if p <=? k then Z.b2z dot0 else p - k in
    put_fixed s (Z.max 1 (k + 1)) f (n * 10 ^ (k - p + f)).

(** fmt::format("{}", x) *)
Definition fmt_short (dot0 : bool) (x : f64) : list ascii :=
  match x with
  | B754_zero s => put_fixed s 1 (Z.b2z dot0) 0
  | B754_infinity s => (if s then ["-"%char] else []) ++ chars "inf"
  | B754_nan => chars "nan"
  | B754_finite s m e _ =>
      let '(p, n, k) := shortest (Z.pos m * 2 ^ Z.max e 0) (2 ^ Z.max (- e) 0) in put_short dot0 s p n k
  end.
