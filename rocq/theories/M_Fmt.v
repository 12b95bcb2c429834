(** Model of the text that fmt writes for a double with the format {:.Pe}, as used by
    include/bwsl/ObservableGroup.hpp and include/bwsl/mcutils/MoveStats.hpp, and of the
    output operator of MoveStats.
    fmt prints the decimal number with P+1 significant digits that is nearest to the
    double, ties to the even last digit (as printf does); an exponent has a sign and
    at least two digits.  The sign of a NaN is not modelled. *)
From Coq Require Import ZArith List Bool Ascii String.
From Flocq Require Import IEEE754.BinarySingleNaN.
From Verif Require Import Base F64 M_Text M_Util M_Move.
Import ListNotations.
Open Scope Z_scope.

(** The least j with n < 10^j, for n >= 0. *)
Fixpoint digits10_ (fuel : nat) (n : Z) : Z :=
  match fuel with
  | O => 0
  | S f => if n <=? 0 then 0 else 1 + digits10_ f (n / 10)
  end.
Definition digits10 (n : Z) : Z := digits10_ (Z.to_nat (Z.log2 n + 1)) n.

(** The decimal exponent of num/den: the k with 10^k <= num/den < 10^(k+1). *)
Definition dec_exp (num den : Z) : Z :=
  if den <=? num then digits10 (num / den) - 1 else - digits10 ((den - 1) / num).

(** The integer nearest to a/b, ties to even. *)
Definition nearest_even (a b : Z) : Z :=
  let q := a / b in
  let r := 2 * (a mod b) in
  if r <? b then q else if b <? r then q + 1 else if Z.even q then q else q + 1.

(** Digits and exponent with p digits after the point. *)
Definition sci_digits (p num den : Z) : Z * Z :=
  let k := dec_exp num den in
  let n := if p <=? k then nearest_even num (den * 10 ^ (k - p)) else nearest_even (num * 10 ^ (p - k)) den in
  if n =? 10 ^ (p + 1) then (10 ^ p, k + 1) else (n, k).

(** The last w decimal digits of n. *)
Fixpoint put_digits (w : nat) (n : Z) : list ascii :=
  match w with
  | O => []
  | S w' => put_digits w' (n / 10) ++ [ascii_of_nat (Z.to_nat (48 + n mod 10))]
  end.

Definition put_exponent (k : Z) : list ascii :=
  (if k <? 0 then "-"%char else "+"%char) :: (if Z.abs k <? 10 then "0"%char :: put_int (Z.abs k) else put_int (Z.abs k)).

Definition put_sci (p : Z) (sign : bool) (n k : Z) : list ascii :=
  (if sign then ["-"%char] else []) ++
  put_digits 1 (n / 10 ^ p) ++ (if p =? 0 then [] else "."%char :: put_digits (Z.to_nat p) n) ++
  "e"%char :: put_exponent k.

(** fmt::format("{:.{}e}", x, p) *)
Definition fmt_sci (p : Z) (x : f64) : list ascii :=
  match x with
  | B754_zero s => put_sci p s 0 0
  | B754_infinity s => (if s then ["-"%char] else []) ++ chars "inf"
  | B754_nan => chars "nan"
  | B754_finite s m e _ =>
      let '(n, k) := sci_digits p (Z.pos m * 2 ^ Z.max e 0) (2 ^ Z.max (- e) 0) in put_sci p s n k
  end.

(** MoveStats.hpp:272-284; the characters of the name are codes. *)
Definition ms_print (s : mstats) : list ascii :=
  map (fun z => ascii_of_nat (Z.to_nat z)) (m_name s) ++
  chars "(accepted = " ++ fmt_sci 3 (MS_GetAcceptedRatio s) ++
  chars ", rejected = " ++ fmt_sci 3 (MS_GetRejectedRatio s) ++
  chars ", impossible = " ++ fmt_sci 3 (MS_GetImpossibleRatio s) ++
  chars ", probability = " ++ fmt_sci 3 (MS_GetAverageProbability s) ++ chars ")".
