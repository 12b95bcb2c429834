(** Model of include/bwsl/Approx.hpp.  The operators < and > are declared
    (lines 79-82) but defined nowhere, so they have no model. *)
From Coq Require Import ZArith Bool.
From Verif Require Import Base F64.
Open Scope Z_scope.

(** std::max(a, b) on doubles: (a < b) ? b : a *)
Definition std_max (a b : f64) : f64 := if flt a b then b else a.

(** Approx.hpp:67-69 *)
Record approx := mkApprox { ap_value : f64; ap_abs : f64; ap_rel : f64 }.

(** std::numeric_limits<double>::epsilon() * 100, epsilon = 2^-52 *)
Definition default_rel : f64 := fmul (dyad 1 (-52)) (of_Z 100).

(** Approx.hpp:134-137 with the member initialisers *)
Definition Approx (val : f64) : approx := mkApprox val f0 default_rel.
(** Approx.hpp:52-56, 59-63 *)
Definition SetAbs (a : approx) (abs : f64) : approx := mkApprox (ap_value a) (fabs abs) (ap_rel a).
Definition SetRel (a : approx) (rel : f64) : approx := mkApprox (ap_value a) (ap_abs a) (fabs rel).

(** Approx.hpp:85-90, 92-96, 98-102, 104-108.  The suffix tells the operand
    order: d is the double, a the Approx. *)
Definition eq_da (lhs : f64) (rhs : approx) : bool :=
  fle (fabs (fsub lhs (ap_value rhs))) (std_max (ap_abs rhs) (fabs (fmul (ap_rel rhs) (ap_value rhs)))).
Definition eq_ad (lhs : approx) (rhs : f64) : bool := eq_da rhs lhs.
Definition ne_da (lhs : f64) (rhs : approx) : bool := negb (eq_da lhs rhs).
Definition ne_ad (lhs : approx) (rhs : f64) : bool := negb (eq_da rhs lhs).
(** Approx.hpp:110-114, 116-120, 122-126, 128-132 *)
Definition le_da (lhs : f64) (rhs : approx) : bool := flt lhs (ap_value rhs) || eq_da lhs rhs.
Definition le_ad (lhs : approx) (rhs : f64) : bool := flt (ap_value lhs) rhs || eq_ad lhs rhs.
Definition ge_da (lhs : f64) (rhs : approx) : bool := fgt lhs (ap_value rhs) || eq_da lhs rhs.
Definition ge_ad (lhs : approx) (rhs : f64) : bool := fgt (ap_value lhs) rhs || eq_ad lhs rhs.
