(** Model of the explicit conversion of a rational to double (the conversion to
    the integer type and IsInt are in M_Rational.v). *)
From Coq Require Import ZArith.
From Verif Require Import Base F64 M_Rational.
Open Scope Z_scope.

(** RationalNum.hpp:58  [static_cast<double>(num_) / den_]: the denominator is
    converted to double by the usual arithmetic conversions. *)
Definition rat_to_double (r : rat) : f64 := fdiv (of_Z (num r)) (of_Z (den r)).
