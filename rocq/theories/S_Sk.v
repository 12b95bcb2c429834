(** Specification of the accuracy of structure factors. *)
From Coq Require Import ZArith Reals List.
From Verif Require Import Base F64 S_Math S_Accum.
Import ListNotations.
Open Scope R_scope.

(** std::sin and std::cos on doubles up to 2^40 are finite and within delta. *)
Definition trig_close (delta : R) (fsin fcos : f64 -> f64) : Prop :=
  forall x, fin x -> Rabs (RR x) <= 2 ^ 40 ->
  (fin (fsin x) /\ Rabs (RR (fsin x) - sin (RR x)) <= delta) /\ (fin (fcos x) /\ Rabs (RR (fcos x) - cos (RR x)) <= delta).

(** Zero, or of a size far from the limits of double. *)
Definition moderate (x : f64) : Prop := fin x /\ (RR x = 0 \/ / 2 ^ 200 <= Rabs (RR x) <= 2 ^ 200).

(** The error of an amplitude sum_j n_j exp(i k.x_j) relative to sum_j |n_j|:
    that of the sine, of the phases and of the sum over the sites. *)
Definition amplitude_error (delta : R) (size : list Z) : R :=
  delta + 2 * uro * ((INR (length size) + 6) * IZR (sumZ size) + IZR (prodZ size) + 2).
