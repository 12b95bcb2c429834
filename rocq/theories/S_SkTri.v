(** Specification of the accuracy of structure factors on triangular lattices. *)
From Coq Require Import ZArith Reals List.
From Verif Require Import Base F64.
Open Scope R_scope.

(** The error of an amplitude sum_j n_j exp(i k.x_j) relative to sum_j |n_j| on a
    triangular lattice of extents s, s: that of the sine, of the phases and of
    the sum over the sites. *)
Definition triangular_error (delta : R) (s : Z) : R :=
  delta + 2 * uro * (200 * IZR s + IZR (s * s) + 2).
