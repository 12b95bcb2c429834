(** Model of l2norm (MathUtils.hpp) on a container of long; the version on a
    container of doubles is in M_MathF.v. *)
From Coq Require Import ZArith List.
From Verif Require Import Base F64 M_MathInt.
Import ListNotations.
Open Scope Z_scope.
Open Scope out_scope.

(** MathUtils.hpp:121-130: the sum of squares is a long, converted to double by
    the call of sqrt. *)
Definition l2norm_s (v : list Z) : out f64 :=
  d <- ofold (fun d x => q <- square_s x ;; s64 (d + q)) v 0 ;; Ok (fsqrt (of_Z d)).
