(** Specifications for searching and drawing (independent of the model). *)
From Coq Require Import ZArith Reals List.
From Verif Require Import F64.
Import ListNotations.
Open Scope Z_scope.

(** [p] separates the positions [first,last) into elements that are not greater
    than the searched value (before p) and elements that are (from p on). *)
Definition splits {A} (greater : A -> Prop) (l : list A) (first last p : Z) : Prop :=
  first <= p <= last /\
  (forall i x, first <= i < p -> nth_error l (Z.to_nat i) = Some x -> ~ greater x) /\
  (forall i x, p <= i < last -> nth_error l (Z.to_nat i) = Some x -> greater x).

(** Doubles in non-decreasing / strictly increasing order (no NaN). *)
Definition nondecreasing (l : list f64) : Prop :=
  forall i j x y, (i <= j)%nat -> nth_error l i = Some x -> nth_error l j = Some y -> fle x y = true.
Definition increasing (l : list f64) : Prop :=
  forall i j x y, (i < j)%nat -> nth_error l i = Some x -> nth_error l j = Some y -> flt x y = true.

(** Floating-point sum x0 + x1 + ... + xi, added from the left. *)
Definition left_sum (l : list f64) (i : nat) : f64 :=
  match l with [] => f0 | x :: l' => fold_left fadd (firstn i l') x end.
