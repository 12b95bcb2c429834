(** Specification of evenly spaced integers. *)
From Coq Require Import ZArith List.
From Verif Require Import Base M_Space.
Import ListNotations.
Open Scope Z_scope.

(** Values of a signed type of w bits. *)
Definition in_type (w z : Z) : Prop := - 2 ^ (w - 1) <= z < 2 ^ (w - 1).

(** Value number k: first plus k times the spacing, which is rounded towards zero. *)
Definition int_value (first last steps : Z) (k : nat) : Z := first + Z.quot (last - first) steps * Z.of_nat k.

(** The last position a client has computed after these calls, starting from position k:
    a call computes the value after the one it returns, Collect(n) the n values after
    the current one. *)
Fixpoint computed (h : list spcall) (k : nat) : nat :=
  match h with
  | [] => k
  | ScDeref :: h' => computed h' k
  | ScCollect n :: h' => Nat.max (k + Z.to_nat n) (computed h' k)
  | _ :: h' => computed h' (S k)
  end.
