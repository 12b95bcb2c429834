(** Specification of texts holding several unsigned numbers. *)
From Coq Require Import ZArith List Ascii.
From Verif Require Import S_Rational.
Import ListNotations.
Open Scope Z_scope.

(** [numbers s vs r]: [s] starts with the numbers [vs], modulo 2^64, each after
    optional blanks, and goes on with [r]. *)
Inductive numbers : list ascii -> list Z -> list ascii -> Prop :=
| nums_nil r : numbers r [] r
| nums_cons b i x t vs r :
    blanks b -> int_text i x -> Z.abs x < 2 ^ 64 -> ~ starts_with_digit t ->
    numbers t vs r -> numbers (b ++ i ++ t) (x mod 2 ^ 64 :: vs) r.
