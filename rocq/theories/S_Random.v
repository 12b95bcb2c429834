(** How often something happens over all words a 64-bit engine can deliver
    (independent of the model). *)
From Coq Require Import ZArith Reals List.
From Verif Require Import F64.
Open Scope Z_scope.

(** A word of a 64-bit engine. *)
Definition word (w : Z) : Prop := 0 <= w < 2 ^ 64.

(** The event happens for exactly the words in [a, b): that is for b - a out of
    the 2^64 words. *)
Definition happens_between (event : Z -> Prop) (a b : Z) : Prop :=
  0 <= a <= b /\ b <= 2 ^ 64 /\ forall w, word w -> (event w <-> a <= w < b).

(** The share of the 2^64 words in [a, b). *)
Definition share (a b : Z) : R := (IZR (b - a) / IZR (2 ^ 64))%R.

(** Exact sum of the weights. *)
Definition total (l : list f64) : R := fold_right Rplus 0%R (map RR l).

(** In a list of running sums: the sum before entry i. *)
Definition before (l : list f64) (i : nat) : R :=
  match i with O => 0%R | S k => RR (nth k l f0) end.
