(** Continued fractions q0 + 1/(q1 + 1/(q2 + ...)). *)
From Coq Require Import ZArith List.
Import ListNotations.
Open Scope Z_scope.

(** Numerator and denominator. *)
Fixpoint cf_frac (qs : list Z) : Z * Z :=
  match qs with
  | [] => (1, 0)
  | q :: qs' => let '(n, d) := cf_frac qs' in (q * n + d, n)
  end.

(** In the usual form: whole numbers, positive after the first, and the last one
    not 1 (but for a single one). *)
Fixpoint usual_tail (qs : list Z) : Prop :=
  match qs with [] => False | [q] => 2 <= q | q :: qs' => 1 <= q /\ usual_tail qs' end.
Definition usual (qs : list Z) : Prop :=
  match qs with [] => False | [q] => 0 <= q | q :: qs' => 0 <= q /\ usual_tail qs' end.

(** qs is the continued fraction of a/b (for a >= 0 and b > 0). *)
Definition continued_fraction (qs : list Z) (a b : Z) : Prop :=
  usual qs /\ fst (cf_frac qs) * b = a * snd (cf_frac qs).

(** n/d is negative and its magnitude has a continued fraction of even length. *)
Definition turned (n d : Z) : Prop :=
  n * d < 0 /\ exists qs, continued_fraction qs (Z.abs n) (Z.abs d) /\ Nat.Even (length qs).
