(** Specification of the seeding of a 64-bit Mersenne twister (the recurrence of
    the C++ standard, [rand.eng.mers]). *)
From Coq Require Import ZArith List.
Import ListNotations.
Open Scope Z_scope.

(** The 312 state words of an engine seeded with [s]. *)
Definition mt_state (s : Z) (ws : list Z) : Prop :=
  length ws = 312%nat /\ nth 0 ws 0 = s mod 2 ^ 64 /\
  forall i, (1 <= i < 312)%nat ->
    let x := nth (i - 1) ws 0 in
    nth i ws 0 = (6364136223846793005 * Z.lxor x (Z.shiftr x 62) + Z.of_nat i) mod 2 ^ 64.
