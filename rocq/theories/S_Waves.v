(** Specification of the addition of momenta and of plane waves on lattices. *)
From Coq Require Import ZArith Reals List.
From Verif Require Import Base Num S_Math S_Accum M_Bravais S_Grid S_Bravais S_Lattice.
Import ListNotations.
Open Scope Z_scope.

(** Grid coordinates of the sum of two momenta; the zero momentum is in the
    middle of the grid. *)
Definition momentum_sum (size c c' : list Z) : list Z := map3 (fun s x y => (x + y - s / 2) mod s) size c c'.

(** [k] is the sum of [k1] and [k2] up to whole turns at every lattice vector. *)
Definition adds_up (B : bravais R) (size : list Z) (k1 k2 k : list R) : Prop :=
  forall d p, length d = length size -> GetRealSpace numR B d = Ok p ->
  exists z, dot k p = (dot k1 p + dot k2 p + 2 * PI * IZR z)%R.

(** Real and imaginary part of the Fourier sum of occupations at [k]. *)
Definition cos_amplitude (occ : list R) (k : list R) (xs : list (list R)) : R :=
  sumR (zip_with (fun n x => n * cos (dot k x))%R occ xs).
Definition sin_amplitude (occ : list R) (k : list R) (xs : list (list R)) : R :=
  sumR (zip_with (fun n x => n * sin (dot k x))%R occ xs).
