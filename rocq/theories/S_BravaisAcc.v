(** Specification: where a point of a Bravais lattice lies, computed exactly
    from the stored matrices, and how far off a computation may be. *)
From Coq Require Import ZArith Reals List.
From Flocq Require Import Core.Core.
From Verif Require Import Base F64 S_Bravais S_Norm M_Bravais.
Import ListNotations.
Open Scope R_scope.

(** Zero, or of moderate size. *)
Definition moderate (x : R) : Prop := x = 0 \/ bpow radix2 (-300) <= Rabs x <= bpow radix2 300.

(** All entries of a flat matrix are finite and moderate. *)
Definition moderate_matrix (m : list f64) : Prop := Forall (fun x => fin x /\ moderate (RR x)) m.

(** Component i of the exact combination of the vectors of a flat matrix with
    the coefficients c, and the same with all signs taken away. *)
Definition exact_component (m : list f64) (d : Z) (c : list R) (i : Z) : R :=
  sum_upto d (fun j => nth (Z.to_nat j) c 0 * RR (entry f0 m d i j)).
Definition unsigned_component (m : list f64) (d : Z) (c : list R) (i : Z) : R :=
  sum_upto d (fun j => Rabs (nth (Z.to_nat j) c 0) * Rabs (RR (entry f0 m d i j))).

(** The point with lattice coordinates c, and its unsigned companion. *)
Definition exact_point (B : bravais f64) (c : list Z) : list R :=
  map (exact_component (b_p B) (b_dim B) (map IZR c)) (upto (b_dim B)).
Definition unsigned_point (B : bravais f64) (c : list Z) : list R :=
  map (unsigned_component (b_p B) (b_dim B) (map IZR c)) (upto (b_dim B)).

(** The wave vector with integer coordinates c: 2 pi times the combination of
    the vectors of the second matrix. *)
Definition exact_wave (B : bravais f64) (c : list Z) : list R :=
  map (exact_component (b_pi B) (b_dim B) (map (fun z => 2 * PI * IZR z) c)) (upto (b_dim B)).
Definition unsigned_wave (B : bravais f64) (c : list Z) : list R :=
  map (unsigned_component (b_pi B) (b_dim B) (map (fun z => 2 * PI * IZR z) c)) (upto (b_dim B)).

(** The momentum of the site with coordinates c on a periodic lattice of the
    given extents: the wave vector of the coordinates counted from the middle,
    every component divided by the extent. *)
Definition centred_coords (size c : list Z) : list Z := zip_with (fun x s => x - s / 2)%Z c size.
Definition over_extents (size : list Z) (k : list R) : list R := zip_with (fun x s => x / IZR s) k size.

(** Every component of x is within k units of roundoff of the exact one,
    measured by the unsigned one. *)
Definition close_to (k : R) (x : list f64) (exact unsigned : list R) : Prop :=
  length x = length exact /\ length unsigned = length exact /\
  forall i, (i < length x)%nat ->
  fin (nth i x f0) /\ Rabs (RR (nth i x f0) - nth i exact 0) <= k * uro * nth i unsigned 0.

(** Length of the triangular-lattice vector with coordinates x, y. *)
Definition triangular_length (x y : Z) : R := sqrt (IZR (x * x + x * y + y * y)).

(** Displacements whose coordinates are doubles. *)
Definition small_coords (c : list Z) : Prop := Forall (fun z => Z.abs z <= 2 ^ 53)%Z c.
Definition wave_coords (c : list Z) : Prop := Forall (fun z => Z.abs z <= 2 ^ 52)%Z c.
