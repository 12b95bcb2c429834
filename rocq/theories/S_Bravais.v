(** Specification of Bravais lattices: matrices, displacements and the exact
    inverse relation. *)
From Coq Require Import ZArith Reals List.
From Verif Require Import Base F64 S_Accum M_Bravais.
Import ListNotations.
Open Scope Z_scope.

(** What the constructor's assertions demand (Bravais.hpp:127-130), in a
    dimension that is at least one and whose square fits a size_t. *)
Definition well_formed {T} (B : bravais T) : Prop :=
  0 < b_dim B < 2 ^ 32 /\ 0 <= b_gamma B /\
  vsize (b_p B) = b_dim B * b_dim B /\ vsize (b_pi B) = b_dim B * b_dim B /\
  vsize (b_nn B) = b_gamma B / 2 * b_dim B /\ vsize (b_nn B) < 2 ^ 63.

(** The k-th stored neighbour vector. *)
Definition direction {T} (B : bravais T) (k : Z) : list Z :=
  firstn (Z.to_nat (b_dim B)) (skipn (Z.to_nat (k * b_dim B)) (b_nn B)).

Fixpoint zip_with {A B C} (f : A -> B -> C) (a : list A) (b : list B) : list C :=
  match a, b with
  | x :: a', y :: b' => f x y :: zip_with f a' b'
  | _, _ => []
  end.
Definition shifted (a d : list Z) : list Z := zip_with Z.add a d.
Definition shifted_back (a d : list Z) : list Z := zip_with Z.sub a d.

Definition in_long (x : Z) : Prop := - 2 ^ 63 <= x < 2 ^ 63.

(** Exact negation of a double, up to the sign of zero. *)
Definition negated (x y : f64) : Prop :=
  y = fopp x \/ (fin x /\ fin y /\ RR x = 0%R /\ RR y = 0%R).

(** Component i of vector j of a flat matrix. *)
Definition entry {T} (z : T) (m : list T) (dim i j : Z) : T := nth (Z.to_nat (i + j * dim)) m z.

(** Sums over 0 .. n-1, and the scalar product. *)
Definition sum_upto (n : Z) (f : Z -> R) : R := sumR (map f (upto n)).
Definition dot (a b : list R) : R := sumR (zip_with Rmult a b).

(** The second matrix is the inverse of the first: the vectors are dual. *)
Definition inverse_matrices (B : bravais R) : Prop :=
  forall j l, 0 <= j < b_dim B -> 0 <= l < b_dim B ->
  sum_upto (b_dim B) (fun i => (entry 0 (b_pi B) (b_dim B) i j * entry 0 (b_p B) (b_dim B) i l)%R) =
  if j =? l then 1%R else 0%R.

(** The lattice vectors are the unit vectors. *)
Definition unit_lattice {T} (zero one : T) (B : bravais T) : Prop :=
  well_formed B /\ forall i j, 0 <= i < b_dim B -> 0 <= j < b_dim B ->
  entry zero (b_p B) (b_dim B) i j = (if i =? j then one else zero) /\
  entry zero (b_pi B) (b_dim B) i j = (if i =? j then one else zero).

Definition sum_squares (l : list Z) : Z := fold_right (fun z s => z * z + s) 0 l.
