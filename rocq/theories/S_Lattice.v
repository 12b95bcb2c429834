(** Specification of finite lattices. *)
From Coq Require Import ZArith Reals List Bool.
From Verif Require Import Base S_Math S_Accum S_Grid M_Bravais S_Bravais.
Import ListNotations.
Open Scope Z_scope.

(** What a lattice is built from: a Bravais lattice of the same dimension with
    its directions in opposite pairs (even coordination number), extents and
    directions that leave room in a long, and at most 3^40 images. *)
Definition lattice_ok {T} (B : bravais T) (size : list Z) : Prop :=
  well_formed B /\ vsize size = b_dim B /\ b_dim B <= 40 /\ sizes_ok size /\
  b_gamma B mod 2 = 0 /\ Forall (fun v => - 2 ^ 62 <= v <= 2 ^ 62) (b_nn B).

(** Displacement number j: vector j/2, forwards or backwards. *)
Definition displacement {T} (B : bravais T) (j : Z) : list Z :=
  if Z.even j then direction B (j / 2) else map Z.opp (direction B (j / 2)).
(** The points around c. *)
Definition around {T} (B : bravais T) (c : list Z) : list (list Z) :=
  map (fun j => shifted c (displacement B j)) (upto (b_gamma B)).

(** Whether a point is on the grid. *)
Fixpoint inside (size c : list Z) : bool :=
  match size, c with
  | [], [] => true
  | s :: size', x :: c' => (0 <=? x) && (x <? s) && inside size' c'
  | _, _ => false
  end.

(** The periodic image of c displaced by e periods in every direction, and the
    first shell of images. *)
Definition image (size c e : list Z) : list Z := zip_with Z.add c (zip_with Z.mul e size).
Definition shell (size e : list Z) : Prop := length e = length size /\ Forall (fun x => - 1 <= x <= 1) e.

Definition zeros (size : list Z) : list Z := map (fun _ => 0) size.

(** Least image on a ring of length s of a displacement d, squared; and the sum. *)
Definition nearest_square (s d : Z) : Z := Z.min (d mod s) (s - d mod s) * Z.min (d mod s) (s - d mod s).
Fixpoint nearest_squares (size d : list Z) : Z :=
  match size, d with
  | s :: size', x :: d' => nearest_square s x + nearest_squares size' d'
  | _, _ => 0
  end.

(** The allowed momenta of a ring of length s are 2 pi m / s; those of the point c. *)
Definition allowed (size c : list Z) : list R := zip_with (fun x s => 2 * PI * IZR (x - s / 2) / IZR s)%R c size.

(** The squared modulus of sum_j n_j exp(i k.x_j). *)
Definition intensity (occ k : list R) (xs : list (list R)) : R :=
  ((sumR (zip_with (fun n x => n * cos (dot k x)) occ xs)) ^ 2 + (sumR (zip_with (fun n x => n * sin (dot k x)) occ xs)) ^ 2)%R.

(** The site in the middle of the grid. *)
Definition middle (size : list Z) : Z := row_major size (map (fun s => s / 2) size).
