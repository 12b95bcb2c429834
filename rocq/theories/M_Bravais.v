(** Model of include/bwsl/Bravais.hpp over any number type [num T] ([numF]: double).
    Matrices are flat vectors: pvectors_[i + j * dim_] is component i of lattice
    vector j. *)
From Coq Require Import ZArith List Bool.
From Verif Require Import Base F64 Num.
Import ListNotations.
Open Scope Z_scope.
Open Scope out_scope.

(** Bravais.hpp:99-114 *)
Record bravais (T : Type) := mkBravais {
  b_dim : Z; b_gamma : Z; b_p : list T; b_pi : list T; b_nn : list Z }.
Arguments mkBravais {T}. Arguments b_dim {T}. Arguments b_gamma {T}. Arguments b_p {T}.
Arguments b_pi {T}. Arguments b_nn {T}.

Section Bravais.
Context {T : Type} (N : num T).
Let zero := n_ofZ N 0.

(** Bravais.hpp:133-144  [p[i] += coords[j] * pvectors_[i + j * dim_]]; the
    product is of a long and a double. *)
Definition real_row (B : bravais T) (coords : list Z) (i : Z) : out T :=
  ofold (fun p j =>
    c <- vget coords j ;; v <- vget (b_p B) (u64 (i + j * b_dim B)) ;;
    Ok (n_add N p (n_mul N (n_ofZ N c) v))) (upto (b_dim B)) zero.
Definition GetRealSpace (B : bravais T) (coords : list Z) : out (list T) :=
  omapl (real_row B coords) (upto (b_dim B)).

(** Bravais.hpp:146-158 *)
Definition inverse_row (B : bravais T) (realspace : list T) (i : Z) : out T :=
  ofold (fun p j =>
    r <- vget realspace i ;; v <- vget (b_pi B) (u64 (i * b_dim B + j)) ;;
    Ok (n_add N p (n_mul N r v))) (upto (b_dim B)) zero.
Definition GetInverseVector (B : bravais T) (realspace : list T) : out (list T) :=
  omapl (inverse_row B realspace) (upto (b_dim B)).

(** Bravais.hpp:160-171  [coords[j] * 2 * M_PI * pivectors_[i + j * dim_]]
    associates to the left, so [coords[j] * 2] is computed in long.
    [pi] is the constant M_PI. *)
Definition reciprocal_row (pi : T) (B : bravais T) (coords : list Z) (i : Z) : out T :=
  ofold (fun p j =>
    c <- vget coords j ;; c2 <- s64 (c * 2) ;; v <- vget (b_pi B) (u64 (i + j * b_dim B)) ;;
    Ok (n_add N p (n_mul N (n_mul N (n_ofZ N c2) pi) v))) (upto (b_dim B)) zero.
Definition GetReciprocalSpace (pi : T) (B : bravais T) (coords : list Z) : out (list T) :=
  omapl (reciprocal_row pi B coords) (upto (b_dim B)).

(** Bravais.hpp:173-183 *)
Definition coords_difference (B : bravais T) (first second : list Z) : out (list Z) :=
  omapl (fun i => s <- vget second i ;; f <- vget first i ;; s64 (s - f)) (upto (b_dim B)).
Definition BGetVector (B : bravais T) (first second : list Z) : out (list T) :=
  p <- coords_difference B first second ;; GetRealSpace B p.

(** Bravais.hpp:185-196 and 198-209: the same loop over the components. *)
Definition length_of (B : bravais T) (p : list T) : out T :=
  d <- ofold (fun d i => x <- vget p i ;; Ok (n_add N d (n_mul N x x))) (upto (b_dim B)) zero ;;
  Ok (n_sqrt N d).
Definition BGetDistance (B : bravais T) (first second : list Z) : out T :=
  p <- BGetVector B first second ;; length_of B p.
Definition GetDistanceVector (B : bravais T) (first second : list Z) : out (T * list T) :=
  p <- BGetVector B first second ;; d <- length_of B p ;; Ok (d, p).

(** Bravais.hpp:211-223 *)
Definition GetNeighbor (B : bravais T) (point : list Z) (idx : Z) : out (list Z) :=
  let aidx := idx / 2 in
  let sidx := if idx mod 2 =? 0 then 1 else -1 in
  ofold (fun n i =>
    x <- vget n i ;; v <- vget (b_nn B) (u64 (u64 (aidx * b_dim B) + i)) ;;
    d <- s64 (sidx * v) ;; y <- s64 (x + d) ;; vset n i y) (upto (b_dim B)) point.

(** Bravais.hpp:225-253 *)
Let one := n_ofZ N 1.
Definition ChainLattice : bravais T := mkBravais 1 2 [one] [one] [1].
Definition SquareLattice : bravais T :=
  mkBravais 2 4 [one; zero; zero; one] [one; zero; zero; one] [1; 0; 0; 1].
Definition CubicLattice : bravais T :=
  mkBravais 3 6
    [one; zero; zero; zero; one; zero; zero; zero; one]
    [one; zero; zero; zero; one; zero; zero; zero; one]
    [1; 0; 0; 0; 1; 0; 0; 0; 1].
Definition TriangularLattice : bravais T :=
  let two := n_ofZ N 2 in
  let sqrt3 := n_sqrt N (n_ofZ N 3) in
  mkBravais 2 6
    [one; zero; n_div N one two; n_div N sqrt3 two]
    [one; n_div N (n_opp N one) sqrt3; zero; n_div N two sqrt3]
    [1; 0; 0; 1; 1; -1].
End Bravais.

(** M_PI as a double *)
Definition pi_d : f64 := dyad 884279719003555 (-48).
