(** Specification of the contents of pair files, cell by cell. *)
From Coq Require Import ZArith List Ascii String.
From Verif Require Import Base F64 M_Text M_Util S_Obs S_Short.
Import ListNotations.
Open Scope Z_scope.

(** From column c on, a row of the table holds the d components of the vector p. *)
Definition vector_at (rows : list (list (list ascii))) (row c d : Z) (p : list f64) : Prop :=
  forall j, 0 <= j < d -> exists x, vget p j = Ok x /\ reads_back (cell rows row (c + j)) x.

(** One row per ordered pair (a, b) below the header, at its number a + n b: this
    number, a, b, the vectors from site 0 to a and to b, the vector from a to b. *)
Definition pair_file_holds (r : out filesystem) (fname : list ascii) (n d : Z) (v : Z -> Z -> list f64) : Prop :=
  exists fs text, r = Ok fs /\ fs fname = Some text /\ vsize (table text) = 1 + n * n /\
  forall a b, 0 <= a < n -> 0 <= b < n -> let row := 1 + (a + n * b) in
    cell (table text) row 0 = put_int (a + n * b) /\ cell (table text) row 1 = put_int a /\ cell (table text) row 2 = put_int b /\
    vector_at (table text) row 3 d (v 0 a) /\ vector_at (table text) row (3 + d) d (v 0 b) /\ vector_at (table text) row (3 + 2 * d) d (v a b).
