(** Specification of decimal literals, with or without point and exponent. *)
From Coq Require Import ZArith Reals List Ascii.
From Flocq Require Import Core.
From Flocq Require Import IEEE754.BinarySingleNaN.
From Verif Require Import Base F64 M_Text M_Util M_Obs S_Obs S_Rational S_Fmt.
Import ListNotations.
Open Scope Z_scope.

Definition point (fr : list ascii) : list ascii := match fr with [] => [] | _ => "."%char :: fr end.
Definition exponent_part (ex : list ascii) (k : Z) : Prop :=
  ex = [] /\ k = 0 \/ exists e, ex = "e"%char :: e /\ exponent_text e k.

(** The digits read as one integer n, the number f of digits after the point, the
    exponent k, and whether there is a minus sign. *)
Definition literal (l : list ascii) (neg : bool) (n f k : Z) : Prop :=
  exists ip fr ex, l = (if neg then ["-"%char] else []) ++ ip ++ point fr ++ ex /\
    ip <> [] /\ Z.of_nat (length fr) = f /\ digits_text (ip ++ fr) n /\ exponent_part ex k.

(** The number spells, and the sign it is spells with. *)
Definition literal_value (neg : bool) (n f k : Z) : R := ((if neg then - 1 else 1) * (IZR n * bpow ten (k - f)))%R.
Definition spells (l : list ascii) (neg : bool) (v : R) : Prop :=
  exists n f k, literal l neg n f k /\ v = literal_value neg n f k.

(** v is read (correctly rounded) as x; no number with fewer digits is, and none with as
    many digits that is nearer. *)
Definition shortest_for (x v : R) : Prop :=
  rnd v = x /\ exists p, 0 <= p /\ decimal p v /\
  forall q w, 0 <= q -> decimal q w -> rnd w = x -> p <= q /\ (q = p -> (Rabs (v - x) <= Rabs (w - x))%R).

(** The text is read back as the double. *)
Definition reads_back (t : list ascii) (x : f64) : Prop := fin x -> exists v, spells t (Bsign x) v /\ rnd v = RR x.

Definition cell (rows : list (list (list ascii))) (i j : Z) : list ascii := nth (Z.to_nat j) (nth (Z.to_nat i) rows []) [].

(** The file holds, below a header and to the right of the site numbers, the vectors p i. *)
Definition file_holds (r : out filesystem) (fname : list ascii) (n d : Z) (p : Z -> list f64) : Prop :=
  exists fs text, r = Ok fs /\ fs fname = Some text /\ vsize (table text) = 1 + n /\
  forall i j, 0 <= i < n -> 0 <= j < d -> exists x, vget (p i) j = Ok x /\ reads_back (cell (table text) (1 + i) (1 + j)) x.
