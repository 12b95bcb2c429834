(** Independent specification for rationals: their value in Q and their text. *)
From Coq Require Import ZArith QArith List Ascii.
Import ListNotations.
Open Scope Z_scope.

(** The rational number n/d (d may have any sign; meaningful for d <> 0). *)
Definition frac (n d : Z) : Q := (inject_Z n / inject_Z d)%Q.

(** Characters. *)
Definition blank_char (c : ascii) : Prop :=
  In c [" "; "009"; "010"; "011"; "012"; "013"]%char.
Definition digit_char (c : ascii) (d : Z) : Prop :=
  nth_error ["0"; "1"; "2"; "3"; "4"; "5"; "6"; "7"; "8"; "9"]%char (Z.to_nat d) = Some c /\ 0 <= d.

(** A non-empty string of decimal digits and its value. *)
Inductive digits_text : list ascii -> Z -> Prop :=
| dt_one c d : digit_char c d -> digits_text [c] d
| dt_more l v c d : digits_text l v -> digit_char c d -> digits_text (l ++ [c]) (10 * v + d).

(** An integer: optional sign and digits. *)
Inductive int_text : list ascii -> Z -> Prop :=
| it_plain l v : digits_text l v -> int_text l v
| it_plus l v : digits_text l v -> int_text ("+"%char :: l) v
| it_minus l v : digits_text l v -> int_text ("-"%char :: l) (- v).

Definition blanks (l : list ascii) : Prop := Forall blank_char l.

Definition starts_with_digit (l : list ascii) : Prop :=
  exists c l' d, l = c :: l' /\ digit_char c d.

(** [s] begins with the text of a rational n//d followed by [rest]. *)
Definition rational_text (lo hi : Z) (s : list ascii) (n d : Z) (rest : list ascii) : Prop :=
  exists b1 i1 b2 b3 b4 i2,
    s = b1 ++ i1 ++ b2 ++ "/"%char :: b3 ++ "/"%char :: b4 ++ i2 ++ rest /\
    blanks b1 /\ blanks b2 /\ blanks b3 /\ blanks b4 /\
    int_text i1 n /\ int_text i2 d /\ ~ starts_with_digit rest /\
    lo <= n < hi /\ lo <= d < hi.
