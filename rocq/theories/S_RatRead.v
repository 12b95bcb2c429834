(** Specification of what reading a rational number leaves behind. *)
From Coq Require Import ZArith List Ascii.
From Verif Require Import Base M_Text M_Rational S_Rational.
Import ListNotations.
Open Scope Z_scope.

(** The integer of [w] bits nearest to n. *)
Definition clamp (w n : Z) : Z := Z.max (- 2 ^ (w - 1)) (Z.min n (2 ^ (w - 1) - 1)).

(** What a variable holding [old] holds after an integer was read from [l]. *)
Inductive stored (w old : Z) (l : list ascii) : Z -> Prop :=
| st_blank : blanks l -> stored w old l old
| st_int b i n tl : l = b ++ i ++ tl -> blanks b -> int_text i n -> ~ starts_with_digit tl -> stored w old l (clamp w n)
| st_other b c l' : l = b ++ c :: l' -> blanks b -> ~ blank_char c ->
    (forall i n tl, c :: l' = i ++ tl -> ~ int_text i n) -> stored w old l 0.

(** [l] starts with a [w]-bit integer and two slashes, [tl] follows. *)
Definition first_half (w : Z) (l tl : list ascii) : Prop :=
  exists b1 i n b2 b3, l = b1 ++ i ++ b2 ++ "/"%char :: b3 ++ "/"%char :: tl /\
    blanks b1 /\ blanks b2 /\ blanks b3 /\ int_text i n /\ - 2 ^ (w - 1) <= n < 2 ^ (w - 1).

(** A client reads rationals until the stream fails. *)
Fixpoint read_all (fuel : nat) (w : Z) (r : rat) (st : stream) : list rat * stream :=
  match fuel with
  | O => ([], st)
  | S f =>
      let '(r', st') := rat_get w r st in
      if failb st' then ([], st') else let '(rs, st2) := read_all f w r' st' in (r' :: rs, st2)
  end.

(** Rationals, each printed after some blanks, at least one between two. *)
Inductive rationals_text : list rat -> list ascii -> Prop :=
| rt_end t : blanks t -> rationals_text [] t
| rt_cons r rs b l : blanks b -> rationals_text rs l -> (match l with [] => True | c :: _ => blank_char c end) ->
    rationals_text (r :: rs) (b ++ rat_put r ++ l).
