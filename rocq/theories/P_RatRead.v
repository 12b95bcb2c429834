(** Properties of reading rational numbers (C94). *)
From Coq Require Import ZArith List Bool Ascii String Lia.
From Verif Require Import Base M_Text M_Rational S_Rational S_RationalObj M_Util L_Text L_Rational S_RatRead L_RatRead.
Import ListNotations.
Open Scope Z_scope.

(** C94: what an object holds after FromString, whether it threw or not.  The numerator is
    what the text gives: the nearest integer of the type to the integer in front, 0 if there
    is none, and the old one if there are only blanks.  The denominator is treated alike when
    an integer of the type and two slashes come first, and is otherwise left alone. *)
Theorem C94_stored : forall w s r0 r o, 1 <= w -> FromString w s r0 = (r, o) ->
  stored w (num r0) s (num r) /\
  ((exists tl, first_half w s tl /\ stored w (den r0) tl (den r)) \/ ((forall tl, ~ first_half w s tl) /\ den r = den r0)).
Proof. exact FromString_stored. Qed.
Print Assumptions C94_stored.

(** C94: this leaves no choice. *)
Theorem C94_determined : forall w old l v v', 1 <= w -> stored w old l v -> stored w old l v' -> v = v'.
Proof. intros w old l v v' Hw H H'. now rewrite <- (stored_get w old l v Hw H), <- (stored_get w old l v' Hw H'). Qed.
Print Assumptions C94_determined.
Theorem C94_determined_rest : forall w l t t', first_half w l t -> first_half w l t' -> t = t'.
Proof. exact first_half_fun. Qed.
Print Assumptions C94_determined_rest.

(** C94: rationals written with blanks in between are read back by a loop that runs until the
    stream fails, which happens at the end of the text. *)
Theorem C94_loop : forall w rs text r0 fuel,
  rationals_text rs text -> Forall (fun r => in_w w (num r) /\ in_w w (den r)) rs -> (List.length rs < fuel)%nat ->
  read_all fuel w r0 (fresh text) = (rs, mkStream [] true true).
Proof. intros w rs text r0 fuel H HF Hn. apply read_all_text; auto. discriminate. Qed.
Print Assumptions C94_loop.

(** Non-vacuity. *)
Example C94_ex_stored :
  FromString 32 (chars "99999999999//1") (mkRat 1 2) = (mkRat 2147483647 2, Throw ExBadParsing) /\
  FromString 32 (chars "-99999999999//1") (mkRat 1 2) = (mkRat (-2147483648) 2, Throw ExBadParsing) /\
  FromString 32 (chars "7/") (mkRat 1 2) = (mkRat 7 2, Throw ExBadParsing) /\
  FromString 32 (chars "7 // -2147483649") (mkRat 1 2) = (mkRat 7 (-2147483648), Throw ExBadParsing) /\
  FromString 32 (chars "  ") (mkRat 1 2) = (mkRat 1 2, Throw ExBadParsing) /\
  FromString 32 (chars "x") (mkRat 1 2) = (mkRat 0 2, Throw ExBadParsing).
Proof. repeat split. Qed.

Example C94_ex_loop :
  let rs := [mkRat 1 2; mkRat (-3) 4; mkRat 5 0] in
  rationals_text rs (chars "1//2 -3//4  5//0 ") /\ Forall (fun r => in_w 32 (num r) /\ in_w 32 (den r)) rs /\
  read_all 4 32 rat_default (fresh (chars "1//2 -3//4  5//0 ")) = (rs, mkStream [] true true).
Proof.
  cbv zeta. split; [|split; [repeat constructor; vm_compute; try reflexivity; intros H; discriminate H|reflexivity]].
  assert (Hb : blank_char " ") by (left; reflexivity).
  apply (rt_cons (mkRat 1 2) _ [] (chars " -3//4  5//0 ")); [constructor| |exact Hb].
  apply (rt_cons (mkRat (-3) 4) _ [" "%char] (chars "  5//0 ")); [repeat constructor; exact Hb| |exact Hb].
  apply (rt_cons (mkRat 5 0) _ [" "; " "]%char (chars " ")); [repeat constructor; exact Hb| |exact Hb].
  constructor. repeat constructor; exact Hb.
Qed.
