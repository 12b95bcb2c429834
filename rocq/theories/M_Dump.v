(** Model of the application dumpmt (applications/dumpmt.cpp).  The seeding of
    std::mt19937_64 is that of libstdc++ 13, bits/random.tcc:326-346. *)
From Coq Require Import ZArith List Bool Ascii.
From Verif Require Import Base M_Text M_Util.
Import ListNotations.
Open Scope Z_scope.
Open Scope out_scope.

(** dumpmt.cpp:28  atoi (C standard 7.22.1.2): blanks, a sign, digits; 0 without
    digits; a value that is no int is undefined. *)
Definition atoi (s : list ascii) : out Z :=
  let '(neg, l) := read_sign (skip_ws s) in
  let '(v, _, _) := read_digits l 0 0%nat in
  sint 32 (if neg then - v else v).

(** bits/random.tcc:335-343: word [i] from word [i-1]. *)
Definition mt_next_word (x i : Z) : Z :=
  let x := Z.lxor x (x / 2 ^ 62) in
  let x := u64 (x * 6364136223846793005) in
  u64 (x + i mod 312).

Fixpoint mt_words_from (n : nat) (i x : Z) : list Z :=
  match n with
  | O => []
  | S n' => let y := mt_next_word x i in y :: mt_words_from n' (i + 1) y
  end.

(** std::mt19937_64(seed): 312 words, position 312. *)
Definition mt19937_64 (seed : Z) : engine :=
  mkEngine (u64 seed :: mt_words_from 311 1 (u64 seed)) 312.

(** dumpmt.cpp:21-35  main, given the arguments after the program name: exit code
    and standard output. *)
Definition dumpmt (args : list (list ascii)) : out (Z * list ascii) :=
  match args with
  | [] => Ok (1, [])
  | a :: _ =>
      n <- atoi a ;;
      Ok (0, mt_put (mt19937_64 (u64 n)) ++ ["010"%char])
  end.
