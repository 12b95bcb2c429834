(** Model of the part of the C++ iostreams used by the library: formatted
    extraction of integers and characters from a string stream, and formatted
    insertion of integers, in the classic "C" locale with default flags
    (decimal, skipws).  Modelled after the standard ([istream.formatted],
    [facet.num.get.virtuals]) as implemented by libstdc++ 64-bit.
    A stream is the unread text plus the eofbit and failbit. *)
From Coq Require Import ZArith List Bool Ascii.
From Coq Require Decimal.
From Verif Require Import Base.
Import ListNotations.
Open Scope Z_scope.

Record stream := mkStream { rest : list ascii; eofb : bool; failb : bool }.

Definition fresh (s : list ascii) : stream := mkStream s false false.
Definition good (st : stream) : bool := negb (eofb st) && negb (failb st).

(** isspace in the "C" locale: space, \t, \n, \v, \f, \r. *)
Definition is_space (c : ascii) : bool :=
  let n := N_of_ascii c in (N.eqb n 32 || (N.leb 9 n && N.leb n 13))%N.

(** Value of a decimal digit character. *)
Definition digit (c : ascii) : option Z :=
  let n := Z.of_N (N_of_ascii c) in
  if (48 <=? n) && (n <=? 57) then Some (n - 48) else None.

Fixpoint skip_ws (l : list ascii) : list ascii :=
  match l with
  | c :: l' => if is_space c then skip_ws l' else l
  | [] => []
  end.

(** The sentry of formatted input: [None] when extraction must not happen (the
    stream has then its new error bits), else the stream without leading blanks. *)
Definition sentry (st : stream) : stream + stream :=
  if good st then
    match skip_ws (rest st) with
    | [] => inr (mkStream [] true true)
    | l => inl (mkStream l (eofb st) (failb st))
    end
  else inr (mkStream (rest st) (eofb st) true).

(** Longest prefix of digits: accumulated value, number of digits, remainder. *)
Fixpoint read_digits (l : list ascii) (acc : Z) (n : nat) : Z * nat * list ascii :=
  match l with
  | c :: l' =>
      match digit c with
      | Some d => read_digits l' (acc * 10 + d) (S n)
      | None => (acc, n, l)
      end
  | [] => (acc, n, [])
  end.

(** Optional sign. *)
Definition read_sign (l : list ascii) : bool * list ascii :=
  match l with
  | c :: l' =>
      if Ascii.eqb c "-" then (true, l') else if Ascii.eqb c "+" then (false, l') else (false, l)
  | [] => (false, [])
  end.

Definition is_nil {A} (l : list A) : bool := match l with [] => true | _ => false end.

(** num_get for a signed type of [w] bits: value to store and new stream. *)
Definition num_get_int (w : Z) (l : list ascii) : Z * stream :=
  let '(neg, l1) := read_sign l in
  let '(v, n, l2) := read_digits l1 0 0%nat in
  match n with
  | O => (0, mkStream l2 (is_nil l2) true)
  | _ =>
      let x := if neg then - v else v in
      if is_sint w x then (x, mkStream l2 (is_nil l2) false)
      else (if neg then - 2 ^ (w - 1) else 2 ^ (w - 1) - 1, mkStream l2 (is_nil l2) true)
  end.

(** [in >> x] for a signed integer of [w] bits holding [old] before the call. *)
Definition get_int (w old : Z) (st : stream) : Z * stream :=
  match sentry st with
  | inr st' => (old, st')
  | inl st' => num_get_int w (rest st')
  end.

(** num_get for unsigned long: a minus sign negates modulo 2^64. *)
Definition num_get_uint (l : list ascii) : Z * stream :=
  let '(neg, l1) := read_sign l in
  let '(v, n, l2) := read_digits l1 0 0%nat in
  match n with
  | O => (0, mkStream l2 (is_nil l2) true)
  | _ =>
      if v <? two64 then ((if neg then u64 (- v) else v), mkStream l2 (is_nil l2) false)
      else (two64 - 1, mkStream l2 (is_nil l2) true)
  end.

Definition get_uint (old : Z) (st : stream) : Z * stream :=
  match sentry st with
  | inr st' => (old, st')
  | inl st' => num_get_uint (rest st')
  end.

(** [in >> c] for a char holding [old] before the call. *)
Definition get_char (old : ascii) (st : stream) : ascii * stream :=
  match sentry st with
  | inr st' => (old, st')
  | inl st' =>
      match rest st' with
      | c :: l => (c, mkStream l false false)
      | [] => (old, mkStream [] true true)   (* not reached: the sentry failed *)
      end
  end.

(** [in.setstate(failbit)] *)
Definition set_fail (st : stream) : stream := mkStream (rest st) (eofb st) true.

(** [out << x] for an integer: minus sign and decimal digits without leading
    zeros (the numerals of Coq's standard library). *)
Fixpoint uint_chars (d : Decimal.uint) : list ascii :=
  match d with
  | Decimal.Nil => []
  | Decimal.D0 d => "0"%char :: uint_chars d
  | Decimal.D1 d => "1"%char :: uint_chars d
  | Decimal.D2 d => "2"%char :: uint_chars d
  | Decimal.D3 d => "3"%char :: uint_chars d
  | Decimal.D4 d => "4"%char :: uint_chars d
  | Decimal.D5 d => "5"%char :: uint_chars d
  | Decimal.D6 d => "6"%char :: uint_chars d
  | Decimal.D7 d => "7"%char :: uint_chars d
  | Decimal.D8 d => "8"%char :: uint_chars d
  | Decimal.D9 d => "9"%char :: uint_chars d
  end.

Definition put_int (z : Z) : list ascii :=
  match Z.to_int z with
  | Decimal.Pos d => uint_chars d
  | Decimal.Neg d => "-"%char :: uint_chars d
  end.
