(** Model of include/bwsl/EnumString.hpp, FileUtils.hpp and RNGUtils.hpp. *)
From Coq Require Import ZArith List Bool Ascii String.
From Verif Require Import Base M_Text.
Import ListNotations.
Open Scope Z_scope.
Open Scope out_scope.

Definition chars (s : string) : list ascii := list_ascii_of_string s.

(** operator== of std::string *)
Fixpoint str_eq (a b : list ascii) : bool :=
  match a, b with
  | [], [] => true
  | x :: a', y :: b' => Ascii.eqb x y && str_eq a' b'
  | _, _ => false
  end.

(** * EnumString.hpp:59-104
    BWSL_DEFINE_ENUM_WITH_STRING_CONVERSIONS(name, enumerators): the enumerators
    are plain identifiers, so the i-th one has the value i. *)
Record enum := mkEnum { en_name : list ascii; en_enumerators : list (list ascii) }.

(** EnumString.hpp:27-29 and 85-95: one case per enumerator, then the default.
    [i] is the value of the first enumerator of [l]. *)
Fixpoint to_string_cases (l : list (list ascii)) (i v : Z) (default : list ascii) : list ascii :=
  match l with
  | [] => default
  | e :: l' => if v =? i then e else to_string_cases l' (i + 1) v default
  end.
Definition EnumToString (E : enum) (v : Z) : list ascii :=
  to_string_cases (en_enumerators E) 0 v (chars "[ Unknown " ++ en_name E ++ chars " ]").

(** EnumString.hpp:34-38 and 97-104: the new value of [n] and the outcome. *)
Fixpoint from_string_ifs (l : list (list ascii)) (i n : Z) (v : list ascii) : Z * out unit :=
  match l with
  | [] => (n, Throw ExEnumConversion)
  | e :: l' => if str_eq v e then (i, Ok tt) else from_string_ifs l' (i + 1) n v
  end.
Definition EnumFromString (E : enum) (n : Z) (v : list ascii) : Z * out unit :=
  from_string_ifs (en_enumerators E) 0 n v.

(** * FileUtils.hpp:28-48
    A file system: for every path the bytes of the file there, if it can be
    opened and read. *)
Definition filesystem := list ascii -> option (list ascii).

(** std::equal(first1, last1, first2) on stream iterators: reading the second
    stream past its end is undefined. *)
Fixpoint std_equal (l1 l2 : list ascii) : out bool :=
  match l1 with
  | [] => Ok true
  | x :: l1' =>
      match l2 with
      | [] => UB
      | y :: l2' => if Ascii.eqb x y then std_equal l1' l2' else Ok false
      end
  end.

Definition compare_files (fs : filesystem) (p1 p2 : list ascii) : out bool :=
  match fs p1, fs p2 with
  | Some f1, Some f2 =>
      (* opened at the end: tellg is the size *)
      if negb (vsize f1 =? vsize f2) then Ok false
      else std_equal f1 f2
  | _, _ => Ok false
  end.

(** * RNGUtils.hpp
    A mersenne_twister_engine with 64-bit words (std::mt19937, std::mt19937_64 on
    LP64): the words and the position.  operator<< and operator>> are those of
    libstdc++ 13, bits/random.tcc:471-524. *)
Record engine := mkEngine { mt_words : list Z; mt_pos : Z }.

(** bits/random.tcc:471-498 *)
Definition mt_put (e : engine) : list ascii :=
  flat_map (fun w => put_int w ++ [" "%char]) (mt_words e) ++ put_int (mt_pos e).

(** bits/random.tcc:500-524 *)
Fixpoint mt_get_words (ws : list Z) (st : stream) : list Z * stream :=
  match ws with
  | [] => ([], st)
  | w :: ws' =>
      let '(w', st1) := get_uint w st in
      let '(ws1, st2) := mt_get_words ws' st1 in (w' :: ws1, st2)
  end.
Definition mt_get (e : engine) (st : stream) : engine * stream :=
  let '(ws, st1) := mt_get_words (mt_words e) st in
  let '(p, st2) := get_uint (mt_pos e) st1 in
  (mkEngine ws p, st2).

(** RNGUtils.hpp:56-68: the text put into the archive (writing to a string
    stream does not fail). *)
Definition mt_save (e : engine) : list ascii := mt_put e.
(** RNGUtils.hpp:42-54: the new engine and the outcome, given the archived text. *)
Definition mt_load (e : engine) (text : list ascii) : engine * out unit :=
  let '(e', st) := mt_get e (fresh text) in
  (e', if failb st then Throw ExInvalidArgument else Ok tt).
