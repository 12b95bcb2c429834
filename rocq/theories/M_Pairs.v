(** Model of include/bwsl/Pairs.hpp. *)
From Coq Require Import ZArith.
From Verif Require Import Base M_MathInt.
Open Scope Z_scope.

(** Pairs.hpp:30-35  GetPairIndex(a, b, maxval) = b * maxval + a (size_t). *)
Definition GetPairIndex (a b maxval : Z) : Z := u64 (u64 (b * maxval) + a).

(** Pairs.hpp:40-45  overload taking a pair. *)
Definition GetPairIndex2 (p : Z * Z) (maxval : Z) : Z := GetPairIndex (fst p) (snd p) maxval.

(** Pairs.hpp:50-55  GetPair: [i % maxval, i / maxval], undefined for maxval 0. *)
Definition GetPair (i maxval : Z) : out (Z * Z) :=
  if maxval =? 0 then UB else Ok (i mod maxval, i / maxval).

(** Pairs.hpp:60-64  GetNumPairs. *)
Definition GetNumPairs (maxval : Z) : Z := square_u maxval.
