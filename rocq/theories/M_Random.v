(** The numbers random choices are made from: libstdc++'s generate_canonical on
    a 64-bit engine (std::mt19937_64, the engine of applications/dumpmt.cpp),
    which MathUtils.hpp:204-206, 221-223 and 237 call through
    std::uniform_real_distribution. *)
From Coq Require Import ZArith List Bool.
From Verif Require Import Base F64 M_MathF.
Open Scope Z_scope.

(** std::generate_canonical<double, 53> (bits/random.tcc) on an engine with
    min() = 0 and max() = 2^64 - 1.  One engine word is enough for 53 bits, so
    the loop runs once: sum = 0 + double(word) * 1, divided by 2^64; a result of
    1 or more (a word that rounds up to 2^64) becomes nextafter(1, 0). *)
Definition canonical (word : Z) : f64 :=
  let sum := fadd f0 (fmul (of_Z word) f1) in
  let ret := fdiv sum (dyad 1 64) in
  if fge ret f1 then dyad (2 ^ 53 - 1) (-53) else ret.

(** MathUtils.hpp:196-212  choose_between, drawing from an engine that delivers
    [word]. *)
Definition choose_between_rng (probs : list f64) (word : Z) : out Z :=
  choose_between (uniform_real (canonical word) f0) probs.

(** MathUtils.hpp:217-229  choose_between_psums, likewise. *)
Definition choose_between_psums_rng (comul : list f64) (word : Z) : out Z :=
  choose_between_psums (uniform_real (canonical word) f0) comul.

(** MathUtils.hpp:234-240  choose_with_probability, likewise. *)
Definition choose_with_probability_rng (prob : f64) (word : Z) : bool :=
  choose_with_probability prob (uniform_real (canonical word) f0 f1).
