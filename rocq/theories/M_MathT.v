(** Model of the templates of include/bwsl/MathUtils.hpp at further types: double,
    long where M_MathInt has size_t, size_t where it has long, and 32-bit integers. *)
From Coq Require Import ZArith List Bool.
From Flocq Require Import IEEE754.BinarySingleNaN.
From Verif Require Import Base F64 Num M_MathInt.
Import ListNotations.
Open Scope Z_scope.
Open Scope out_scope.

(** MathUtils.hpp:145-150  absdiff<long>. *)
Definition absdiff_s (a b : Z) : out Z := if b <? a then s64 (a - b) else s64 (b - a).

(** MathUtils.hpp:145-150  absdiff<double>. *)
Definition absdiff_f (a b : f64) : f64 := if fgt a b then fsub a b else fsub b a.

(** MathUtils.hpp:155-164  signeddiff<unsigned, long>: the difference wraps in 32
    bits, the conversion to long keeps the value. *)
Definition u32 (z : Z) : Z := z mod 2 ^ 32.
Definition signeddiff_32 (a b : Z) : out Z := if b <? a then Ok (u32 (a - b)) else s64 (- u32 (b - a)).

(** MathUtils.hpp:66-72  accumulate_product over a container of doubles. *)
Definition accumulate_product_f (v : list f64) : f64 := fold_left fmul v f1.

(** MathUtils.hpp:77-82  accumulate_sum over a container of doubles. *)
Definition accumulate_sum_f (v : list f64) : f64 := fold_left fadd v f0.

(** MathUtils.hpp:245-255, 260-270  sum_into and subtract_into on vectors of doubles. *)
Fixpoint transform_f (op : f64 -> f64 -> f64) (left right : list f64) : out (list f64) :=
  match left, right with
  | [], _ => Ok []
  | _ :: _, [] => UB
  | a :: l, b :: r => t <- transform_f op l r ;; Ok (op a b :: t)
  end.
Definition sum_into_f := transform_f fadd.
Definition subtract_into_f := transform_f fsub.

(** MathUtils.hpp:275-283  invert on a vector of doubles. *)
Definition invert_f (c : list f64) : list f64 := map fopp c.

(** MathUtils.hpp:170-191  cbinomial<size_t> before the conversion to double of the
    return statement: everything wraps.  Loop state: (i, res). *)
Definition cbinomial_u_body (n k : Z) (st : Z * Z) : (Z * Z) + out Z :=
  let '(i, res) := st in
  if i <=? k then inl (u64 (i + 1), u64 (res * u64 (u64 (n + 1) - i)) / i) else inr (Ok res).

Definition cbinomial_u (n k : Z) : out Z :=
  if n <? k then Ok 0
  else
    let d := u64 (n - k) in
    let k' := if d <? k then d else k in
    while_ (cbinomial_u_body n k') (1, 1).

(** MathUtils.hpp:392-400  get_gcd on an unsigned type. *)
Definition gcd_u_body (st : Z * Z) : (Z * Z) + out Z :=
  let '(a, b) := st in if b =? 0 then inr (Ok a) else inl (b, a mod b).

Definition get_gcd_u (a b : Z) : out Z := while_ gcd_u_body (a, b).

(** Conversion of a size_t to int: the low 32 bits in two's complement. *)
Definition to_s32 (z : Z) : Z := let w := z mod 2 ^ 32 in if w <? 2 ^ 31 then w else w - 2 ^ 32.

(** MathUtils.hpp:326-346  index_to_array<std::vector<int>, ...>. *)
Fixpoint i2a32_loop (size : list Z) (prod index : Z) : out (list Z) :=
  match size with
  | [] => Ok []
  | s :: size' =>
      if s =? 0 then UB
      else
        let prod' := prod / s in
        if prod' =? 0 then UB
        else
          r <- i2a32_loop size' prod' (index mod prod') ;;
          Ok (to_s32 (index / prod') :: r)
  end.

Definition index_to_array_32 (index : Z) (size : list Z) : out (list Z) :=
  i2a32_loop size (accumulate_product_u size) index.
