(** Model of the integer part of include/bwsl/MathUtils.hpp.
    Asserts are not modelled (they vanish in Release builds, the default build
    type of CMakeLists.txt:29): the behaviour described is that of the code
    without them. *)
From Coq Require Import ZArith List Bool.
From Verif Require Import Base.
Import ListNotations.
Open Scope Z_scope.
Open Scope out_scope.

(** MathUtils.hpp:44-50  square<size_t> (unsigned: wraps). *)
Definition square_u (x : Z) : Z := u64 (x * x).

(** MathUtils.hpp:44-50  square<long> (signed: overflow is UB). *)
Definition square_s (x : Z) : out Z := s64 (x * x).

(** MathUtils.hpp:55-61  cube<long>: [x * x * x], left to right. *)
Definition cube_s (x : Z) : out Z := y <- s64 (x * x) ;; s64 (y * x).

(** MathUtils.hpp:66-72  accumulate_product over a container of size_t. *)
Definition accumulate_product_u (v : list Z) : Z :=
  fold_left (fun acc x => u64 (acc * x)) v 1.

(** MathUtils.hpp:77-82  accumulate_sum over a container of size_t. *)
Definition accumulate_sum_u (v : list Z) : Z :=
  fold_left (fun acc x => u64 (acc + x)) v 0.

(** MathUtils.hpp:77-82  accumulate_sum over a container of long. *)
Definition accumulate_sum_s (v : list Z) : out Z :=
  ofold (fun acc x => s64 (acc + x)) v 0.

(** MathUtils.hpp:66-72  accumulate_product over a container of long. *)
Definition accumulate_product_s (v : list Z) : out Z :=
  ofold (fun acc x => s64 (acc * x)) v 1.

(** std::max_element with operator< given by [lt] (the first largest element);
    dereferencing the result on an empty range is UB.
    MathUtils.hpp:87-92  bwsl::max. *)
Definition cmax {A} (lt : A -> A -> bool) (v : list A) : out A :=
  match v with
  | [] => UB
  | a :: v' => Ok (fold_left (fun best x => if lt best x then x else best) v' a)
  end.

(** MathUtils.hpp:97-102  bwsl::min (std::min_element: first smallest element). *)
Definition cmin {A} (lt : A -> A -> bool) (v : list A) : out A :=
  match v with
  | [] => UB
  | a :: v' => Ok (fold_left (fun best x => if lt x best then x else best) v' a)
  end.

(** MathUtils.hpp:107-116  sum_squared<Container,long>. *)
Definition sum_squared_s (v : list Z) : out Z :=
  ofold (fun d x => q <- square_s x ;; s64 (d + q)) v 0.

(** MathUtils.hpp:135-140  sgn, over any type with a zero and an operator<:
    [(T(0) < val) - (val < T(0))] with the booleans promoted to int. *)
Definition sgn {A} (lt : A -> A -> bool) (zero val : A) : Z :=
  Z.b2z (lt zero val) - Z.b2z (lt val zero).

(** MathUtils.hpp:145-150  absdiff<size_t>. *)
Definition absdiff_u (a b : Z) : Z := if b <? a then u64 (a - b) else u64 (b - a).

(** MathUtils.hpp:155-164  signeddiff<size_t,long>:
    [(a > b) ? (R)(a - b) : -(R)(b - a)]. *)
Definition signeddiff (a b : Z) : out Z :=
  if b <? a then Ok (to_s64 (u64 (a - b))) else s64 (- to_s64 (u64 (b - a))).

(** MathUtils.hpp:170-191  cbinomial<long>; this is the integer [res] (or the
    literal 0) before its conversion to double by the return statement.
    Loop state: (i, res). *)
Definition cbinomial_body (n k : Z) (st : Z * Z) : (Z * Z) + out Z :=
  let '(i, res) := st in
  if i <=? k then
    match (n1 <- s64 (n + 1) ;; f <- s64 (n1 - i) ;; p <- s64 (res * f) ;;
           i' <- s64 (i + 1) ;; Ok (i', Z.quot p i)) with
    | Ok st' => inl st'
    | Throw e => inr (Throw e)
    | UB => inr UB
    | Diverge => inr Diverge
    end
  else inr (Ok res).

Definition cbinomial_int (n k : Z) : out Z :=
  if n <? k then Ok 0
  else
    d <- s64 (n - k) ;;
    let k' := if d <? k then d else k in
    while_ (cbinomial_body n k') (1, 1).

(** MathUtils.hpp:245-255  sum_into on vectors of long: std::transform over the
    whole left vector; a shorter right vector is read out of bounds. *)
Fixpoint sum_into (left right : list Z) : out (list Z) :=
  match left, right with
  | [], _ => Ok []
  | _ :: _, [] => UB
  | a :: l, b :: r => x <- s64 (a + b) ;; t <- sum_into l r ;; Ok (x :: t)
  end.

(** MathUtils.hpp:260-270  subtract_into on vectors of long. *)
Fixpoint subtract_into (left right : list Z) : out (list Z) :=
  match left, right with
  | [], _ => Ok []
  | _ :: _, [] => UB
  | a :: l, b :: r => x <- s64 (a - b) ;; t <- subtract_into l r ;; Ok (x :: t)
  end.

(** MathUtils.hpp:275-283  invert on a vector of long. *)
Definition invert (c : list Z) : out (list Z) := omapl (fun x => s64 (- x)) c.

(** MathUtils.hpp:288-296  get_inverted on a vector of long (same loop on a copy). *)
Definition get_inverted (c : list Z) : out (list Z) := omapl (fun x => s64 (- x)) c.

(** MathUtils.hpp:315-318  loop of array_to_index; [a] holds long values that
    are converted to size_t. *)
Fixpoint a2i_loop (size a : list Z) (prod index : Z) : out Z :=
  match size with
  | [] => Ok index
  | s :: size' =>
      if s =? 0 then UB
      else
        let prod' := prod / s in
        match a with
        | [] => UB
        | c :: a' => a2i_loop size' a' prod' (u64 (index + u64 (prod' * u64 c)))
        end
  end.

(** MathUtils.hpp:301-321  array_to_index. *)
Definition array_to_index (a size : list Z) : out Z :=
  a2i_loop size a (accumulate_product_u size) 0.

(** MathUtils.hpp:339-343  loop of index_to_array into a vector of long. *)
Fixpoint i2a_loop (size : list Z) (prod index : Z) : out (list Z) :=
  match size with
  | [] => Ok []
  | s :: size' =>
      if s =? 0 then UB
      else
        let prod' := prod / s in
        if prod' =? 0 then UB
        else
          r <- i2a_loop size' prod' (index mod prod') ;;
          Ok (to_s64 (index / prod') :: r)
  end.

(** MathUtils.hpp:326-346  index_to_array<std::vector<long>, ...>. *)
Definition index_to_array (index : Z) (size : list Z) : out (list Z) :=
  i2a_loop size (accumulate_product_u size) index.

(** MathUtils.hpp:392-400  get_gcd on a signed type of [w] bits; [a % b] is
    undefined for b == 0 (excluded by the test) and when a / b overflows. *)
Definition gcd_body (w : Z) (st : Z * Z) : (Z * Z) + out Z :=
  let '(a, b) := st in
  if b =? 0 then inr (Ok a)
  else match sint w (Z.quot a b) with
       | Ok _ => inl (b, Z.rem a b)
       | _ => inr UB
       end.

Definition get_gcd (w a b : Z) : out Z := while_ (gcd_body w) (a, b).
