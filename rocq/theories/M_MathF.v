(** Model of the floating-point and searching part of include/bwsl/MathUtils.hpp. *)
From Coq Require Import ZArith List Bool.
From Flocq Require Import IEEE754.BinarySingleNaN.
From Verif Require Import Base F64 Num M_MathInt.
Import ListNotations.
Open Scope Z_scope.
Open Scope out_scope.

(** MathUtils.hpp:170-191  cbinomial<long>: the integer result converted to
    double by the return statement. *)
Definition cbinomial (n k : Z) : out f64 := omap of_Z (cbinomial_int n k).

(** std::partial_sum: every output is the previous output plus the next input. *)
Fixpoint psum_from (acc : f64) (l : list f64) : list f64 :=
  match l with
  | [] => []
  | x :: l' => let s := fadd acc x in s :: psum_from s l'
  end.
Definition partial_sum (l : list f64) : list f64 :=
  match l with [] => [] | x :: l' => x :: psum_from x l' end.

(** std::upper_bound (libstdc++ bits/stl_algobase.h __upper_bound): binary
    search for the first element of which [value < element].  State: (first, len)
    with positions counted from the start of [l]. *)
Definition ub_body {A V} (lt : V -> A -> bool) (l : list A) (value : V) (st : Z * Z)
  : (Z * Z) + out Z :=
  let '(first, len) := st in
  if 0 <? len then
    let half := len / 2 in
    match vget l (first + half) with
    | Ok x => if lt value x then inl (first, half)
              else inl (first + half + 1, len - half - 1)
    | _ => inr UB
    end
  else inr (Ok first).

Definition std_upper_bound {A V} (lt : V -> A -> bool) (l : list A) (value : V)
           (first last : Z) : out Z :=
  while_ (ub_body lt l value) (first, last - first).

(** comul.back(); undefined on an empty vector. *)
Definition vback {A} (l : list A) : out A :=
  match rev l with [] => UB | x :: _ => Ok x end.

(** std::uniform_real_distribution<double>{a, b}(rng) of libstdc++
    (bits/random.h): [canonical * (b - a) + a], where [canonical] is the value
    delivered by std::generate_canonical. *)
Definition uniform_real (canonical a b : f64) : f64 := fadd (fmul canonical (fsub b a)) a.

(** MathUtils.hpp:196-212  choose_between.  The draw [udist(rng)] from
    [0, comul.back()) is the function [draw] of the upper limit. *)
Definition choose_between (draw : f64 -> f64) (probs : list f64) : out Z :=
  let comul := partial_sum probs in
  top <- vback comul ;;
  std_upper_bound flt comul (draw top) 0 (vsize comul).

(** MathUtils.hpp:217-229  choose_between_psums. *)
Definition choose_between_psums (draw : f64 -> f64) (comul : list f64) : out Z :=
  top <- vback comul ;;
  std_upper_bound flt comul (draw top) 0 (vsize comul).

(** MathUtils.hpp:234-240  choose_with_probability; [r] is the draw udist(rng). *)
Definition choose_with_probability (prob r : f64) : bool := flt r prob.

(** MathUtils.hpp:403-409  heaviside<double>. *)
Definition heaviside (x : f64) : f64 := if fge x f0 then f1 else f0.

(** MathUtils.hpp:412-425  heaviside2<double>. *)
Definition fhalf : f64 := dyad 1 (-1).
Definition heaviside2 (x : f64) : f64 :=
  if feq x f0 then fhalf else if fgt x f0 then f1 else f0.

(** MathUtils.hpp:429-436  lerp: [(1 - t) * a + t * b]. *)
Definition lerp {T} (N : num T) (a b t : T) : T :=
  n_add N (n_mul N (n_sub N (n_ofZ N 1) t) a) (n_mul N t b).

(** MathUtils.hpp:438-447  lerpi. *)
Definition lerpi {T} (N : num T) (i j : Z) (a b : T) : T :=
  lerp N a b (n_div N (n_ofZ N i) (n_ofZ N j)).

(** MathUtils.hpp:107-116  sum_squared<Container,double>. *)
Definition sum_squared {T} (N : num T) (v : list T) : T :=
  fold_left (fun d x => n_add N d (n_mul N x x)) v (n_ofZ N 0).

(** MathUtils.hpp:121-130  l2norm on a container of doubles. *)
Definition l2norm {T} (N : num T) (v : list T) : T :=
  n_sqrt N (fold_left (fun d x => n_add N d (n_mul N x x)) v (n_ofZ N 0)).

(** * MathUtils.hpp:352-389  bwsl::upper_bound

    Modelled for a range of pointers into an array [l] (an argument of a class
    in namespace std makes the unqualified recursive call ambiguous).
    Positions are indices of [l]; forming a position below 0 or above the end
    is undefined, so is reading at the end. *)

Definition pos_ok {A} (l : list A) (p : Z) : bool := (0 <=? p) && (p <=? vsize l).

(** Lines 377-379: the offset of the probe from [it].  [std::advance] converts
    the double to an integer (truncation; undefined when it does not fit). *)
Definition interp_offset (value itval toval : f64) (count : Z) : out Z :=
  let np := fround (fmul (fdiv (fsub value itval) (fsub toval itval)) (of_Z count)) in
  match np with
  | B754_nan | B754_infinity _ => UB
  | _ => s64 (Btrunc np)
  end.

(** One iteration of the loop in lines 361-387 on the state (it, to, count);
    [off] computes the offset of the probe.  [inr (Ok (inl p))]: return p;
    [inr (Ok (inr (it, to)))]: the loop condition failed. *)
Definition isearch_body (off : f64 -> f64 -> f64 -> Z -> out Z) (l : list f64) (value : f64)
           (st : Z * Z * Z) : (Z * Z * Z) + out (Z + Z * Z) :=
  let '(it, to, count) := st in
  if 10000 <? count then
    match (itval <- vget l it ;;
           if flt value itval then Ok (inr it)
           else if negb (flt itval value) then Ok (inr (it + 1))
           else
             toval <- vget l to ;;
             if negb (flt value toval) then Ok (inr (to + 1))
             else
               o <- off value itval toval count ;;
               let nt := it + o in
               if pos_ok l nt then
                 ntval <- vget l nt ;;
                 if negb (flt value ntval) then Ok (inl (nt + 1, to))
                 else if pos_ok l (nt - 1) then Ok (inl (it, nt - 1)) else UB
               else UB) with
    | Ok (inl (it', to')) => inl (it', to', to' - it')
    | Ok (inr p) => inr (Ok (inl p))
    | Throw e => inr (Throw e)
    | UB => inr UB
    | Diverge => inr Diverge
    end
  else inr (Ok (inr (it, to))).

(** The body up to the return statement of line 388. *)
Definition isearch (off : f64 -> f64 -> f64 -> Z -> out Z) (l : list f64) (value : f64)
           (first last : Z) : out (Z + Z * Z) :=
  let count := last - first in
  if pos_ok l (first + (count - 1)) then
    while_ (isearch_body off l value) (first, first + (count - 1), count)
  else UB.

(** The whole function: line 388 calls bwsl::upper_bound again. *)
Definition bwsl_upper_bound (l : list f64) (value : f64) (first last : Z) : out Z :=
  while_ (fun st => let '(first, last) := st in
            match isearch interp_offset l value first last with
            | Ok (inl p) => inr (Ok p)
            | Ok (inr (it, to)) => inl (it, to + 1)
            | Throw e => inr (Throw e)
            | UB => inr UB
            | Diverge => inr Diverge
            end) (first, last).

(** The function with line 388 read as a call of std::upper_bound, and the
    probe given by [off]. *)
Definition upper_bound_with (off : f64 -> f64 -> f64 -> Z -> out Z) (l : list f64) (value : f64)
           (first last : Z) : out Z :=
  r <- isearch off l value first last ;;
  match r with
  | inl p => Ok p
  | inr (it, to) => std_upper_bound flt l value it (to + 1)
  end.
