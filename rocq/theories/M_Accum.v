(** Model of include/bwsl/accumulators/*.hpp and Accumulators.hpp.
    The classes that only compute with doubles are written over [num T], so that
    the same code can be read in double and in exact arithmetic.
    [chk]: whether BWSL_ACCUMULATORS_CHECKS is defined.
    An Add returns the object after the call and how the call ended.  A load
    overwrites the members of the object [b] it is called on, in archive order. *)
From Coq Require Import ZArith List Bool.
From Verif Require Import Base F64 Num M_Archive.
Import ListNotations.
Open Scope Z_scope.
Open Scope out_scope.

Definition ulong_max : Z := two64 - 1.

(** * KahanAccumulator.hpp *)

(** KahanAccumulator.hpp:71-77 *)
Record kahan (T : Type) := mkKahan { k_sum : T; k_c : T; k_count : Z }.
Arguments mkKahan {T}. Arguments k_sum {T}. Arguments k_c {T}. Arguments k_count {T}.

Section Kahan.
Context {T : Type} (N : num T).
Let zero := n_ofZ N 0.

(** KahanAccumulator.hpp:36 with the member initialisers of 71-77. *)
Definition kahan_new : kahan T := mkKahan zero zero 0.

(** KahanAccumulator.hpp:94-98  the update of Add. *)
Definition kahan_step (a : kahan T) (x : T) : kahan T :=
  let y := n_sub N x (k_c a) in
  let t := n_add N (k_sum a) y in
  mkKahan t (n_sub N (n_sub N t (k_sum a)) y) (u64 (k_count a + 1)).

(** KahanAccumulator.hpp:85-99 *)
Definition KahanAdd (chk : bool) (a : kahan T) (x : T) : kahan T * out unit :=
  if chk && (k_count a =? ulong_max) then (a, Throw ExAccumulatorOverflow)
  else (kahan_step a x, Ok tt).

(** KahanAccumulator.hpp:57, 60, 63 *)
Definition KahanSum (a : kahan T) : T := k_sum a.
Definition KahanMean (a : kahan T) : T := n_div N (k_sum a) (n_ofZ N (k_count a)).
Definition KahanCount (a : kahan T) : Z := k_count a.

(** KahanAccumulator.hpp:101-107 *)
Definition KahanReset (a : kahan T) : kahan T := mkKahan zero zero 0.
End Kahan.

(** KahanAccumulator.hpp:109-118 *)
Definition kahan_save (a : kahan f64) : list tok := [TD (k_sum a); TD (k_c a); TU (k_count a)].
Definition kahan_load (b : kahan f64) : loader (kahan f64) :=
  lbind load_d (fun s => let b := mkKahan s (k_c b) (k_count b) in
  lbind load_d (fun c => let b := mkKahan (k_sum b) c (k_count b) in
  lbind load_u (fun n => lret (mkKahan (k_sum b) (k_c b) n)))).

(** * NeumaierAccumulator.hpp *)

(** NeumaierAccumulator.hpp:72-78 *)
Record neumaier (T : Type) := mkNeumaier { n_sum : T; n_c : T; n_count : Z }.
Arguments mkNeumaier {T}. Arguments n_sum {T}. Arguments n_c {T}. Arguments n_count {T}.

Section Neumaier.
Context {T : Type} (N : num T).
Let zero := n_ofZ N 0.

Definition neumaier_new : neumaier T := mkNeumaier zero zero 0.

(** NeumaierAccumulator.hpp:96-103  the update of Add. *)
Definition neumaier_step (a : neumaier T) (x : T) : neumaier T :=
  let t := n_add N (n_sum a) x in
  let c := if n_le N (n_abs N x) (n_abs N (n_sum a))
           then n_add N (n_c a) (n_add N (n_sub N (n_sum a) t) x)
           else n_add N (n_c a) (n_add N (n_sub N x t) (n_sum a)) in
  mkNeumaier t c (u64 (n_count a + 1)).

(** NeumaierAccumulator.hpp:86-104 *)
Definition NeumaierAdd (chk : bool) (a : neumaier T) (x : T) : neumaier T * out unit :=
  if chk && (n_count a =? ulong_max) then (a, Throw ExAccumulatorOverflow)
  else (neumaier_step a x, Ok tt).

(** NeumaierAccumulator.hpp:58, 61, 64 *)
Definition NeumaierSum (a : neumaier T) : T := n_add N (n_sum a) (n_c a).
Definition NeumaierMean (a : neumaier T) : T := n_div N (NeumaierSum a) (n_ofZ N (n_count a)).
Definition NeumaierCount (a : neumaier T) : Z := n_count a.

(** NeumaierAccumulator.hpp:106-112 *)
Definition NeumaierReset (a : neumaier T) : neumaier T := mkNeumaier zero zero 0.
End Neumaier.

(** NeumaierAccumulator.hpp:114-123 *)
Definition neumaier_save (a : neumaier f64) : list tok := [TD (n_sum a); TD (n_c a); TU (n_count a)].
Definition neumaier_load (b : neumaier f64) : loader (neumaier f64) :=
  lbind load_d (fun s => let b := mkNeumaier s (n_c b) (n_count b) in
  lbind load_d (fun c => let b := mkNeumaier (n_sum b) c (n_count b) in
  lbind load_u (fun n => lret (mkNeumaier (n_sum b) (n_c b) n)))).

(** * KnuthWelfordAccumulator.hpp *)

(** KnuthWelfordAccumulator.hpp:87-93 *)
Record kw (T : Type) := mkKw { kw_mean : T; kw_m2 : T; kw_count : Z }.
Arguments mkKw {T}. Arguments kw_mean {T}. Arguments kw_m2 {T}. Arguments kw_count {T}.

Section KW.
Context {T : Type} (N : num T).
Let zero := n_ofZ N 0.

Definition kw_new : kw T := mkKw zero zero 0.

(** KnuthWelfordAccumulator.hpp:113-118  the update of Add. *)
Definition kw_step (a : kw T) (x : T) : kw T :=
  let count := u64 (kw_count a + 1) in
  let delta := n_sub N x (kw_mean a) in
  let mean := n_add N (kw_mean a) (n_div N delta (n_ofZ N count)) in
  let delta2 := n_sub N x mean in
  mkKw mean (n_add N (kw_m2 a) (n_mul N delta delta2)) count.

(** KnuthWelfordAccumulator.hpp:103-119 *)
Definition KwAdd (chk : bool) (a : kw T) (x : T) : kw T * out unit :=
  if chk && (kw_count a =? ulong_max) then (a, Throw ExAccumulatorOverflow)
  else (kw_step a x, Ok tt).

(** KnuthWelfordAccumulator.hpp:61, 64, 79 *)
Definition KwSum (a : kw T) : T := n_mul N (kw_mean a) (n_ofZ N (kw_count a)).
Definition KwMean (a : kw T) : T := kw_mean a.
Definition KwCount (a : kw T) : Z := kw_count a.

(** KnuthWelfordAccumulator.hpp:121-131 *)
Definition KwVariance (corrected : bool) (a : kw T) : T :=
  if kw_count a <? 2 then n_nan N
  else n_div N (kw_m2 a) (n_ofZ N (if corrected then u64 (kw_count a - 1) else kw_count a)).

(** KnuthWelfordAccumulator.hpp:133-141 *)
Definition KwScaledVariance (a : kw T) : T := if kw_count a <? 2 then n_nan N else kw_m2 a.

(** KnuthWelfordAccumulator.hpp:143-147 *)
Definition KwStandardDeviation (corrected : bool) (a : kw T) : T := n_sqrt N (KwVariance corrected a).

(** KnuthWelfordAccumulator.hpp:149-153 *)
Definition KwError (corrected : bool) (a : kw T) : T :=
  n_div N (KwStandardDeviation corrected a) (n_sqrt N (n_ofZ N (kw_count a))).

(** KnuthWelfordAccumulator.hpp:155-161 *)
Definition KwReset (a : kw T) : kw T := mkKw zero zero 0.
End KW.

(** KnuthWelfordAccumulator.hpp:163-173 *)
Definition kw_save (a : kw f64) : list tok := [TD (kw_mean a); TD (kw_m2 a); TU (kw_count a)].
Definition kw_load (b : kw f64) : loader (kw f64) :=
  lbind load_d (fun s => let b := mkKw s (kw_m2 b) (kw_count b) in
  lbind load_d (fun c => let b := mkKw (kw_mean b) c (kw_count b) in
  lbind load_u (fun n => lret (mkKw (kw_mean b) (kw_m2 b) n)))).

(** * WestAccumulator.hpp *)

(** WestAccumulator.hpp:85-97 *)
Record west (T : Type) := mkWest {
  w_sw : T; w_sw2 : T; w_mean : T; w_m2 : T; w_count : Z }.
Arguments mkWest {T}. Arguments w_sw {T}. Arguments w_sw2 {T}. Arguments w_mean {T}.
Arguments w_m2 {T}. Arguments w_count {T}.

Section West.
Context {T : Type} (N : num T).
Let zero := n_ofZ N 0.

Definition west_new : west T := mkWest zero zero zero zero 0.

(** WestAccumulator.hpp:118-124  the update of Add for a positive weight;
    [w * (m - oldmean) * (m - mean_)] associates to the left. *)
Definition west_step (a : west T) (m w : T) : west T :=
  let sw := n_add N (w_sw a) w in
  let sw2 := n_add N (w_sw2 a) (n_mul N w w) in
  let oldmean := w_mean a in
  let mean := n_add N oldmean (n_mul N (n_div N w sw) (n_sub N m oldmean)) in
  let m2 := n_add N (w_m2 a) (n_mul N (n_mul N w (n_sub N m oldmean)) (n_sub N m mean)) in
  mkWest sw sw2 mean m2 (u64 (w_count a + 1)).

(** WestAccumulator.hpp:107-126 *)
Definition WestAdd (chk : bool) (a : west T) (m w : T) : west T * out unit :=
  if n_lt N zero w then
    if chk && (w_count a =? ulong_max) then (a, Throw ExAccumulatorOverflow)
    else (west_step a m w, Ok tt)
  else (a, Ok tt).

(** WestAccumulator.hpp:60, 63, 77 *)
Definition WestSum (a : west T) : T := n_mul N (w_mean a) (w_sw a).
Definition WestMean (a : west T) : T := w_mean a.
Definition WestCount (a : west T) : Z := w_count a.

(** WestAccumulator.hpp:128-136 *)
Definition WestPopulationVariance (a : west T) : T :=
  if w_count a <? 2 then n_nan N else n_div N (w_m2 a) (w_sw a).

(** WestAccumulator.hpp:138-146 *)
Definition WestSampleFrequencyVariance (a : west T) : T :=
  if w_count a <? 2 then n_nan N else n_div N (w_m2 a) (n_sub N (w_sw a) (n_ofZ N 1)).

(** WestAccumulator.hpp:148-156 *)
Definition WestSampleReliabilityVariance (a : west T) : T :=
  if w_count a <? 2 then n_nan N
  else n_div N (w_m2 a) (n_sub N (w_sw a) (n_div N (w_sw2 a) (w_sw a))).

(** WestAccumulator.hpp:158-166 *)
Definition WestReset (a : west T) : west T := mkWest zero zero zero zero 0.
End West.

(** WestAccumulator.hpp:168-179 *)
Definition west_save (a : west f64) : list tok :=
  [TD (w_sw a); TD (w_sw2 a); TD (w_mean a); TD (w_m2 a); TU (w_count a)].
Definition west_load (b : west f64) : loader (west f64) :=
  lbind load_d (fun s => let b := mkWest s (w_sw2 b) (w_mean b) (w_m2 b) (w_count b) in
  lbind load_d (fun s2 => let b := mkWest (w_sw b) s2 (w_mean b) (w_m2 b) (w_count b) in
  lbind load_d (fun m => let b := mkWest (w_sw b) (w_sw2 b) m (w_m2 b) (w_count b) in
  lbind load_d (fun m2 => let b := mkWest (w_sw b) (w_sw2 b) (w_mean b) m2 (w_count b) in
  lbind load_u (fun n => lret (mkWest (w_sw b) (w_sw2 b) (w_mean b) (w_m2 b) n)))))).

(** * NaiveIntegerAccumulator.hpp *)

(** NaiveIntegerAccumulator.hpp:85-91 *)
Record naive := mkNaive { ni_sum : Z; ni_sum2 : Z; ni_count : Z }.

Definition naive_new : naive := mkNaive 0 0 0.

(** NaiveIntegerAccumulator.hpp:117-120  the update of Add; a signed overflow
    ends the execution. *)
Definition naive_step (a : naive) (x : Z) : out naive :=
  s <- s64 (ni_sum a + x) ;; q <- s64 (x * x) ;; s2 <- s64 (ni_sum2 a + q) ;;
  Ok (mkNaive s s2 (u64 (ni_count a + 1))).

(** NaiveIntegerAccumulator.hpp:104-115  the three checks, in order.  The
    second compares unsigned values; the third parses as
    [(max < sum2_) <= x * x]. *)
Definition naive_checks (a : naive) (x : Z) : out unit :=
  if ni_count a =? ulong_max then Throw ExAccumulatorOverflow
  else if u64 (ulong_max - u64 (ni_sum a)) <=? u64 x then Throw ExAccumulatorOverflow
  else q <- s64 (x * x) ;;
       if Z.b2z (ulong_max <? u64 (ni_sum2 a)) <=? q then Throw ExAccumulatorOverflow else Ok tt.

(** NaiveIntegerAccumulator.hpp:101-121 *)
Definition NaiveAdd (chk : bool) (a : naive) (x : Z) : naive * out unit :=
  match (if chk then naive_checks a x else Ok tt) with
  | Ok _ => match naive_step a x with
            | Ok a' => (a', Ok tt)
            | Throw e => (a, Throw e)
            | UB => (a, UB)
            | Diverge => (a, Diverge)
            end
  | Throw e => (a, Throw e)
  | UB => (a, UB)
  | Diverge => (a, Diverge)
  end.

(** NaiveIntegerAccumulator.hpp:59, 62-65, 77 *)
Definition NaiveSum (a : naive) : Z := ni_sum a.
Definition NaiveMean (a : naive) : f64 := fdiv (of_Z (ni_sum a)) (of_Z (ni_count a)).
Definition NaiveCount (a : naive) : Z := ni_count a.

(** NaiveIntegerAccumulator.hpp:123-133 *)
Definition NaiveVariance (corrected : bool) (a : naive) : out f64 :=
  if ni_count a <? 2 then Ok fnan
  else
    let ccount := if corrected then u64 (ni_count a - 1) else ni_count a in
    sq <- s64 (ni_sum a * ni_sum a) ;; d <- s64 (ni_sum2 a - sq) ;;
    Ok (fdiv (of_Z d) (of_Z (u64 (ni_count a * ccount)))).

(** NaiveIntegerAccumulator.hpp:135-143 *)
Definition NaiveScaledVariance (a : naive) : out f64 :=
  if ni_count a <? 2 then Ok fnan
  else
    sq <- s64 (ni_sum a * ni_sum a) ;; d <- s64 (ni_sum2 a - sq) ;;
    Ok (fdiv (of_Z d) (of_Z (ni_count a))).

(** NaiveIntegerAccumulator.hpp:145-149 *)
Definition NaiveStandardDeviation (corrected : bool) (a : naive) : out f64 :=
  omap fsqrt (NaiveVariance corrected a).

(** NaiveIntegerAccumulator.hpp:151-157 *)
Definition NaiveReset (a : naive) : naive := mkNaive 0 0 0.

(** NaiveIntegerAccumulator.hpp:159-168 *)
Definition naive_save (a : naive) : list tok := [TL (ni_sum a); TL (ni_sum2 a); TU (ni_count a)].
Definition naive_load (b : naive) : loader (naive) :=
  lbind load_l (fun s => let b := mkNaive s (ni_sum2 b) (ni_count b) in
  lbind load_l (fun c => let b := mkNaive (ni_sum b) c (ni_count b) in
  lbind load_u (fun n => lret (mkNaive (ni_sum b) (ni_sum2 b) n)))).

(** * Accumulators.hpp *)

(** Accumulators.hpp:24-32  apply_accumulator: Add every element in order; an
    exception ends the loop and leaves the object as it is then. *)
Fixpoint apply_accumulator {S X} (add : S -> X -> S * out unit) (l : list X) (a : S) : S * out unit :=
  match l with
  | [] => (a, Ok tt)
  | x :: l' =>
      match add a x with
      | (a', Ok _) => apply_accumulator add l' a'
      | (a', e) => (a', e)
      end
  end.
