(** Property theorems C05 (result as a double), C06, C07, C08 (doubles), C09,
    C10, C11 (MathUtils.hpp). *)
From Coq Require Import ZArith Reals List Bool Lia Lra.
From Flocq Require Import Core.Core IEEE754.BinarySingleNaN.
From Verif Require Import Base F64 Num S_Math S_MathF M_MathInt M_MathF L_MathInt L_MathF.
Import ListNotations.
Open Scope Z_scope.

(** * C05  the returned double *)

Theorem C05_binomial : forall n k, 0 <= k <= n -> n < two63 - 1 ->
  binomZ n k * Z.min k (n - k) < two63 ->
  exists x, cbinomial n k = Ok x /\ fin x /\ RR x = rnd (IZR (binomZ n k)) /\
            (Z.abs (binomZ n k) <= 2 ^ 53 -> RR x = IZR (binomZ n k)).
Proof. exact cbinomial_value. Qed.
Print Assumptions C05_binomial.

Example C05_ex_double : omap B2SF (cbinomial 60 30) = Ok (B2SF (of_Z 118264581564861424)).
Proof. vm_compute. reflexivity. Qed.

(** * C06  choose_between *)

(** For a draw below the total: the entry is the first whose running sum
    exceeds the draw; it exists and has positive weight. *)
Theorem C06_choose : forall l, l <> [] ->
  Forall (fun w => fin w /\ (0 <= RR w)%R) l -> fin (left_sum l (length l - 1)) ->
  forall draw, vsize l < two63 ->
  let r := draw (left_sum l (length l - 1)) in
  fin r -> (0 <= RR r < RR (left_sum l (length l - 1)))%R ->
  exists i, (i < length l)%nat /\ choose_between draw l = Ok (Z.of_nat i) /\
    (RR r < RR (left_sum l i))%R /\
    (forall j, (j < i)%nat -> (RR (left_sum l j) <= RR r)%R) /\
    (0 < RR (nth i l f0))%R.
Proof. exact choose_between_ok. Qed.
Print Assumptions C06_choose.

Theorem C06_psums : forall l, l <> [] -> forall draw,
  choose_between draw l = choose_between_psums draw (partial_sum l) /\
  partial_sum l = map (left_sum l) (seq 0 (length l)).
Proof. exact choose_psums. Qed.
Print Assumptions C06_psums.

(** A draw equal to (or above) the total yields the out-of-range index [size]. *)
Theorem C06_draw_at_total_refuted : forall l, l <> [] ->
  Forall (fun w => fin w /\ (0 <= RR w)%R) l -> fin (left_sum l (length l - 1)) ->
  forall draw, vsize l < two63 ->
  let r := draw (left_sum l (length l - 1)) in
  fin r -> (RR (left_sum l (length l - 1)) <= RR r)%R ->
  choose_between draw l = Ok (vsize l).
Proof. exact choose_between_oob. Qed.
Print Assumptions C06_draw_at_total_refuted.

(** libstdc++'s uniform_real_distribution stays below the total when the total
    exceeds the smallest normal number ... *)
Theorem C06_uniform_draw_below_total : forall c top,
  fin c -> fin top -> (0 <= RR c < 1)%R -> (bpow radix2 (-1022) < RR top)%R ->
  fin (uniform_real c f0 top) /\ (0 <= RR (uniform_real c f0 top) < RR top)%R.
Proof. exact uniform_real_below. Qed.
Print Assumptions C06_uniform_draw_below_total.

(** ... and can deliver the total itself when it does not. *)
Theorem C06_uniform_draw_below_total_refuted : exists c top,
  fin c /\ fin top /\ (0 <= RR c < 1)%R /\ RR top = bpow radix2 (-1022) /\
  feq (uniform_real c f0 top) top = true /\
  choose_between (uniform_real c f0) [top] = Ok 1.
Proof. exact uniform_real_hits. Qed.
Print Assumptions C06_uniform_draw_below_total_refuted.

Definition C06_w : list f64 := [of_Z 1; f0; of_Z 2; dyad 1 (-1); f0].
Example C06_ex : map (fun r => choose_between (fun _ => r) C06_w)
    [f0; dyad 1023 (-10); of_Z 1; of_Z 2; of_Z 3; dyad 7 (-1)] = map Ok [0; 0; 2; 2; 3; 5].
Proof. vm_compute. reflexivity. Qed.
Example C06_ex_total : feq (left_sum C06_w 4) (dyad 7 (-1)) = true.
Proof. vm_compute. reflexivity. Qed.

(** * C07  choose_with_probability *)

Theorem C07_always : forall prob r, fin r -> (RR r < 1)%R -> fle f1 prob = true ->
  choose_with_probability prob r = true.
Proof. exact threshold_true. Qed.
Print Assumptions C07_always.

Theorem C07_never : forall prob r, fin r -> (0 <= RR r)%R -> fle prob f0 = true \/ is_nan prob = true ->
  choose_with_probability prob r = false.
Proof. exact threshold_false. Qed.
Print Assumptions C07_never.

Theorem C07_monotone : forall p q r, fle p q = true -> choose_with_probability p r = true ->
  choose_with_probability q r = true.
Proof. exact threshold_mono. Qed.
Print Assumptions C07_monotone.

Theorem C07_threshold : forall p r, fin p -> fin r ->
  (choose_with_probability p r = true <-> (RR r < RR p)%R).
Proof. exact (fun p r Fp Fr => flt_R r p Fr Fp). Qed.
Print Assumptions C07_threshold.

Example C07_ex : map (fun p => choose_with_probability p (dyad 1 (-1)))
   [fnan; fopp finf; f0; dyad 1 (-1); dyad 3 (-2); f1; finf] =
   [false; false; false; false; true; true; true].
Proof. vm_compute. reflexivity. Qed.

(** * C08  sgn on doubles *)

Theorem C08_sgn_double : forall x,
  (flt f0 x = true -> sgn flt f0 x = 1) /\ (flt x f0 = true -> sgn flt f0 x = -1) /\
  (fin x -> RR x = 0%R -> sgn flt f0 x = 0) /\ (is_nan x = true -> sgn flt f0 x = 0).
Proof. exact sgn_double. Qed.
Print Assumptions C08_sgn_double.

Example C08_ex_double : map (sgn flt f0) [finf; dyad 1 (-1074); f0; fopp f0; fnan; dyad (-3) 0; fopp finf]
  = [1; 1; 0; 0; 0; -1; -1].
Proof. vm_compute. reflexivity. Qed.

(** * C09  bwsl::upper_bound *)

(** As written it never returns on 1..10000 elements. *)
Theorem C09_returns_refuted : forall l v first last,
  0 <= first -> 1 <= last - first <= 10000 -> last <= vsize l ->
  bwsl_upper_bound l v first last = Diverge.
Proof. exact upper_bound_diverges. Qed.
Print Assumptions C09_returns_refuted.

(** On more elements it can read one past the end. *)
Theorem C09_in_bounds_refuted :
  bwsl_upper_bound (map of_Z (upto 10001)) (dyad 39999 (-2)) 0 10001 = UB /\
  upper_bound_with interp_offset (map of_Z (upto 10001)) (dyad 39999 (-2)) 0 10001 = UB.
Proof. exact upper_bound_reads_end. Qed.
Print Assumptions C09_in_bounds_refuted.

(** With std::upper_bound in the last line and any probe inside the window the
    result is the first greater element of a strictly increasing range. *)
Theorem C09_fixed : forall off l v,
  0 < vsize l < two63 -> increasing l -> is_nan v = false ->
  (forall iv tv count, flt iv v = true -> flt v tv = true -> 10000 < count ->
     exists o, off v iv tv count = Ok o /\ 0 <= o < count) ->
  exists p, upper_bound_with off l v 0 (vsize l) = Ok p /\
            splits (fun x => flt v x = true) l 0 (vsize l) p.
Proof. exact upper_bound_oracle. Qed.
Print Assumptions C09_fixed.

(** With the interpolated probe of the code: undefined (out of bounds) or right. *)
Theorem C09_fixed_interpolation : forall l v,
  0 < vsize l < 2 ^ 53 -> increasing l -> is_nan v = false ->
  upper_bound_with interp_offset l v 0 (vsize l) = UB \/
  exists p, upper_bound_with interp_offset l v 0 (vsize l) = Ok p /\
            splits (fun x => flt v x = true) l 0 (vsize l) p.
Proof. exact upper_bound_fixed. Qed.
Print Assumptions C09_fixed_interpolation.

(** With repeated elements the answer can be wrong: on 10001 zeros the first
    element greater than 0 is the end, the function returns position 1. *)
Theorem C09_duplicates_refuted :
  nondecreasing (repeat f0 (Z.to_nat 10001)) /\
  upper_bound_with interp_offset (repeat f0 (Z.to_nat 10001)) f0 0 10001 = Ok 1 /\
  std_upper_bound flt (repeat f0 (Z.to_nat 10001)) f0 0 10001 = Ok 10001.
Proof. exact upper_bound_duplicates. Qed.
Print Assumptions C09_duplicates_refuted.

(** The binary search it should call. *)
Theorem C09_std_upper_bound : forall (l : list f64) v first last,
  0 <= first <= last -> last <= vsize l -> vsize l < two63 -> nondecreasing l ->
  exists p, std_upper_bound flt l v first last = Ok p /\
            splits (fun x => flt v x = true) l first last p.
Proof. exact std_upper_bound_doubles. Qed.
Print Assumptions C09_std_upper_bound.

Example C09_ex : upper_bound_with interp_offset (map of_Z (upto 10002)) (of_Z 4321) 0 10002 = Ok 4322 /\
  upper_bound_with interp_offset (map of_Z (upto 10002)) (of_Z 20000) 0 10002 = Ok 10002 /\
  upper_bound_with interp_offset (map of_Z (upto 10)) (dyad 5 (-1)) 0 10 = Ok 3.
Proof. vm_compute. repeat split. Qed.

(** * C10  lerp, lerpi *)

Theorem C10_lerp_ends : forall a b t, fin a -> fin b -> fin t ->
  (RR t = 0%R -> feq (lerp numF a b t) a = true) /\ (RR t = 1%R -> feq (lerp numF a b t) b = true).
Proof. exact lerp_ends. Qed.
Print Assumptions C10_lerp_ends.

Theorem C10_lerpi_ends : forall a b j, fin a -> fin b -> j <> 0 -> Z.abs j <= two64 ->
  feq (lerpi numF 0 j a b) a = true /\ feq (lerpi numF j j a b) b = true.
Proof. exact lerpi_ends. Qed.
Print Assumptions C10_lerpi_ends.

Theorem C10_lerp_between : forall a b t, (0 <= t <= 1)%R ->
  (Rmin a b <= lerp numR a b t <= Rmax a b)%R.
Proof. exact lerp_between. Qed.
Print Assumptions C10_lerp_between.

Theorem C10_lerp_monotone : forall a b t t', (a <= b)%R -> (t <= t')%R ->
  (lerp numR a b t <= lerp numR a b t')%R.
Proof. exact lerp_monotone. Qed.
Print Assumptions C10_lerp_monotone.

(** In doubles lerp(a,a,t) can differ from a, on either side. *)
Theorem C10_lerp_constant_refuted :
  flt (lerp numF (of_Z 3) (of_Z 3) (dyad 0x13333333333333 (-54))) (of_Z 3) = true /\
  flt (of_Z 15) (lerp numF (of_Z 15) (of_Z 15) (dyad 0x15555555555555 (-54))) = true.
Proof. exact lerp_constant. Qed.
Print Assumptions C10_lerp_constant_refuted.

Example C10_ex : feq (lerpi numF 1 4 (of_Z 8) (of_Z 12)) (of_Z 9) = true /\
  feq (lerpi numF 0 (2 ^ 63 - 1) (of_Z 8) (of_Z 12)) (of_Z 8) = true /\
  feq (lerpi numF (2 ^ 63 - 1) (2 ^ 63 - 1) (of_Z 8) (of_Z 12)) (of_Z 12) = true.
Proof. vm_compute. repeat split. Qed.

(** * C11  heaviside, heaviside2 *)

Theorem C11_heaviside : forall x,
  (fle f0 x = true -> heaviside x = f1) /\ (fle f0 x = false -> heaviside x = f0) /\
  (is_nan x = true -> heaviside x = f0).
Proof. exact heaviside_spec. Qed.
Print Assumptions C11_heaviside.

Theorem C11_heaviside2 : forall x,
  (fin x -> RR x = 0%R -> heaviside2 x = fhalf) /\ (flt f0 x = true -> heaviside2 x = f1) /\
  (flt x f0 = true -> heaviside2 x = f0) /\ (is_nan x = true -> heaviside2 x = f0).
Proof. exact heaviside2_spec. Qed.
Print Assumptions C11_heaviside2.

Theorem C11_heaviside2_symmetric : forall x, is_nan x = false ->
  fadd (heaviside2 x) (heaviside2 (fopp x)) = f1.
Proof. exact heaviside2_symmetric. Qed.
Print Assumptions C11_heaviside2_symmetric.

Example C11_ex : feq (heaviside (fopp f0)) f1 = true /\ RR fhalf = (/ 2)%R.
Proof. split; [vm_compute; reflexivity|apply RR_half]. Qed.
