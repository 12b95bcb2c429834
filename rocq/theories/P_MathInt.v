(** Property theorems C01-C04, C08 (integers), C12.  Nothing else is proved here. *)
From Coq Require Import ZArith List Bool Lia.
From Verif Require Import Base S_Math M_MathInt M_Pairs L_MathInt.
Import ListNotations.
Open Scope Z_scope.

(** * C01  pairs::GetPairIndex / GetPair / GetNumPairs *)

Theorem C01_pair_of_index : forall a b m,
  0 <= a < m -> 0 <= b -> b * m + a < two64 ->
  GetPair (GetPairIndex a b m) m = Ok (a, b).
Proof. exact pair_round_trip. Qed.
Print Assumptions C01_pair_of_index.

Theorem C01_index_of_pair : forall i m,
  0 <= i < two64 -> 0 < m ->
  exists a b, GetPair i m = Ok (a, b) /\ 0 <= a < m /\ 0 <= b <= i /\ GetPairIndex a b m = i.
Proof. exact pair_round_trip'. Qed.
Print Assumptions C01_index_of_pair.

Theorem C01_indices_are_initial_segment : forall m i,
  0 < m -> m * m < two64 ->
  (0 <= i < GetNumPairs m <->
   exists a b, 0 <= a < m /\ 0 <= b < m /\ GetPairIndex a b m = i).
Proof. exact pair_image. Qed.
Print Assumptions C01_indices_are_initial_segment.

Theorem C01_num_pairs : forall m, 0 <= m < 2 ^ 32 -> GetNumPairs m = m * m.
Proof.
  intros m Hm. apply u64_small. change (2 ^ 32) with 4294967296 in Hm. rewrite two64_eq. nia.
Qed.
Print Assumptions C01_num_pairs.

Theorem C01_injective : forall m a b a' b',
  0 < m <= 2 ^ 32 -> 0 <= a < m -> 0 <= b < m -> 0 <= a' < m -> 0 <= b' < m ->
  GetPairIndex a b m = GetPairIndex a' b' m -> a = a' /\ b = b'.
Proof. exact pair_inj. Qed.
Print Assumptions C01_injective.

(** The bound 2^32 is sharp: above it two different pairs share an index. *)
Theorem C01_injective_beyond_refuted : forall m,
  2 ^ 32 < m < two64 ->
  exists a b, 0 <= a < m /\ 0 < b < m /\ GetPairIndex a b m = GetPairIndex 0 0 m.
Proof. exact pair_collide. Qed.
Print Assumptions C01_injective_beyond_refuted.

Theorem C01_overloads_agree : forall a b m, GetPairIndex2 (a, b) m = GetPairIndex a b m.
Proof. reflexivity. Qed.
Print Assumptions C01_overloads_agree.

Theorem C01_zero_maxval_undefined : forall i, GetPair i 0 = UB.
Proof. reflexivity. Qed.
Print Assumptions C01_zero_maxval_undefined.

Example C01_ex : GetPairIndex 3 2 5 = 13 /\ GetPair 13 5 = Ok (3, 2) /\ GetNumPairs 5 = 25.
Proof. repeat split. Qed.
Example C01_ex_big : GetPair (GetPairIndex 7 (2 ^ 31) (2 ^ 32)) (2 ^ 32) = Ok (7, 2 ^ 31).
Proof. reflexivity. Qed.

(** * C02  array_to_index / index_to_array *)

Theorem C02_array_to_index : forall size c,
  on_grid size c -> prodZ size < two64 ->
  array_to_index c size = Ok (row_major size c) /\ 0 <= row_major size c < prodZ size.
Proof. exact (fun size c H Hp => conj (array_to_index_spec size c H Hp) (row_major_range size c H)). Qed.
Print Assumptions C02_array_to_index.

Theorem C02_index_to_array : forall size i,
  Forall (fun s => 0 < s <= two63) size -> prodZ size < two64 -> 0 <= i < prodZ size ->
  exists c, index_to_array i size = Ok c /\ on_grid size c /\ row_major size c = i.
Proof. exact index_to_array_spec. Qed.
Print Assumptions C02_index_to_array.

Theorem C02_round_trip_coordinates : forall size c,
  on_grid size c -> Forall (fun s => s <= two63) size -> prodZ size < two64 ->
  bind (array_to_index c size) (fun i => index_to_array i size) = Ok c.
Proof.
  intros size c H Hb Hp. rewrite (array_to_index_spec size c H Hp).
  exact (index_to_array_row_major size c H Hb Hp).
Qed.
Print Assumptions C02_round_trip_coordinates.

Theorem C02_round_trip_index : forall size i,
  Forall (fun s => 0 < s <= two63) size -> prodZ size < two64 -> 0 <= i < prodZ size ->
  bind (index_to_array i size) (fun c => array_to_index c size) = Ok i.
Proof.
  intros size i Hb Hp Hi. destruct (index_to_array_spec size i Hb Hp Hi) as (c & -> & Hc & <-).
  exact (array_to_index_spec size c Hc Hp).
Qed.
Print Assumptions C02_round_trip_index.

Theorem C02_index_injective : forall size c c' i,
  on_grid size c -> on_grid size c' -> prodZ size < two64 ->
  array_to_index c size = Ok i -> array_to_index c' size = Ok i -> c = c'.
Proof.
  intros size c c' i H H' Hp. rewrite !array_to_index_spec by assumption. intros E E'.
  apply (row_major_inj size c c' H H'). congruence.
Qed.
Print Assumptions C02_index_injective.

Example C02_ex : on_grid [3; 4; 5] [2; 0; 3] /\ row_major [3; 4; 5] [2; 0; 3] = 43 /\
  array_to_index [2; 0; 3] [3; 4; 5] = Ok 43 /\ index_to_array 43 [3; 4; 5] = Ok [2; 0; 3].
Proof. repeat split; try reflexivity. repeat constructor; lia. Qed.

(** * C03  exactly when the conversions are undefined *)

Theorem C03_array_to_index_undefined : forall a size,
  array_to_index a size = UB <-> In 0 size \/ (length a < length size)%nat.
Proof. exact array_to_index_ub. Qed.
Print Assumptions C03_array_to_index_undefined.

Theorem C03_index_to_array_undefined : forall i size,
  Forall (fun s => 0 <= s) size ->
  (index_to_array i size = UB <-> In 0 size \/ two64 <= prodZ size).
Proof. exact index_to_array_ub. Qed.
Print Assumptions C03_index_to_array_undefined.

Theorem C03_otherwise_defined : forall i a size,
  Forall (fun s => 0 <= s) size ->
  (array_to_index a size = UB \/ exists r, array_to_index a size = Ok r) /\
  (index_to_array i size = UB \/ exists c, index_to_array i size = Ok c).
Proof. exact (fun i a size H => conj (array_to_index_total a size) (index_to_array_total i size H)). Qed.
Print Assumptions C03_otherwise_defined.

Example C03_ex_zero : index_to_array 0 [3; 0; 2] = UB /\ array_to_index [0; 0; 0] [3; 0; 2] = UB.
Proof. split; reflexivity. Qed.
Example C03_ex_wrap : index_to_array 0 [2 ^ 33; 2 ^ 31 + 1] = UB /\ two64 <= prodZ [2 ^ 33; 2 ^ 31 + 1].
Proof. split; [reflexivity|]. intro H; discriminate H. Qed.
Example C03_ex_wrap_a2i : array_to_index [1; 1] [2 ^ 33; 2 ^ 31 + 1] = Ok 1.
Proof. reflexivity. Qed.
Example C03_ex_short : array_to_index [1; 1] [2; 2; 2] = UB.
Proof. reflexivity. Qed.

(** * C04  get_gcd on signed types of w bits *)

Theorem C04_gcd : forall w a b,
  2 <= w <= 64 -> is_sint w a = true -> is_sint w b = true ->
  ~ (a = - 2 ^ (w - 1) /\ b = -1) -> ~ (a = -1 /\ b = - 2 ^ (w - 1)) ->
  exists g, get_gcd w a b = Ok g /\ Z.abs g = Z.gcd a b /\ (0 <= a -> 0 <= b -> 0 <= g).
Proof.
  exact (fun w a b Hw Ha Hb N1 N2 =>
    proj2 (get_gcd_spec w a b Hw Ha Hb) (fun B => match B with or_introl x => N1 x | or_intror y => N2 y end)).
Qed.
Print Assumptions C04_gcd.

Theorem C04_gcd_undefined : forall w a b,
  2 <= w <= 64 -> is_sint w a = true -> is_sint w b = true ->
  (a = - 2 ^ (w - 1) /\ b = -1) \/ (a = -1 /\ b = - 2 ^ (w - 1)) ->
  get_gcd w a b = UB.
Proof. exact (fun w a b Hw Ha Hb => proj1 (get_gcd_spec w a b Hw Ha Hb)). Qed.
Print Assumptions C04_gcd_undefined.

(** The result can be negative (it is a gcd only up to sign). *)
Theorem C04_gcd_nonnegative_refuted : get_gcd 64 (-6) 4 = Ok (-2).
Proof. reflexivity. Qed.
Print Assumptions C04_gcd_nonnegative_refuted.

Example C04_ex : get_gcd 64 12 18 = Ok 6 /\ get_gcd 32 (-12) (-18) = Ok (-6) /\ get_gcd 64 0 0 = Ok 0
  /\ get_gcd 32 (- 2 ^ 31) (-1) = UB /\ get_gcd 64 (-1) (- 2 ^ 63) = UB.
Proof. repeat split. Qed.

(** * C05  cbinomial: the integer computed before the conversion to double
      (the conversion is in P_MathF.v) *)

Theorem C05_binomial_int : forall n k,
  0 <= k <= n -> n < two63 - 1 -> binomZ n k * Z.min k (n - k) < two63 ->
  cbinomial_int n k = Ok (binomZ n k).
Proof. exact cbinomial_int_spec. Qed.
Print Assumptions C05_binomial_int.

(** The hypothesis on the size is exact: beyond it a signed product overflows. *)
Theorem C05_overflow_undefined : forall n k,
  0 <= k <= n -> n < two63 - 1 -> two63 <= binomZ n k * Z.min k (n - k) ->
  cbinomial_int n k = UB.
Proof. exact cbinomial_int_overflow. Qed.
Print Assumptions C05_overflow_undefined.

Theorem C05_symmetric_int : forall n k,
  0 <= k <= n -> n < two63 - 1 -> binomZ n k * Z.min k (n - k) < two63 ->
  cbinomial_int n (n - k) = cbinomial_int n k.
Proof.
  intros n k Hk Hn H. rewrite (cbinomial_int_spec n k) by assumption.
  rewrite binomZ_sym in H |- * by assumption.
  apply cbinomial_int_spec; [lia|assumption|]. rewrite Z.min_comm.
  replace (n - (n - k)) with k by lia. assumption.
Qed.
Print Assumptions C05_symmetric_int.

Theorem C05_zero_above : forall n k, n < k -> cbinomial_int n k = Ok 0.
Proof. exact cbinomial_int_zero. Qed.
Print Assumptions C05_zero_above.

(** Every [res /= i] divides exactly: the value before it is C(n,i-1)*(n+1-i), and
    an iteration that does not overflow takes C(n,i-1) to C(n,i). *)
Theorem C05_divisions_exact : forall n k i,
  1 <= i <= k -> k <= n -> n < two63 - 1 ->
  Z.rem (binomZ n (i - 1) * (n + 1 - i)) i = 0 /\
  (binomZ n (i - 1) * (n + 1 - i) < two63 -> cbinomial_body n k (i, binomZ n (i - 1)) = inl (i + 1, binomZ n i)) /\
  (two63 <= binomZ n (i - 1) * (n + 1 - i) -> cbinomial_body n k (i, binomZ n (i - 1)) = inr UB).
Proof.
  intros n k i Hi Hk Hn. split; [apply cbinomial_divisions_exact; lia|]. exact (cbinomial_iteration n k i Hi Hk Hn).
Qed.
Print Assumptions C05_divisions_exact.

(** C(n,k) = 0 for negative k is not what the code returns. *)
Theorem C05_negative_k_refuted : forall n k,
  k < 0 -> k <= n -> - two63 <= k -> - two63 <= n < two63 -> n - k < two63 ->
  cbinomial_int n k = Ok 1.
Proof. exact cbinomial_int_neg. Qed.
Print Assumptions C05_negative_k_refuted.

Example C05_ex : binomZ 10 3 = 120 /\ cbinomial_int 10 3 = Ok 120 /\ cbinomial_int 10 7 = Ok 120.
Proof. repeat split. Qed.
Example C05_ex_hyp : 0 <= 10 <= 40 /\ 40 < two63 - 1 /\ cbinomial_int 40 10 = Ok 847660528
  /\ 847660528 * Z.min 10 30 < two63.
Proof. repeat split; try reflexivity; intro; discriminate. Qed.
Example C05_ex_overflow : cbinomial_int 67 33 = UB.
Proof. reflexivity. Qed.
Example C05_ex_negative : cbinomial_int 5 (-2) = Ok 1.
Proof. reflexivity. Qed.

(** * C08  absdiff / signeddiff / sgn on integers *)

Theorem C08_absdiff : forall a b,
  is_u64 a = true -> is_u64 b = true -> absdiff_u a b = Z.abs (a - b).
Proof. exact absdiff_u_spec. Qed.
Print Assumptions C08_absdiff.

Theorem C08_signeddiff : forall a b,
  is_u64 a = true -> is_u64 b = true -> Z.abs (a - b) < two63 -> signeddiff a b = Ok (a - b).
Proof. exact signeddiff_spec. Qed.
Print Assumptions C08_signeddiff.

Theorem C08_signeddiff_antisymmetric : forall a b d,
  is_u64 a = true -> is_u64 b = true -> Z.abs (a - b) < two63 ->
  signeddiff a b = Ok d -> signeddiff b a = Ok (- d).
Proof.
  intros a b d Ha Hb H. rewrite !signeddiff_spec by (assumption || lia).
  intros E; injection E as <-. f_equal. lia.
Qed.
Print Assumptions C08_signeddiff_antisymmetric.

Theorem C08_sgn_int : forall x, sgn Z.ltb 0 x = Z.sgn x.
Proof. exact sgn_Z. Qed.
Print Assumptions C08_sgn_int.

Example C08_ex : absdiff_u 3 (2 ^ 64 - 1) = 2 ^ 64 - 4 /\ signeddiff 3 10 = Ok (-7) /\
  signeddiff (2 ^ 64 - 1) (2 ^ 64 - 9) = Ok 8 /\ sgn Z.ltb 0 (-5) = -1.
Proof. repeat split. Qed.
(** Beyond the range the value wraps. *)
Example C08_ex_wrap : signeddiff (2 ^ 64 - 1) 0 = Ok (-1).
Proof. reflexivity. Qed.

(** * C12  reductions and vector arithmetic *)

Theorem C12_accumulate : forall v,
  accumulate_sum_u v = sumZ v mod two64 /\ accumulate_product_u v = prodZ v mod two64.
Proof. exact (fun v => conj (accumulate_sum_u_spec v) (accumulate_product_u_spec v)). Qed.
Print Assumptions C12_accumulate.

Theorem C12_max : forall v m,
  cmax Z.ltb v = Ok m <-> v <> [] /\ In m v /\ Forall (fun x => x <= m) v.
Proof. exact cmax_Z. Qed.
Print Assumptions C12_max.

Theorem C12_min : forall v m,
  cmin Z.ltb v = Ok m <-> v <> [] /\ In m v /\ Forall (fun x => m <= x) v.
Proof. exact cmin_Z. Qed.
Print Assumptions C12_min.

Theorem C12_max_min_empty : cmax Z.ltb [] = UB /\ cmin Z.ltb [] = UB.
Proof. exact (conj eq_refl eq_refl). Qed.
Print Assumptions C12_max_min_empty.

Theorem C12_sum_into : forall l r s,
  sum_into l r = Ok s ->
  (length l <= length r)%nat /\ length s = length l /\
  forall i, (i < length l)%nat -> nth i s 0 = nth i l 0 + nth i r 0.
Proof. exact sum_into_spec. Qed.
Print Assumptions C12_sum_into.

Theorem C12_subtract_into : forall l r s,
  subtract_into l r = Ok s ->
  (length l <= length r)%nat /\ length s = length l /\
  forall i, (i < length l)%nat -> nth i s 0 = nth i l 0 - nth i r 0.
Proof. exact subtract_into_spec. Qed.
Print Assumptions C12_subtract_into.

Theorem C12_subtract_undoes_sum : forall l r s,
  length l = length r -> Forall (fun x => - two63 <= x < two63) l ->
  sum_into l r = Ok s -> subtract_into s r = Ok l.
Proof. exact subtract_sum_into. Qed.
Print Assumptions C12_subtract_undoes_sum.

Theorem C12_invert : forall c,
  Forall (fun x => - two63 < x < two63) c ->
  invert c = Ok (map Z.opp c) /\ get_inverted c = Ok (map Z.opp c) /\ bind (invert c) invert = Ok c.
Proof. exact (fun c H => conj (invert_spec c H) (conj (invert_spec c H) (invert_invol c H))). Qed.
Print Assumptions C12_invert.

Theorem C12_sum_squared : forall v r,
  sum_squared_s v = Ok r -> r = sumZ (map (fun x => x * x) v) /\ 0 <= r.
Proof. exact sum_squared_spec. Qed.
Print Assumptions C12_sum_squared.

Theorem C12_sum_squared_defined : forall v,
  sumZ (map (fun x => x * x) v) < two63 ->
  sum_squared_s v = Ok (sumZ (map (fun x => x * x) v)).
Proof. exact sum_squared_total. Qed.
Print Assumptions C12_sum_squared_defined.

Example C12_ex : accumulate_sum_u [2 ^ 63; 2 ^ 63; 5] = 5 /\ accumulate_product_u [6; 7] = 42 /\
  cmax Z.ltb [3; -1; 8; 2] = Ok 8 /\ cmin Z.ltb [3; -1; 8; 2] = Ok (-1) /\
  sum_into [1; -2; 3] [10; 20; 30] = Ok [11; 18; 33] /\
  subtract_into [11; 18; 33] [10; 20; 30] = Ok [1; -2; 3] /\
  invert [1; -2; 0] = Ok [-1; 2; 0] /\ sum_squared_s [3; -4] = Ok 25 /\ sum_squared_s [2 ^ 32] = UB.
Proof. repeat split. Qed.
