(** Property theorems C13-C20 (RationalNum.hpp, RelationalUtils.hpp).
    [w] is the width of the integer type (64: RationalLong, 32: RationalInt). *)
From Coq Require Import ZArith QArith List Bool Ascii String Lia.
From Verif Require Import Base S_Rational M_MathInt M_Text M_Rational S_RationalObj L_Rational L_Text.
Import ListNotations.
Open Scope Z_scope.

Local Notation "$ s" := (list_ascii_of_string s%string) (at level 0, s at level 0).

(** * C13  construction *)

Theorem C13_constructor_exact : forall w n d r,
  2 <= w <= 64 -> in_w w n -> in_w w d -> d <> 0 -> RationalNum w n d = Ok r ->
  (frac (num r) (den r) == frac n d)%Q /\ den r <> 0 /\ Z.gcd (num r) (den r) = 1 /\
  in_w w (num r) /\ in_w w (den r).
Proof. exact RationalNum_exact. Qed.
Print Assumptions C13_constructor_exact.

Theorem C13_constructor_defined : forall w n d,
  2 <= w <= 64 -> in_w' w n -> in_w' w d -> ~ (n = 0 /\ d = 0) ->
  exists r, RationalNum w n d = Ok r /\ in_w' w (num r) /\ in_w' w (den r).
Proof. exact RationalNum_defined. Qed.
Print Assumptions C13_constructor_defined.

Theorem C13_zero_denominator : forall w n,
  2 <= w <= 64 -> in_w w n -> n <> 0 -> RationalNum w n 0 = Ok (mkRat 1 0).
Proof. exact RationalNum_zero_den. Qed.
Print Assumptions C13_zero_denominator.

Theorem C13_zero_over_zero : forall w, RationalNum w 0 0 = UB.
Proof. exact RationalNum_zero_zero. Qed.
Print Assumptions C13_zero_over_zero.

Theorem C13_simplify_idempotent : forall w r r',
  2 <= w <= 64 -> in_w w (num r) -> in_w w (den r) -> Simplify w r = Ok r' -> Simplify w r' = Ok r'.
Proof. exact Simplify_idem. Qed.
Print Assumptions C13_simplify_idempotent.

(** The symmetric range is needed: the minimum of the type can be undefined. *)
Theorem C13_minimum_refuted : RationalNum 32 (- 2 ^ 31) (-3) = UB.
Proof. reflexivity. Qed.
Print Assumptions C13_minimum_refuted.

Example C13_ex : RationalNum 64 6 8 = Ok (mkRat 3 4) /\ RationalNum 64 (-6) 4 = Ok (mkRat 3 (-2)) /\
  RationalNum 64 (-6) 3 = Ok (mkRat (-2) 1) /\ RationalNum 64 5 0 = Ok (mkRat 1 0).
Proof. repeat split. Qed.

(** * C14  arithmetic *)

Theorem C14_add : forall w a b r,
  2 <= w <= 64 -> wf w a -> wf w b -> radd w a b = Ok r -> exact_result w r (rv a + rv b)%Q.
Proof. exact radd_exact. Qed.
Print Assumptions C14_add.

Theorem C14_sub : forall w a b r,
  2 <= w <= 64 -> wf w a -> wf w b -> rsub w a b = Ok r -> exact_result w r (rv a - rv b)%Q.
Proof. exact rsub_exact. Qed.
Print Assumptions C14_sub.

Theorem C14_mul : forall w a b r,
  2 <= w <= 64 -> wf w a -> wf w b -> rmul w a b = Ok r -> exact_result w r (rv a * rv b)%Q.
Proof. exact rmul_exact. Qed.
Print Assumptions C14_mul.

Theorem C14_div : forall w a b r,
  2 <= w <= 64 -> wf w a -> wf w b -> num b <> 0 -> rdiv w a b = Ok r ->
  exact_result w r (rv a / rv b)%Q.
Proof. exact rdiv_exact. Qed.
Print Assumptions C14_div.

Theorem C14_integer_right : forall w a k r,
  2 <= w <= 64 -> wf w a ->
  (radd_ri w a k = Ok r -> exact_result w r (rv a + inject_Z k)%Q) /\
  (rsub_ri w a k = Ok r -> exact_result w r (rv a - inject_Z k)%Q) /\
  (rmul_ri w a k = Ok r -> exact_result w r (rv a * inject_Z k)%Q) /\
  (k <> 0 -> rdiv_ri w a k = Ok r -> exact_result w r (rv a / inject_Z k)%Q).
Proof.
  exact (fun w a k r Hw Ha => conj (radd_ri_exact w a k r Hw Ha) (conj (rsub_ri_exact w a k r Hw Ha)
    (conj (rmul_ri_exact w a k r Hw Ha) (rdiv_ri_exact w a k r Hw Ha)))).
Qed.
Print Assumptions C14_integer_right.

Theorem C14_integer_left : forall w k b r,
  2 <= w <= 64 -> wf w b ->
  (radd_ir w k b = Ok r -> exact_result w r (inject_Z k + rv b)%Q) /\
  (rsub_ir w k b = Ok r -> exact_result w r (inject_Z k - rv b)%Q) /\
  (rmul_ir w k b = Ok r -> exact_result w r (inject_Z k * rv b)%Q) /\
  (num b <> 0 -> rdiv_ir w k b = Ok r -> exact_result w r (inject_Z k / rv b)%Q).
Proof.
  exact (fun w k b r Hw Hb => conj
    (fun H => exact_result_compat _ _ _ _ (Qplus_comm _ _) (radd_ri_exact w b k r Hw Hb H))
    (conj (rsub_ir_exact w k b r Hw Hb) (conj
    (fun H => exact_result_compat _ _ _ _ (Qmult_comm _ _) (rmul_ri_exact w b k r Hw Hb H))
    (rdiv_ir_exact w k b r Hw Hb)))).
Qed.
Print Assumptions C14_integer_left.

(** The operators are defined as soon as the written intermediates stay in range. *)
Theorem C14_add_defined : forall w a b, 2 <= w <= 64 -> den a <> 0 -> den b <> 0 ->
  in_w' w (num a * den b) -> in_w' w (num b * den a) ->
  in_w' w (num a * den b + num b * den a) -> in_w' w (den a * den b) ->
  exists r, radd w a b = Ok r.
Proof. exact radd_defined. Qed.
Print Assumptions C14_add_defined.

Theorem C14_sub_defined : forall w a b, 2 <= w <= 64 -> den a <> 0 -> den b <> 0 ->
  in_w' w (num a * den b) -> in_w' w (num b * den a) ->
  in_w' w (num a * den b - num b * den a) -> in_w' w (den a * den b) ->
  exists r, rsub w a b = Ok r.
Proof. exact rsub_defined. Qed.
Print Assumptions C14_sub_defined.

Theorem C14_mul_defined : forall w a b, 2 <= w <= 64 -> den a <> 0 -> den b <> 0 ->
  in_w' w (num a * num b) -> in_w' w (den a * den b) -> exists r, rmul w a b = Ok r.
Proof. exact rmul_defined. Qed.
Print Assumptions C14_mul_defined.

Theorem C14_div_defined : forall w a b, 2 <= w <= 64 -> den a <> 0 -> den b <> 0 -> num b <> 0 ->
  in_w' w (num a * den b) -> in_w' w (num b * den a) -> exists r, rdiv w a b = Ok r.
Proof. exact rdiv_defined. Qed.
Print Assumptions C14_div_defined.

Example C14_ex : wf 64 (mkRat 1 2) /\ wf 64 (mkRat (-1) 3) /\
  radd 64 (mkRat 1 2) (mkRat (-1) 3) = Ok (mkRat 1 6) /\
  rdiv 64 (mkRat 1 2) (mkRat (-1) 3) = Ok (mkRat 3 (-2)) /\
  rsub_ir 64 1 (mkRat 1 3) = Ok (mkRat 2 3) /\ rdiv_ir 64 2 (mkRat 4 3) = Ok (mkRat 3 2).
Proof. repeat split; try discriminate; vm_compute; reflexivity. Qed.
Example C14_ex_overflow : radd 32 (mkRat 1 65536) (mkRat 1 65536) = UB.
Proof. reflexivity. Qed.

(** * C15  equality *)

Theorem C15_equality : forall w a b,
  den a <> 0 -> den b <> 0 -> in_w w (num a * den b) -> in_w w (num b * den a) ->
  (req w a b = Ok true <-> (rv a == rv b)%Q) /\ (rne w a b = Ok true <-> ~ (rv a == rv b)%Q) /\
  (req w a b = Ok true \/ req w a b = Ok false).
Proof. exact eq_ops. Qed.
Print Assumptions C15_equality.

Example C15_ex : req 64 (mkRat 1 (-2)) (mkRat (-2) 4) = Ok true /\ req 64 (mkRat 1 2) (mkRat 1 3) = Ok false.
Proof. split; reflexivity. Qed.

(** * C16  order *)

Theorem C16_order_same_sign : forall w a b,
  0 < den a * den b -> in_w w (num a * den b) -> in_w w (num b * den a) ->
  (rlt w a b = Ok true <-> (rv a < rv b)%Q) /\ (rgt w a b = Ok true <-> (rv b < rv a)%Q) /\
  (rle w a b = Ok true <-> (rv a <= rv b)%Q) /\ (rge w a b = Ok true <-> (rv b <= rv a)%Q).
Proof. exact order_ops. Qed.
Print Assumptions C16_order_same_sign.

(** Non-negative numerators over positive denominators stay that way. *)
Theorem C16_nonnegative_keeps_positive_denominator : forall w n d r,
  2 <= w <= 64 -> in_w w n -> in_w w d -> 0 <= n -> 0 < d -> RationalNum w n d = Ok r ->
  0 < den r /\ 0 <= num r.
Proof. exact RationalNum_pos. Qed.
Print Assumptions C16_nonnegative_keeps_positive_denominator.

(** With denominators of opposite signs the order is exactly the reversed one. *)
Theorem C16_order_opposite_sign_refuted : forall w a b,
  den a * den b < 0 -> in_w w (num a * den b) -> in_w w (num b * den a) ->
  (rlt w a b = Ok true <-> (rv b < rv a)%Q).
Proof. exact order_inverted. Qed.
Print Assumptions C16_order_opposite_sign_refuted.

(** ... and constructing from a positive denominator can produce such an object. *)
Theorem C16_order_refuted : exists a z,
  RationalNum 64 (-6) 4 = Ok a /\ RationalNum 64 0 1 = Ok z /\
  (rv a < rv z)%Q /\ rlt 64 a z = Ok false /\ rlt 64 z a = Ok true.
Proof. exists (mkRat 3 (-2)), (mkRat 0 1). repeat split. Qed.
Print Assumptions C16_order_refuted.

Example C16_ex : rlt 64 (mkRat 1 3) (mkRat 1 2) = Ok true /\ rge 64 (mkRat 1 3) (mkRat (-1) 2) = Ok true.
Proof. split; reflexivity. Qed.

(** * C17  comparison with an integer *)

(** Every mixed comparison compares the truncated quotient. *)
Theorem C17_mixed_truncates : forall w a k,
  2 <= w <= 64 -> in_w w (num a) -> den a <> 0 -> ~ (num a = - 2 ^ (w - 1) /\ den a = -1) ->
  let q := Z.quot (num a) (den a) in
  rlt_ri w a k = Ok (q <? k) /\ rlt_ir w k a = Ok (k <? q) /\
  req_ri w a k = Ok (q =? k) /\ req_ir w k a = Ok (q =? k) /\
  rne_ri w a k = Ok (negb (q =? k)) /\ rne_ir w k a = Ok (negb (q =? k)) /\
  rle_ri w a k = Ok (q <=? k) /\ rge_ri w a k = Ok (k <=? q) /\ rgt_ri w a k = Ok (k <? q) /\
  rle_ir w k a = Ok (k <=? q) /\ rge_ir w k a = Ok (q <=? k) /\ rgt_ir w k a = Ok (q <? k).
Proof. exact (fun w a k Hw Hn Hd Hm => mixed_spec w a k _ (sdiv_defined w (num a) (den a) Hn Hd Hm Hw)). Qed.
Print Assumptions C17_mixed_truncates.

(** For an integral rational m = num/den this is the comparison of the values. *)
Theorem C17_integral : forall w a k m,
  2 <= w <= 64 -> in_w w (num a) -> den a <> 0 -> ~ (num a = - 2 ^ (w - 1) /\ den a = -1) ->
  num a = m * den a ->
  (rv a == inject_Z m)%Q /\ IsInt w a = Ok true /\
  rlt_ri w a k = Ok (m <? k) /\ rlt_ir w k a = Ok (k <? m) /\ req_ri w a k = Ok (m =? k).
Proof. exact mixed_integral. Qed.
Print Assumptions C17_integral.

Theorem C17_values_refuted :
  req_ri 64 (mkRat 3 2) 1 = Ok true /\ rlt_ir 64 1 (mkRat 3 2) = Ok false /\
  rlt_ri 64 (mkRat (-1) 2) 0 = Ok false.
Proof. exact (conj eq_refl (conj eq_refl eq_refl)). Qed.
Print Assumptions C17_values_refuted.

Example C17_ex : rlt_ri 64 (mkRat 6 2) 4 = Ok true /\ req_ri 64 (mkRat 6 2) 3 = Ok true /\
  IsInt 64 (mkRat 6 2) = Ok true /\ IsInt 64 (mkRat 3 2) = Ok false.
Proof. repeat split. Qed.

(** * C18  text round trip *)

Theorem C18_round_trip : forall w r r0 tl,
  in_w w (num r) -> in_w w (den r) -> ~ starts_with_digit tl ->
  rat_get w r0 (fresh (rat_put r ++ tl)) = (r, mkStream tl (is_nil tl) false).
Proof. exact rat_round_trip. Qed.
Print Assumptions C18_round_trip.

Theorem C18_string_round_trip : forall w r r0,
  in_w w (num r) -> in_w w (den r) -> FromString w (ToString r) r0 = (r, Ok tt).
Proof. exact string_round_trip. Qed.
Print Assumptions C18_string_round_trip.

(** The text is the decimal numerator, two slashes and the decimal denominator. *)
Theorem C18_text : forall r, exists i1 i2,
  rat_put r = i1 ++ ["/"; "/"]%char ++ i2 /\ int_text i1 (num r) /\ int_text i2 (den r).
Proof. exact rat_put_shape. Qed.
Print Assumptions C18_text.

Example C18_ex : rat_put (mkRat (-12) 35) = $"-12//35" /\
  FromString 64 $"-12//35" rat_default = (mkRat (-12) 35, Ok tt) /\
  rat_get 64 rat_default (fresh $"7//2 rest") = (mkRat 7 2, fresh $" rest").
Proof. repeat split. Qed.

(** * C19  exactly what FromString accepts *)

Theorem C19_accepts : forall w s r0 r,
  FromString w s r0 = (r, Ok tt) <->
  exists tl, rational_text (- 2 ^ (w - 1)) (2 ^ (w - 1)) s (num r) (den r) tl.
Proof. exact FromString_ok_iff. Qed.
Print Assumptions C19_accepts.

Theorem C19_rejects : forall w s r0,
  (exists r, FromString w s r0 = (r, Throw ExBadParsing)) <->
  ~ exists n d tl, rational_text (- 2 ^ (w - 1)) (2 ^ (w - 1)) s n d tl.
Proof. exact FromString_throws_iff. Qed.
Print Assumptions C19_rejects.

(** A rejected text may still overwrite the object: 5//x leaves 5//0. *)
Theorem C19_failure_leaves_object_refuted :
  FromString 64 $"5//x" (mkRat 1 2) = (mkRat 5 0, Throw ExBadParsing).
Proof. reflexivity. Qed.
Print Assumptions C19_failure_leaves_object_refuted.

Example C19_ex : FromString 64 $" 6 / /
 +4tail" rat_default = (mkRat 6 4, Ok tt) /\
  FromString 64 $"1//0" rat_default = (mkRat 1 0, Ok tt) /\
  snd (FromString 64 $"1/2" rat_default) = Throw ExBadParsing /\
  snd (FromString 64 $"9223372036854775808//1" rat_default) = Throw ExBadParsing /\
  snd (FromString 32 $"2147483648//1" rat_default) = Throw ExBadParsing /\
  snd (FromString 64 $"" rat_default) = Throw ExBadParsing /\
  snd (FromString 64 $"3/" rat_default) = Throw ExBadParsing.
Proof. repeat split. Qed.

(** * C20  operators generated by the macros of RelationalUtils.hpp *)

Theorem C20_derived : forall (A : Type) (lt : A -> A -> bool),
  let L := fun a b => Ok (lt a b) in
  (forall a, lt a a = false) ->
  (forall a b c, lt a b = true -> lt b c = true -> lt a c = true) ->
  (forall a b c, m_eq L L a b = Ok true -> m_eq L L b c = Ok true -> m_eq L L a c = Ok true) ->
  (forall a, m_eq L L a a = Ok true) /\
  (forall a b, m_eq L L a b = m_eq L L b a) /\
  (forall a b, (lt a b = true /\ m_eq L L a b = Ok false /\ m_gt L a b = Ok false) \/
               (lt a b = false /\ m_eq L L a b = Ok true /\ m_gt L a b = Ok false) \/
               (lt a b = false /\ m_eq L L a b = Ok false /\ m_gt L a b = Ok true)) /\
  (forall a b, m_le L a b = Ok true <-> lt a b = true \/ m_eq L L a b = Ok true) /\
  (forall a b, m_ge L a b = Ok true <-> m_gt L a b = Ok true \/ m_eq L L a b = Ok true) /\
  (forall a b, m_le L a b = Ok true -> m_le L b a = Ok true -> m_eq L L a b = Ok true) /\
  (forall a b c, m_le L a b = Ok true -> m_le L b c = Ok true -> m_le L a c = Ok true) /\
  (forall a b, m_ne L L a b = Ok true <-> m_eq L L a b = Ok false).
Proof. exact (fun A lt => derived_swo lt). Qed.
Print Assumptions C20_derived.

(** Without any hypothesis on operator<: the operators are these combinations. *)
Theorem C20_any_order : forall (A : Type) (lt : A -> A -> bool) (a b : A),
  let L := fun a b => Ok (lt a b) in
  m_eq L L a b = Ok (negb (lt a b) && negb (lt b a)) /\
  m_ne L L a b = Ok (lt a b || lt b a) /\
  m_le L a b = Ok (negb (lt b a)) /\ m_gt L a b = Ok (lt b a) /\ m_ge L a b = Ok (negb (lt a b)).
Proof. exact derived_any. Qed.
Print Assumptions C20_any_order.

Example C20_ex : let L := fun a b => Ok (Z.ltb (a / 10) (b / 10)) in
  m_eq L L 12 17 = Ok true /\ m_ne L L 12 27 = Ok true /\ m_le L 12 11 = Ok true /\ m_gt L 12 11 = Ok false.
Proof. repeat split. Qed.
