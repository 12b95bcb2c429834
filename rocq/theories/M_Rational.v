(** Model of include/bwsl/RationalNum.hpp and include/bwsl/RelationalUtils.hpp.
    [w] is the width of T (64: RationalLong, 32: RationalInt); arithmetic in T is
    signed, its overflow undefined.  For T = int the usual promotions leave int. *)
From Coq Require Import ZArith List Bool Ascii.
From Verif Require Import Base M_MathInt M_Text.
Import ListNotations.
Open Scope Z_scope.
Open Scope out_scope.

(** RationalNum.hpp:152-155  num_{0}, den_{1}. *)
Record rat := mkRat { num : Z; den : Z }.

(** RationalNum.hpp:37  default constructor. *)
Definition rat_default : rat := mkRat 0 1.

(** Signed division / remainder in T: undefined for a zero divisor or MIN / -1. *)
Definition sdiv (w a b : Z) : out Z := if b =? 0 then UB else sint w (Z.quot a b).
Definition smod (w a b : Z) : out Z :=
  if b =? 0 then UB else _ <- sint w (Z.quot a b) ;; Ok (Z.rem a b).

(** RationalNum.hpp:195-202  Simplify. *)
Definition Simplify (w : Z) (r : rat) : out rat :=
  g <- get_gcd w (num r) (den r) ;;
  n <- sdiv w (num r) g ;;
  d <- sdiv w (den r) g ;;
  Ok (mkRat n d).

(** RationalNum.hpp:187-193  RationalNum(num, den). *)
Definition RationalNum (w n d : Z) : out rat := Simplify w (mkRat n d).

(** RationalNum.hpp:138  IsInt. *)
Definition IsInt (w : Z) (r : rat) : out bool :=
  m <- smod w (num r) (den r) ;; Ok (m =? 0).

(** RationalNum.hpp:61  explicit operator T. *)
Definition rat_to_int (w : Z) (r : rat) : out Z := sdiv w (num r) (den r).

(** RationalNum.hpp:204-209  operator<(RationalNum, RationalNum). *)
Definition rlt (w : Z) (a b : rat) : out bool :=
  x <- sint w (num a * den b) ;; y <- sint w (num b * den a) ;; Ok (x <? y).

(** RationalNum.hpp:211-216  operator<(RationalNum, G). *)
Definition rlt_ri (w : Z) (a : rat) (k : Z) : out bool :=
  q <- sdiv w (num a) (den a) ;; Ok (q <? k).

(** RationalNum.hpp:218-223  operator<(G, RationalNum). *)
Definition rlt_ir (w : Z) (k : Z) (b : rat) : out bool :=
  q <- sdiv w (num b) (den b) ;; Ok (k <? q).

(** RelationalUtils.hpp:72-97 (and 28-48, same bodies)  operators generated from
    [lt] : A < B and [lt'] : B < A.  [&&] short-circuits. *)
Definition m_eq {A B} (lt : A -> B -> out bool) (lt' : B -> A -> out bool) a b : out bool :=
  x <- lt a b ;; if negb x then (y <- lt' b a ;; Ok (negb y)) else Ok false.
Definition m_ne {A B} (lt : A -> B -> out bool) (lt' : B -> A -> out bool) a b : out bool :=
  e <- m_eq lt lt' a b ;; Ok (negb e).
Definition m_le {A B} (lt' : B -> A -> out bool) (a : A) (b : B) : out bool :=
  y <- lt' b a ;; Ok (negb y).
Definition m_gt {A B} (lt' : B -> A -> out bool) (a : A) (b : B) : out bool := lt' b a.
Definition m_ge {A B} (lt : A -> B -> out bool) (a : A) (b : B) : out bool :=
  x <- lt a b ;; Ok (negb x).

(** RationalNum.hpp:225  relations between two rationals. *)
Definition req w := m_eq (rlt w) (rlt w).
Definition rne w := m_ne (rlt w) (rlt w).
Definition rle w := m_le (A := rat) (rlt w).
Definition rgt w := m_gt (A := rat) (rlt w).
Definition rge w := m_ge (B := rat) (rlt w).
(** RationalNum.hpp:226  rational on the left, integer on the right. *)
Definition req_ri w := m_eq (rlt_ri w) (rlt_ir w).
Definition rne_ri w := m_ne (rlt_ri w) (rlt_ir w).
Definition rle_ri w := m_le (rlt_ir w).
Definition rgt_ri w := m_gt (rlt_ir w).
Definition rge_ri w := m_ge (rlt_ri w).
(** RationalNum.hpp:227  integer on the left, rational on the right. *)
Definition req_ir w := m_eq (rlt_ir w) (rlt_ri w).
Definition rne_ir w := m_ne (rlt_ir w) (rlt_ri w).
Definition rle_ir w := m_le (rlt_ri w).
Definition rgt_ir w := m_gt (rlt_ri w).
Definition rge_ir w := m_ge (rlt_ir w).

(** RationalNum.hpp:229-236  operator+. *)
Definition radd (w : Z) (a b : rat) : out rat :=
  x <- sint w (num a * den b) ;; y <- sint w (num b * den a) ;; s <- sint w (x + y) ;;
  d <- sint w (den a * den b) ;; RationalNum w s d.

(** RationalNum.hpp:238-245  operator-. *)
Definition rsub (w : Z) (a b : rat) : out rat :=
  x <- sint w (num a * den b) ;; y <- sint w (num b * den a) ;; s <- sint w (x - y) ;;
  d <- sint w (den a * den b) ;; RationalNum w s d.

(** RationalNum.hpp:247-253  operator/. *)
Definition rdiv (w : Z) (a b : rat) : out rat :=
  x <- sint w (num a * den b) ;; y <- sint w (num b * den a) ;; RationalNum w x y.

(** RationalNum.hpp:255-261  operator*. *)
Definition rmul (w : Z) (a b : rat) : out rat :=
  x <- sint w (num a * num b) ;; y <- sint w (den a * den b) ;; RationalNum w x y.

(** RationalNum.hpp:263-268  rational + integer. *)
Definition radd_ri (w : Z) (a : rat) (k : Z) : out rat :=
  x <- sint w (k * den a) ;; s <- sint w (num a + x) ;; RationalNum w s (den a).

(** RationalNum.hpp:270-275  rational - integer. *)
Definition rsub_ri (w : Z) (a : rat) (k : Z) : out rat :=
  x <- sint w (k * den a) ;; s <- sint w (num a - x) ;; RationalNum w s (den a).

(** RationalNum.hpp:277-282  rational / integer. *)
Definition rdiv_ri (w : Z) (a : rat) (k : Z) : out rat :=
  d <- sint w (den a * k) ;; RationalNum w (num a) d.

(** RationalNum.hpp:284-289  rational * integer. *)
Definition rmul_ri (w : Z) (a : rat) (k : Z) : out rat :=
  n <- sint w (num a * k) ;; RationalNum w n (den a).

(** RationalNum.hpp:291-296  integer + rational. *)
Definition radd_ir (w : Z) (k : Z) (b : rat) : out rat := radd_ri w b k.

(** RationalNum.hpp:298-303  integer - rational. *)
Definition rsub_ir (w : Z) (k : Z) (b : rat) : out rat :=
  x <- sint w (k * den b) ;; s <- sint w (x - num b) ;; RationalNum w s (den b).

(** RationalNum.hpp:305-310  integer * rational. *)
Definition rmul_ir (w : Z) (k : Z) (b : rat) : out rat := rmul_ri w b k.

(** RationalNum.hpp:312-317  integer / rational. *)
Definition rdiv_ir (w : Z) (k : Z) (b : rat) : out rat :=
  x <- sint w (k * den b) ;; RationalNum w x (num b).

(** RationalNum.hpp:161-167  operator<<: num//den.  ToString
    (RationalNum.hpp:331-336) formats through operator<<. *)
Definition rat_put (r : rat) : list ascii := put_int (num r) ++ "/"%char :: "/"%char :: put_int (den r).
Definition ToString (r : rat) : list ascii := rat_put r.

(** RationalNum.hpp:169-185  operator>>: new value of rhs and of the stream.
    [sep] is value-initialised to the NUL character. *)
Definition rat_get (w : Z) (r : rat) (st : stream) : rat * stream :=
  let '(n, st1) := get_int w (num r) st in
  let '(c1, st2) := get_char zero st1 in
  if negb (Ascii.eqb c1 "/") then (mkRat n (den r), set_fail st2) else
  let '(c2, st3) := get_char c1 st2 in
  if negb (Ascii.eqb c2 "/") then (mkRat n (den r), set_fail st3) else
  let '(d, st4) := get_int w (den r) st3 in
  (mkRat n d, st4).

(** RationalNum.hpp:319-329  FromString(str, rhs): the new value of rhs, and
    whether BadParsing was thrown. *)
Definition FromString (w : Z) (s : list ascii) (r : rat) : rat * out unit :=
  let '(r', st) := rat_get w r (fresh s) in
  (r', if failb st then Throw ExBadParsing else Ok tt).
