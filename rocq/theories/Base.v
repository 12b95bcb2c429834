(** Common vocabulary of the model: outcomes, machine integers, vectors, loops.
    Nothing here is specific to one header of /repo; the C++ rules modelled are
    those of C++17 on an LP64 platform (size_t/unsigned long: 64-bit, long:
    64-bit, int: 32-bit). *)
From Coq Require Import ZArith List Bool Lia.
Import ListNotations.
Open Scope Z_scope.

(** ** Outcomes *)

(** The exception types thrown by the library:
    AccumulatorOverflow (accumulators/AccumulatorsExceptions.hpp:22),
    BadParsing (Exceptions.hpp:25), MoveInvalidSequence (mcutils/MoveStats.hpp:38),
    EnumStringConversionFailed_* (EnumString.hpp:65), std::out_of_range
    (std::map::at in ObservableGroup.hpp:113), std::invalid_argument
    (RNGUtils.hpp:52,64). *)
Inductive exn :=
| ExAccumulatorOverflow
| ExBadParsing
| ExMoveInvalidSequence
| ExEnumConversion
| ExOutOfRange
| ExInvalidArgument.

(** Result of evaluating a C++ expression.  [UB]: undefined behaviour (signed
    overflow, division by zero, out-of-bounds access, violated assert
    precondition, dereference of an end iterator).  [Diverge]: the evaluation
    never returns. *)
Inductive out (A : Type) : Type :=
| Ok (a : A)
| Throw (e : exn)
| UB
| Diverge.
Arguments Ok {A} a.
Arguments Throw {A} e.
Arguments UB {A}.
Arguments Diverge {A}.

Definition bind {A B} (x : out A) (f : A -> out B) : out B :=
  match x with
  | Ok a => f a
  | Throw e => Throw e
  | UB => UB
  | Diverge => Diverge
  end.

Definition omap {A B} (f : A -> B) (x : out A) : out B := bind x (fun a => Ok (f a)).

Declare Scope out_scope.
Delimit Scope out_scope with out.
Notation "x <- e ;; k" := (bind e (fun x => k))
  (at level 61, e at next level, right associativity) : out_scope.
Notation "' p <- e ;; k" := (bind e (fun z => match z with p => k end))
  (at level 61, p pattern, e at next level, right associativity) : out_scope.
Open Scope out_scope.

(** Evaluate a list of outcomes left to right. *)
Fixpoint omapl {A B} (f : A -> out B) (l : list A) : out (list B) :=
  match l with
  | [] => Ok []
  | a :: l' => b <- f a ;; bs <- omapl f l' ;; Ok (b :: bs)
  end.

(** Left fold with an effectful step (a [for] loop carrying a state). *)
Fixpoint ofold {A S} (f : S -> A -> out S) (l : list A) (s : S) : out S :=
  match l with
  | [] => Ok s
  | a :: l' => s' <- f s a ;; ofold f l' s'
  end.

(** ** Machine integers *)

Definition two63 : Z := 2 ^ 63.
Definition two64 : Z := 2 ^ 64.

(** Unsigned 64-bit reduction (unsigned arithmetic, [basic.fundamental]). *)
Definition u64 (z : Z) : Z := z mod two64.

(** Conversion to [long] of an unsigned/wider value (implementation defined
    before C++20, two's complement on every supported compiler). *)
Definition to_s64 (z : Z) : Z :=
  let w := z mod two64 in if w <? two63 then w else w - two64.

Definition is_u64 (z : Z) : bool := (0 <=? z) && (z <? two64).
Definition is_s64 (z : Z) : bool := (- two63 <=? z) && (z <? two63).

(** Range of a signed type of [w] bits. *)
Definition is_sint (w z : Z) : bool := (- 2 ^ (w - 1) <=? z) && (z <? 2 ^ (w - 1)).

(** Result of a signed arithmetic operation: undefined when it overflows. *)
Definition sint (w z : Z) : out Z := if is_sint w z then Ok z else UB.
Definition s64 (z : Z) : out Z := sint 64 z.

(** ** std::vector access ([operator[]], unchecked in C++: out of bounds is UB) *)

Definition vsize {A} (l : list A) : Z := Z.of_nat (length l).

Definition vget {A} (l : list A) (i : Z) : out A :=
  if (0 <=? i) && (i <? vsize l)
  then match nth_error l (Z.to_nat i) with Some a => Ok a | None => UB end
  else UB.

Fixpoint list_set {A} (l : list A) (i : nat) (a : A) : list A :=
  match l, i with
  | [], _ => []
  | _ :: l', O => a :: l'
  | x :: l', S i' => x :: list_set l' i' a
  end.

Definition vset {A} (l : list A) (i : Z) (a : A) : out (list A) :=
  if (0 <=? i) && (i <? vsize l) then Ok (list_set l (Z.to_nat i) a) else UB.

(** The loop indices 0UL, 1UL, ..., n-1 *)
Definition upto (n : Z) : list Z := map Z.of_nat (seq 0 (Z.to_nat n)).

(** ** While loops *)

Section Loop.
Context {S R : Type} (body : S -> S + R).

(** Run at most [n] iterations; [inl] means "still running". *)
Fixpoint ploop (n : positive) (s : S) : S + R :=
  match n with
  | xH => body s
  | xO p => match ploop p s with inl s' => ploop p s' | inr r => inr r end
  | xI p =>
      match body s with
      | inl s' => match ploop p s' with inl s'' => ploop p s'' | inr r => inr r end
      | inr r => inr r
      end
  end.

Fixpoint nloop (n : nat) (s : S) : S + R :=
  match n with
  | O => inl s
  | Datatypes.S n' => match body s with inl s' => nloop n' s' | inr r => inr r end
  end.

Lemma nloop_add a b s :
  nloop (a + b) s = match nloop a s with inl s' => nloop b s' | inr r => inr r end.
Proof.
  revert s; induction a as [|a IH]; intros s; simpl; [reflexivity|].
  destruct (body s); auto.
Qed.

Lemma ploop_nloop n s : ploop n s = nloop (Pos.to_nat n) s.
Proof.
  revert s; induction n as [p IH|p IH|]; intros s; cbn [ploop].
  - replace (Pos.to_nat p~1) with (Datatypes.S (Pos.to_nat p + Pos.to_nat p)) by lia.
    cbn [nloop]. destruct (body s) as [s'|r]; [|reflexivity].
    rewrite nloop_add, IH. destruct (nloop (Pos.to_nat p) s'); auto.
  - replace (Pos.to_nat p~0) with (Pos.to_nat p + Pos.to_nat p)%nat by lia.
    rewrite nloop_add, IH. destruct (nloop (Pos.to_nat p) s); auto.
  - replace (Pos.to_nat 1) with 1%nat by lia. cbn [nloop]. destruct (body s); reflexivity.
Qed.

Lemma nloop_total (I : S -> Prop) (Q : R -> Prop) (m : S -> Z) :
  (forall s, I s -> match body s with inl s' => I s' /\ 0 <= m s' < m s | inr r => Q r end) ->
  forall n s, I s -> m s < Z.of_nat n -> exists r, nloop (Datatypes.S n) s = inr r /\ Q r.
Proof.
  intros Hb n; induction n as [|n IH]; intros s Hs Hm; cbn [nloop].
  - specialize (Hb s Hs); destruct (body s) as [s'|r]; [lia|eauto].
  - specialize (Hb s Hs); destruct (body s) as [s'|r]; [|eauto].
    destruct Hb as [Hs' Hlt]. apply IH; [exact Hs'|lia].
Qed.

Lemma nloop_forever (I : S -> Prop) :
  (forall s, I s -> exists s', body s = inl s' /\ I s') ->
  forall n s, I s -> exists s', nloop n s = inl s'.
Proof.
  intros Hb n; induction n as [|n IH]; intros s Hs; cbn [nloop]; [eauto|].
  destruct (Hb s Hs) as [s' [-> Hs']]. auto.
Qed.

End Loop.

(** Iterations after which a loop whose state is one 64-bit variable (plus
    values computed from it) must have revisited a state, hence never stops. *)
Definition fuel : positive := 2 ^ 66.

(** A C++ loop: the body either continues with a new state or leaves the loop
    with an outcome. *)
Definition while_ {S A} (body : S -> S + out A) (s : S) : out A :=
  match ploop body fuel s with inl _ => Diverge | inr r => r end.

(** Conversion should unfold the functions of the model before these. *)
Global Strategy 100 [bind].
Global Strategy 200 [while_].
Global Strategy 300 [ploop].

(** Variant rule for total correctness. *)
Lemma while_total {S A} (body : S -> S + out A) (I : S -> Prop) (Q : out A -> Prop)
      (m : S -> Z) (s : S) :
  (forall s, I s -> match body s with inl s' => I s' /\ 0 <= m s' < m s | inr r => Q r end) ->
  I s -> m s < 2 ^ 66 - 1 -> Q (while_ body s).
Proof.
  intros Hb Hs Hm. unfold while_. rewrite ploop_nloop.
  assert (E : Pos.to_nat fuel = Datatypes.S (Z.to_nat (2 ^ 66 - 1))).
  { unfold fuel. apply Nat2Z.inj. rewrite positive_nat_Z, Nat2Z.inj_succ, Z2Nat.id by lia.
    reflexivity. }
  rewrite E.
  destruct (nloop_total body I Q m Hb (Z.to_nat (2 ^ 66 - 1)) s Hs) as [r [-> Hr]];
    [lia|exact Hr].
Qed.

(** Divergence rule. *)
Lemma while_diverge {S A} (body : S -> S + out A) (I : S -> Prop) (s : S) :
  (forall s, I s -> exists s', body s = inl s' /\ I s') -> I s -> while_ body s = Diverge.
Proof.
  intros Hb Hs. unfold while_. rewrite ploop_nloop.
  destruct (nloop_forever body I Hb (Pos.to_nat fuel) s Hs) as [s' ->]. reflexivity.
Qed.

(** ** Basic facts *)

Lemma two63_eq : two63 = 9223372036854775808. Proof. reflexivity. Qed.
Lemma two64_eq : two64 = 18446744073709551616. Proof. reflexivity. Qed.
Lemma two64_double : two64 = 2 * two63. Proof. reflexivity. Qed.
Lemma two63_pos : 0 < two63. Proof. reflexivity. Qed.

Lemma is_u64_spec z : is_u64 z = true <-> 0 <= z < two64.
Proof. unfold is_u64. rewrite andb_true_iff, Z.leb_le, Z.ltb_lt. tauto. Qed.

Lemma is_s64_spec z : is_s64 z = true <-> - two63 <= z < two63.
Proof. unfold is_s64. rewrite andb_true_iff, Z.leb_le, Z.ltb_lt. tauto. Qed.

Lemma is_sint_spec w z : is_sint w z = true <-> - 2 ^ (w - 1) <= z < 2 ^ (w - 1).
Proof. unfold is_sint. rewrite andb_true_iff, Z.leb_le, Z.ltb_lt. tauto. Qed.

Lemma sint_ok w z : - 2 ^ (w - 1) <= z < 2 ^ (w - 1) -> sint w z = Ok z.
Proof. intros H. unfold sint. rewrite (proj2 (is_sint_spec w z) H). reflexivity. Qed.

Lemma sint_inv w z a : sint w z = Ok a -> a = z /\ - 2 ^ (w - 1) <= z < 2 ^ (w - 1).
Proof.
  unfold sint. destruct (is_sint w z) eqn:E; intros H; [|discriminate].
  injection H as <-. split; [reflexivity|]. now apply is_sint_spec.
Qed.

Lemma s64_ok z : - two63 <= z < two63 -> s64 z = Ok z.
Proof. intros H. apply sint_ok. exact H. Qed.

Lemma s64_inv z a : s64 z = Ok a -> a = z /\ - two63 <= z < two63.
Proof. apply sint_inv. Qed.

Lemma sint_cases w z :
  (sint w z = Ok z /\ - 2 ^ (w - 1) <= z < 2 ^ (w - 1)) \/
  (sint w z = UB /\ ~ (- 2 ^ (w - 1) <= z < 2 ^ (w - 1))).
Proof.
  unfold sint. destruct (is_sint w z) eqn:E.
  - left. split; [reflexivity|now apply is_sint_spec].
  - right. split; [reflexivity|]. intros H. apply is_sint_spec in H. congruence.
Qed.

Lemma u64_small z : 0 <= z < two64 -> u64 z = z.
Proof. intros H. unfold u64. now apply Z.mod_small. Qed.

Lemma u64_range z : 0 <= u64 z < two64.
Proof. unfold u64. apply Z.mod_pos_bound. reflexivity. Qed.

Lemma u64_mul_idem_l a b : u64 (u64 a * b) = u64 (a * b).
Proof. unfold u64. apply Zmult_mod_idemp_l. Qed.

Lemma to_s64_small z : - two63 <= z < two63 -> to_s64 z = z.
Proof.
  intros H. unfold to_s64. pose proof two64_double. pose proof two63_pos.
  destruct (Z_lt_le_dec z 0) as [Hn|Hp].
  - replace (z mod two64) with (z + two64).
    + destruct (Z.ltb_spec (z + two64) two63); lia.
    + apply Z.mod_unique with (-1); lia.
  - rewrite Z.mod_small by lia. destruct (Z.ltb_spec z two63); lia.
Qed.

Lemma to_s64_u64 z : to_s64 (u64 z) = to_s64 z.
Proof. unfold to_s64, u64. now rewrite Z.mod_mod. Qed.

Lemma vsize_nonneg {A} (l : list A) : 0 <= vsize l.
Proof. unfold vsize. lia. Qed.

Lemma vget_ok {A} (l : list A) i a :
  nth_error l i = Some a -> vget l (Z.of_nat i) = Ok a.
Proof.
  intros H. unfold vget.
  assert (Hlt : (i < length l)%nat) by (apply nth_error_Some; congruence).
  unfold vsize. destruct (Z.leb_spec 0 (Z.of_nat i)); [|lia].
  destruct (Z.ltb_spec (Z.of_nat i) (Z.of_nat (length l))); [|lia].
  cbn [andb]. rewrite Nat2Z.id, H. reflexivity.
Qed.

Lemma vget_nth {A} (l : list A) i d :
  0 <= i < vsize l -> vget l i = Ok (nth (Z.to_nat i) l d).
Proof.
  intros H. unfold vget. unfold vsize in *.
  destruct (Z.leb_spec 0 i); [|lia].
  destruct (Z.ltb_spec i (Z.of_nat (length l))); [|lia].
  cbn [andb].
  destruct (nth_error l (Z.to_nat i)) eqn:E.
  - apply nth_error_nth with (d := d) in E. now rewrite E.
  - apply nth_error_None in E. lia.
Qed.

Lemma vget_oob {A} (l : list A) i : ~ (0 <= i < vsize l) -> vget l i = UB.
Proof.
  intros H. unfold vget. destruct (Z.leb_spec 0 i); [|reflexivity].
  destruct (Z.ltb_spec i (vsize l)); [lia|reflexivity].
Qed.

Lemma vget_inv {A} (l : list A) i a :
  vget l i = Ok a -> 0 <= i < vsize l /\ nth_error l (Z.to_nat i) = Some a.
Proof.
  unfold vget. destruct (Z.leb_spec 0 i); [|discriminate].
  destruct (Z.ltb_spec i (vsize l)); [|discriminate]. cbn [andb].
  destruct (nth_error l (Z.to_nat i)) eqn:E; intros H1; [|discriminate].
  injection H1 as ->. split; [lia|reflexivity].
Qed.

Lemma list_set_length {A} (l : list A) i a : length (list_set l i a) = length l.
Proof. revert i; induction l as [|x l IH]; intros [|i]; simpl; auto. Qed.

Lemma list_set_nth_eq {A} (l : list A) i a d :
  (i < length l)%nat -> nth i (list_set l i a) d = a.
Proof.
  revert i; induction l as [|x l IH]; intros [|i]; simpl; intros H; try lia; auto.
  apply IH. lia.
Qed.

Lemma list_set_nth_neq {A} (l : list A) i j a d :
  i <> j -> nth j (list_set l i a) d = nth j l d.
Proof.
  revert i j; induction l as [|x l IH]; intros [|i] [|j] H; simpl; auto; try lia.
Qed.

Lemma vset_ok {A} (l : list A) i a :
  0 <= i < vsize l -> vset l i a = Ok (list_set l (Z.to_nat i) a).
Proof.
  intros H. unfold vset. destruct (Z.leb_spec 0 i); [|lia].
  destruct (Z.ltb_spec i (vsize l)); [reflexivity|lia].
Qed.

Lemma upto_length n : length (upto n) = Z.to_nat n.
Proof. unfold upto. now rewrite map_length, seq_length. Qed.

Lemma upto_In n i : In i (upto n) <-> 0 <= i < n.
Proof.
  unfold upto. rewrite in_map_iff. split.
  - intros [k [<- Hk]]. apply in_seq in Hk. lia.
  - intros H. exists (Z.to_nat i). split; [lia|]. apply in_seq. lia.
Qed.

Lemma upto_nth_error n k :
  0 <= n -> (k < Z.to_nat n)%nat -> nth_error (upto n) k = Some (Z.of_nat k).
Proof.
  intros Hn Hk. unfold upto. rewrite nth_error_map.
  rewrite nth_error_nth' with (d := O) by (rewrite seq_length; lia).
  rewrite seq_nth by lia. reflexivity.
Qed.

Lemma upto_nth n k d : (k < Z.to_nat n)%nat -> nth k (upto n) d = Z.of_nat k.
Proof.
  intros Hk. unfold upto.
  rewrite nth_indep with (d' := Z.of_nat 0) by (rewrite map_length, seq_length; lia).
  rewrite map_nth, seq_nth by lia. reflexivity.
Qed.

Lemma bind_ok {A B} (x : out A) (f : A -> out B) b :
  bind x f = Ok b -> exists a, x = Ok a /\ f a = Ok b.
Proof. destruct x; simpl; intros H; try discriminate. eauto. Qed.

Lemma omapl_ok_map {A B} (f : A -> out B) (g : A -> B) l :
  (forall a, In a l -> f a = Ok (g a)) -> omapl f l = Ok (map g l).
Proof.
  induction l as [|a l IH]; intros H; simpl; [reflexivity|].
  rewrite (H a) by (now left). simpl. rewrite IH by (intros; apply H; now right). reflexivity.
Qed.

Lemma omapl_Forall2 {A B} (f : A -> out B) l bs :
  omapl f l = Ok bs <-> Forall2 (fun a b => f a = Ok b) l bs.
Proof.
  revert bs; induction l as [|a l IH]; intros bs; simpl; split; intros H.
  - injection H as <-. constructor.
  - inversion H. reflexivity.
  - apply bind_ok in H as [b [Hb H]]. apply bind_ok in H as [bs' [Hbs' H]].
    injection H as <-. constructor; [exact Hb|]. now apply IH.
  - inversion H; subst. rewrite H2. simpl. rewrite (proj2 (IH l')) by assumption. reflexivity.
Qed.

Lemma Forall2_length {A B} (R : A -> B -> Prop) l l' : Forall2 R l l' -> length l = length l'.
Proof. induction 1; simpl; auto. Qed.

Lemma omapl_length {A B} (f : A -> out B) l bs :
  omapl f l = Ok bs -> length bs = length l.
Proof. intros H. apply omapl_Forall2, Forall2_length in H. lia. Qed.

Lemma ofold_app {A S} (f : S -> A -> out S) l1 l2 s :
  ofold f (l1 ++ l2) s = (s' <- ofold f l1 s ;; ofold f l2 s').
Proof.
  revert s; induction l1 as [|a l1 IH]; intros s; simpl; [reflexivity|].
  destruct (f s a); simpl; auto.
Qed.

Lemma ofold_ok {A S} (f : S -> A -> out S) (g : S -> A -> S) (I : S -> Prop) l s :
  (forall s a, In a l -> I s -> f s a = Ok (g s a) /\ I (g s a)) -> I s ->
  ofold f l s = Ok (fold_left g l s) /\ I (fold_left g l s).
Proof.
  revert s; induction l as [|a l IH]; intros s H Hs; simpl; [auto|].
  destruct (H s a (or_introl eq_refl) Hs) as [-> Hs']. simpl.
  apply IH; [|exact Hs']. intros s' a' Ha'. apply H. now right.
Qed.
