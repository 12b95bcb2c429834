(** Specification of a 64-bit Mersenne twister: the recurrence of the C++ standard,
    [rand.eng.mers], as one infinite sequence of words, and programs that read
    random words from a sequence. *)
From Coq Require Import ZArith List.
Import ListNotations.
Open Scope Z_scope.

(** The upper 33 bits of u followed by the lower 31 bits of v. *)
Definition glue (u v : Z) : Z := u / 2 ^ 31 * 2 ^ 31 + v mod 2 ^ 31.

(** Multiplication by the twist matrix. *)
Definition twist (y : Z) : Z := Z.lxor (y / 2) (y mod 2 * 13043109905998158313).

(** The sequence that starts with the words ws. *)
Definition twister_sequence (ws : list Z) (X : nat -> Z) : Prop :=
  (forall i, (i < 312)%nat -> X i = nth i ws 0) /\
  (forall i, X (i + 312)%nat = Z.lxor (X (i + 156)%nat) (twist (glue (X i) (X (i + 1)%nat)))).

(** The words that are handed out. *)
Definition tempered (x : Z) : Z :=
  let y1 := Z.lxor x (Z.land (x / 2 ^ 29) 6148914691236517205) in
  let y2 := Z.lxor y1 (Z.land (y1 * 2 ^ 17 mod 2 ^ 64) 8202884508482404352) in
  let y3 := Z.lxor y2 (Z.land (y2 * 2 ^ 37 mod 2 ^ 64) 18444473444759240704) in
  Z.lxor y3 (y3 / 2 ^ 43).

(** A program that reads random words, each use depending on the words read before. *)
Inductive prog (A : Type) := Ret (a : A) | Draw (f : Z -> prog A).
Arguments Ret {A}. Arguments Draw {A}.

(** Run on the sequence W from place i: the result and the next place. *)
Fixpoint play {A} (W : nat -> Z) (p : prog A) (i : nat) : A * nat :=
  match p with
  | Ret a => (a, i)
  | Draw f => play W (f (W i)) (S i)
  end.

(** Steps one after the other. *)
Fixpoint simulate {C S} (step : C -> S -> prog S) (W : nat -> Z) (l : list C) (s : S) (i : nat) : S * nat :=
  match l with
  | [] => (s, i)
  | c :: l' => let '(s', i') := play W (step c s) i in simulate step W l' s' i'
  end.
