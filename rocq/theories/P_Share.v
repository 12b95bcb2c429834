(** Property theorems C89 (how often each random choice comes out).  Nothing else
    is proved here.  [uro] is 2^-53, [RR x] the real value of the double x,
    [fin x] says x is finite; a [word] is one output of a 64-bit engine, and
    [share a b] is the share of the 2^64 words lying in [a, b) (S_Random). *)
From Coq Require Import ZArith Reals List Bool Lia Lra.
From Flocq Require Import Core.Core IEEE754.BinarySingleNaN.
From Verif Require Import Base F64 Num S_MathF S_Random M_MathF M_Random L_MathF L_Share.
Import ListNotations.
Open Scope R_scope.

(** choose_between: entry i is chosen for a run of words whose share is the
    weight of entry i over the exact total, up to about (6n + 7) * 2^-53. *)
Theorem C89_choose_between : forall l, l <> [] ->
  Forall (fun w => fin w /\ 0 <= RR w) l -> (Z.of_nat (length l) <= 2 ^ 46)%Z ->
  fin (left_sum l (length l - 1)) -> bpow radix2 (-1000) <= RR (left_sum l (length l - 1)) ->
  forall i, (i < length l)%nat ->
  exists a b, happens_between (fun w => choose_between_rng l w = Ok (Z.of_nat i)) a b /\
    Rabs (share a b - RR (nth i l f0) / total l) <= (6 * INR (length l) + 7) * uro.
Proof. intros l H1 H2 H3 H4 H5 i Hi. now apply between_share. Qed.
Print Assumptions C89_choose_between.

(** Whatever the word, an existing entry of positive weight is chosen. *)
Theorem C89_choose_between_valid : forall l, l <> [] ->
  Forall (fun w => fin w /\ 0 <= RR w) l -> (Z.of_nat (length l) <= 2 ^ 46)%Z ->
  fin (left_sum l (length l - 1)) -> bpow radix2 (-1000) <= RR (left_sum l (length l - 1)) ->
  forall w, word w ->
  exists i, (i < length l)%nat /\ choose_between_rng l w = Ok (Z.of_nat i) /\ 0 < RR (nth i l f0).
Proof. intros l H1 H2 H3 H4 H5 w Hw. now apply between_total. Qed.
Print Assumptions C89_choose_between_valid.

(** choose_between_psums: the shares are the steps of the sums that are given. *)
Theorem C89_choose_between_psums : forall comul, comul <> [] ->
  Forall fin comul -> nondecreasing comul -> 0 <= RR (nth 0 comul f0) -> (vsize comul < two63)%Z ->
  let top := RR (nth (length comul - 1) comul f0) in bpow radix2 (-1000) <= top ->
  forall i, (i < length comul)%nat ->
  exists a b, happens_between (fun w => choose_between_psums_rng comul w = Ok (Z.of_nat i)) a b /\
    Rabs (share a b - (RR (nth i comul f0) - before comul i) / top) <= 7 * uro.
Proof. intros comul H1 H2 H3 H4 H5 top H6 i Hi. now apply psums_share. Qed.
Print Assumptions C89_choose_between_psums.

(** choose_with_probability: true for the words below some N whose share is the
    probability up to 2^-52. *)
Theorem C89_choose_with_probability : forall p, fin p -> 0 <= RR p <= 1 ->
  exists N, happens_between (fun w => choose_with_probability_rng p w = true) 0 N /\
    Rabs (share 0 N - RR p) <= 2 * uro.
Proof. exact with_probability_share. Qed.
Print Assumptions C89_choose_with_probability.

(** Weights 1 and 3: the switch happens at the quarter of the words, and the
    greatest word still chooses an existing entry. *)
Example C89_ex :
  let l := [f1; of_Z 3] in
  l <> [] /\ Forall (fun w => fin w /\ 0 <= RR w) l /\ (Z.of_nat (length l) <= 2 ^ 46)%Z /\
  fin (left_sum l (length l - 1)) /\ bpow radix2 (-1000) <= RR (left_sum l (length l - 1)) /\
  choose_between_rng l (2 ^ 62 - 512) = Ok 0%Z /\ choose_between_rng l (2 ^ 62) = Ok 1%Z /\
  choose_between_rng l (2 ^ 64 - 1) = Ok 1%Z /\
  choose_between_psums_rng (partial_sum l) (2 ^ 62 - 512) = Ok 0%Z /\
  choose_with_probability_rng (dyad 1 (-2)) (2 ^ 62 - 512) = true /\
  choose_with_probability_rng (dyad 1 (-2)) (2 ^ 62) = false.
Proof.
  assert (A : RR (of_Z 3) = 3) by (apply of_Z_exact; lia).
  assert (F : fin (of_Z 3)) by (apply of_Z_exact; lia).
  assert (B : RR (fadd f1 (of_Z 3)) = 4 /\ fin (fadd f1 (of_Z 3))).
  { assert (E : rnd (RR f1 + RR (of_Z 3)) = 4).
    { rewrite RR_f1, A. replace (1 + 3) with 4 by ring. apply rnd_fmt. apply (fmt_IZR 4). lia. }
    destruct (fadd_ok f1 (of_Z 3) fin_f1 F) as [X Y].
    - rewrite E, Rabs_pos_eq by lra. change 4 with (bpow radix2 2). apply bpow_lt. lia.
    - split; auto. now rewrite X. }
  destruct B as [B1 B2]. cbv zeta. split; [discriminate|]. split.
  { repeat apply Forall_cons; auto; split; auto using fin_f1; rewrite ?RR_f1, ?A; lra. }
  cbn [length]. split; [lia|]. change (left_sum [f1; of_Z 3] (2 - 1)) with (fadd f1 (of_Z 3)).
  split; [exact B2|]. split.
  { rewrite B1. apply Rle_trans with (bpow radix2 0); [apply bpow_le; lia|cbn; lra]. }
  repeat split; vm_compute; reflexivity.
Qed.
