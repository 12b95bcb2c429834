(** Property theorems C74 (applications/dumpmt.cpp). *)
From Coq Require Import ZArith List Bool Ascii String Lia.
From Verif Require Import Base S_Rational M_Text L_Text M_Util S_Util L_Util M_Dump S_Dump L_Dump.
Import ListNotations.
Open Scope Z_scope.

Local Notation "$ s" := (list_ascii_of_string s%string) (at level 0, s at level 0).

(** * C74  dumpmt prints a freshly seeded Mersenne twister *)

(** An argument that starts with the number [x]: any 64-bit Mersenne twister that loads the
    output (as RNGUtils does) succeeds and holds the standard's state for the seed [x] mod 2^64. *)
Theorem C74_output_is_seeded_engine : forall b i x t more e,
  blanks b -> int_text i x -> ~ starts_with_digit t -> - 2 ^ 31 <= x < 2 ^ 31 ->
  List.length (mt_words e) = 312%nat ->
  exists text ws, dumpmt ((b ++ i ++ t) :: more) = Ok (0, text) /\
    mt_load e text = (mkEngine ws 312, Ok tt) /\ mt_state (x mod 2 ^ 64) ws.
Proof.
  intros b i x t more e Hb Hi Ht Hx He.
  assert (A : atoi (b ++ i ++ t) = Ok x).
  { rewrite (atoi_number b i x t Hb Hi Ht). unfold sint, is_sint. change (32 - 1) with 31.
    rewrite (proj2 (Z.leb_le _ _)), (proj2 (Z.ltb_lt _ _)) by lia. reflexivity. }
  exists (mt_put (mt19937_64 (u64 x)) ++ ["010"%char]), (mt_words (mt19937_64 (u64 x))).
  split; [unfold dumpmt; rewrite A; reflexivity|]. split.
  - rewrite (dumpmt_load _ x e _ A He newline_no_digit). reflexivity.
  - apply mt_seeded.
Qed.
Print Assumptions C74_output_is_seeded_engine.

(** The state is determined by the seed. *)
Theorem C74_state_unique : forall s ws ws', mt_state s ws -> mt_state s ws' -> ws = ws'.
Proof. exact mt_state_unique. Qed.
Print Assumptions C74_state_unique.

(** Arguments with different numbers give different outputs. *)
Theorem C74_distinct_seeds : forall a b n m o,
  atoi a = Ok n -> atoi b = Ok m -> dumpmt [a] = Ok o -> dumpmt [b] = Ok o -> n = m.
Proof. exact dumpmt_injective. Qed.
Print Assumptions C74_distinct_seeds.

(** An argument without a number counts as 0. *)
Theorem C74_no_number : forall b t, blanks b -> ~ starts_with_digit t ->
  (forall c r, t = c :: r -> blank_char c -> False) ->
  (forall c r, t = c :: r -> c = "-"%char \/ c = "+"%char -> ~ starts_with_digit r) ->
  dumpmt [b ++ t] = dumpmt [["0"%char]].
Proof. intros b t Hb Ht Hs Hr. unfold dumpmt. now rewrite (atoi_no_number b t Hb Ht Hs Hr). Qed.
Print Assumptions C74_no_number.

(** A number outside int is undefined; without arguments nothing is printed and the exit code is 1. *)
Theorem C74_undefined : forall b i x t, blanks b -> int_text i x -> ~ starts_with_digit t ->
  ~ (- 2 ^ 31 <= x < 2 ^ 31) -> dumpmt [b ++ i ++ t] = UB.
Proof.
  intros b i x t Hb Hi Ht Hx. unfold dumpmt. rewrite (atoi_number b i x t Hb Hi Ht). unfold sint, is_sint.
  change (32 - 1) with 31. destruct (Z.leb_spec (- 2 ^ 31) x), (Z.ltb_spec x (2 ^ 31)); cbn [andb bind]; auto. lia.
Qed.
Print Assumptions C74_undefined.

(** The exit code tells whether there was an argument; without one nothing is printed. *)
Theorem C74_exit_code : forall args code text, dumpmt args = Ok (code, text) ->
  (args = [] /\ code = 1 /\ text = []) \/ (args <> [] /\ code = 0 /\ text <> []).
Proof.
  intros [|a more] code text; cbn [dumpmt].
  - intros E. injection E as <- <-. auto.
  - destruct (atoi a) as [n| | |]; cbn [bind]; try discriminate. intros E. injection E as <- <-. right.
    split; [discriminate|]. split; [reflexivity|]. destruct (mt_put _); discriminate.
Qed.
Print Assumptions C74_exit_code.
Theorem C74_no_argument : exists text, dumpmt [] = Ok (1, text).
Proof. now exists []. Qed.
Print Assumptions C74_no_argument.

Example C74_ex :
  atoi ($" -42abc") = Ok (-42) /\ atoi ($"x7") = Ok 0 /\ atoi ($"2147483648") = UB /\
  dumpmt [] = Ok (1, []) /\
  firstn 2 (mt_words (mt19937_64 5489)) = [5489; 13057201162865595358] /\
  blanks ($" ") /\ int_text ($"-42") (-42) /\ ~ starts_with_digit ($"abc").
Proof.
  split; [reflexivity|]. split; [reflexivity|]. split; [reflexivity|]. split; [reflexivity|].
  split; [vm_compute; reflexivity|]. split; [|split].
  - constructor; [left; reflexivity|constructor].
  - apply (it_minus ($"42") 42). apply (dt_more ["4"%char] 4 "2"%char 2).
    + apply dt_one. split; [reflexivity|lia].
    + split; [reflexivity|lia].
  - cbn. rewrite starts_with_digit_cons. discriminate.
Qed.
