(** Properties of enum strings (C68), compare_files (C69) and archived random
    engines (C70). *)
From Coq Require Import ZArith List Bool Ascii String Lia.
From Verif Require Import Base M_Text S_Rational L_Text M_Util S_Util L_Util.
Import ListNotations.
Open Scope Z_scope.

(** C68: the string of an enumerator is its name, it converts back to the
    enumerator whatever the target held, and different enumerators have
    different strings. *)
Theorem C68_round_trip : forall E v n,
  NoDup (en_enumerators E) -> 0 <= v < vsize (en_enumerators E) ->
  EnumToString E v = nth (Z.to_nat v) (en_enumerators E) [] /\
  EnumFromString E n (EnumToString E v) = (v, Ok tt).
Proof.
  intros E v n Hd Hv. unfold EnumToString, EnumFromString.
  assert (Hk : (Z.to_nat v < List.length (en_enumerators E))%nat) by (unfold vsize in Hv; lia).
  rewrite to_string_nth by lia. rewrite Z.sub_0_r.
  rewrite (nth_indep _ _ [] Hk). split; [reflexivity|].
  rewrite (from_string_found _ 0 n (Z.to_nat v) Hd Hk). f_equal. lia.
Qed.
Print Assumptions C68_round_trip.

Theorem C68_injective : forall E v w,
  NoDup (en_enumerators E) -> 0 <= v < vsize (en_enumerators E) -> 0 <= w < vsize (en_enumerators E) ->
  EnumToString E v = EnumToString E w -> v = w.
Proof.
  intros E v w Hd Hv Hw H.
  destruct (C68_round_trip E v 0 Hd Hv) as [_ Rv]. destruct (C68_round_trip E w 0 Hd Hw) as [_ Rw].
  rewrite H, Rw in Rv. congruence.
Qed.
Print Assumptions C68_injective.

(** C68: FromString succeeds exactly on the enumerators' names, with the value
    that has this name; on any other string it throws and keeps the target. *)
Theorem C68_from_string : forall E n s,
  NoDup (en_enumerators E) ->
  (exists v, 0 <= v < vsize (en_enumerators E) /\ s = nth (Z.to_nat v) (en_enumerators E) [] /\
             EnumFromString E n s = (v, Ok tt)) \/
  (~ In s (en_enumerators E) /\ EnumFromString E n s = (n, Throw ExEnumConversion)).
Proof.
  intros E n s Hd. destruct (in_dec (list_eq_dec ascii_dec) s (en_enumerators E)) as [H|H].
  - left. destruct (In_nth _ _ [] H) as (k & Hk & Es). exists (Z.of_nat k). unfold vsize. rewrite Nat2Z.id.
    split; [lia|]. split; [auto|]. unfold EnumFromString. rewrite <- Es, (from_string_found _ 0 n k Hd Hk). f_equal.
  - right. split; [exact H|]. now apply from_string_none.
Qed.
Print Assumptions C68_from_string.

(** C68: a value outside the enum prints as unknown, which no name without
    blanks equals, so that it does not convert back. *)
Theorem C68_unknown : forall E v n,
  ~ (0 <= v < vsize (en_enumerators E)) ->
  EnumToString E v = chars "[ Unknown " ++ en_name E ++ chars " ]" /\
  (Forall (fun e => ~ In " "%char e) (en_enumerators E) ->
   EnumFromString E n (EnumToString E v) = (n, Throw ExEnumConversion)).
Proof.
  intros E v n H. unfold EnumToString. rewrite to_string_default by lia. split; [reflexivity|]. intros F.
  apply from_string_none. intros K. rewrite Forall_forall in F. apply (F _ K). right. left. reflexivity.
Qed.
Print Assumptions C68_unknown.

Definition os_type := mkEnum (chars "OS_type") [chars "Linux"; chars "Apple"; chars "Windows"].
Example C68_example :
  NoDup (en_enumerators os_type) /\
  EnumToString os_type 2 = chars "Windows" /\
  EnumFromString os_type 0 (chars "Windows") = (2, Ok tt) /\
  EnumFromString os_type 1 (chars "windows") = (1, Throw ExEnumConversion) /\
  EnumToString os_type 3 = chars "[ Unknown OS_type ]" /\
  Forall (fun e => ~ In " "%char e) (en_enumerators os_type).
Proof.
  split; [|split; [reflexivity|split; [reflexivity|split; [reflexivity|split; [reflexivity|]]]]].
  - repeat constructor; cbn; intuition discriminate.
  - repeat constructor; cbn; intuition discriminate.
Qed.

(** C69: compare_files is defined for all files, and true exactly when both can
    be opened and hold the same bytes. *)
Theorem C69_contents : forall fs p q,
  exists b, compare_files fs p q = Ok b /\
    (b = true <-> exists f, fs p = Some f /\ fs q = Some f).
Proof. exact compare_files_spec. Qed.
Print Assumptions C69_contents.

Theorem C69_symmetric : forall fs p q, compare_files fs p q = compare_files fs q p.
Proof.
  intros fs p q.
  destruct (compare_files_spec fs p q) as (b & -> & Hb). destruct (compare_files_spec fs q p) as (c & -> & Hc).
  f_equal. destruct b, c; try reflexivity.
  - destruct (proj1 Hb eq_refl) as (f & H1 & H2). symmetry. apply Hc. eauto.
  - destruct (proj1 Hc eq_refl) as (f & H1 & H2). apply Hb. eauto.
Qed.
Print Assumptions C69_symmetric.

Theorem C69_reflexive : forall fs p, compare_files fs p p = Ok true <-> fs p <> None.
Proof.
  intros fs p. destruct (compare_files_spec fs p p) as (b & -> & Hb). split.
  - intros [= ->]. destruct (proj1 Hb eq_refl) as (f & -> & _). discriminate.
  - intros H. destruct (fs p) as [f|]; [|congruence]. f_equal. apply Hb. eauto.
Qed.
Print Assumptions C69_reflexive.

Theorem C69_transitive : forall fs p q r,
  compare_files fs p q = Ok true -> compare_files fs q r = Ok true -> compare_files fs p r = Ok true.
Proof.
  intros fs p q r. destruct (compare_files_spec fs p q) as (b & -> & Hb).
  destruct (compare_files_spec fs q r) as (c & -> & Hc). destruct (compare_files_spec fs p r) as (d & -> & Hd).
  intros [= ->] [= ->]. destruct (proj1 Hb eq_refl) as (f & H1 & H2). destruct (proj1 Hc eq_refl) as (g & H3 & H4).
  f_equal. apply Hd. exists f. split; congruence.
Qed.
Print Assumptions C69_transitive.

Example C69_example :
  let fs p := if str_eq p (chars "a") then Some (chars "12") else
              if str_eq p (chars "b") then Some (chars "12") else
              if str_eq p (chars "c") then Some (chars "13") else
              if str_eq p (chars "d") then Some (chars "123") else None in
  compare_files fs (chars "a") (chars "b") = Ok true /\
  compare_files fs (chars "a") (chars "c") = Ok false /\
  compare_files fs (chars "a") (chars "d") = Ok false /\
  compare_files fs (chars "d") (chars "a") = Ok false /\
  compare_files fs (chars "e") (chars "e") = Ok false.
Proof. cbn. repeat split. Qed.

(** C70: whatever the engine loaded into held, it has the saved state. *)
Theorem C70_round_trip : forall e e',
  Forall (fun w => 0 <= w < 2 ^ 64) (mt_words e) -> 0 <= mt_pos e < 2 ^ 64 ->
  List.length (mt_words e') = List.length (mt_words e) ->
  mt_load e' (mt_save e) = (e, Ok tt).
Proof.
  intros e e' Hw Hp Hl. destruct e as [ws p]. cbn [mt_words mt_pos] in *.
  refine (mt_load_ok e' _ ws p [] _ _); [now symmetry|]. now apply (mt_put_numbers (mkEngine ws p)).
Qed.
Print Assumptions C70_round_trip.

(** C70: two engines with the same archived text are equal. *)
Theorem C70_injective : forall e e',
  Forall (fun w => 0 <= w < 2 ^ 64) (mt_words e) -> 0 <= mt_pos e < 2 ^ 64 ->
  Forall (fun w => 0 <= w < 2 ^ 64) (mt_words e') -> 0 <= mt_pos e' < 2 ^ 64 ->
  List.length (mt_words e') = List.length (mt_words e) ->
  mt_save e = mt_save e' -> e = e'.
Proof.
  intros e e' Hw Hp Hw' Hp' Hl E.
  pose proof (C70_round_trip e e Hw Hp eq_refl) as R. rewrite E, (C70_round_trip e' e Hw' Hp') in R by auto. congruence.
Qed.
Print Assumptions C70_injective.

(** C70: loading succeeds exactly on texts that start with as many numbers as
    the state has (read modulo 2^64), which become the state; otherwise
    invalid_argument is thrown. *)
Theorem C70_load : forall e text,
  (forall ws p, mt_load e text = (mkEngine ws p, Ok tt) <->
     List.length ws = List.length (mt_words e) /\ exists r, numbers text (ws ++ [p]) r) /\
  (snd (mt_load e text) = Ok tt \/ snd (mt_load e text) = Throw ExInvalidArgument).
Proof.
  intros e text. split; [|apply mt_load_throws]. intros ws p. split.
  - intros H. apply mt_load_inv in H. exact H.
  - intros [Hl [r Hn]]. exact (mt_load_ok e text ws p r Hl Hn).
Qed.
Print Assumptions C70_load.

(** C70: a load that throws may still have overwritten part of the engine. *)
Theorem C70_failed_load_unchanged_refuted :
  ~ (forall e text, snd (mt_load e text) = Throw ExInvalidArgument -> fst (mt_load e text) = e).
Proof. intros H. specialize (H (mkEngine [1; 2] 0) (chars "5") eq_refl). vm_compute in H. discriminate H. Qed.
Print Assumptions C70_failed_load_unchanged_refuted.

Example C70_example :
  mt_save (mkEngine [5; 18446744073709551615; 0] 3) = chars "5 18446744073709551615 0 3" /\
  mt_load (mkEngine [1; 2; 3] 0) (chars "5 18446744073709551615 0 3") = (mkEngine [5; 18446744073709551615; 0] 3, Ok tt) /\
  snd (mt_load (mkEngine [1; 2; 3] 0) (chars "5 18446744073709551615 0")) = Throw ExInvalidArgument /\
  snd (mt_load (mkEngine [1; 2; 3] 0) (chars "5 18446744073709551616 0 3")) = Throw ExInvalidArgument /\
  mt_load (mkEngine [1] 0) (chars "-1 7x") = (mkEngine [18446744073709551615] 7, Ok tt).
Proof. vm_compute. repeat split. Qed.
