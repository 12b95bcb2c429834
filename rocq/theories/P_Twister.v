(** Property theorems C99 (the words that std::mt19937_64 hands out, and simulations
    that archive their engine with RNGUtils.hpp).  Nothing else is proved here.
    [twister_sequence], [tempered], [play] and [simulate] are those of S_Twister,
    [mt_state] is that of S_Dump, [surviving] that of S_Restart. *)
From Coq Require Import ZArith List Bool Ascii String Lia.
From Verif Require Import Base F64 S_Rational M_Text L_Text M_Util S_Util L_Util M_Archive M_Dump S_Dump L_Dump P_Dump M_Random
  S_Restart M_Restart L_Restart S_Twister M_Twister L_Twister.
Import ListNotations.
Open Scope Z_scope.
Open Scope out_scope.

Local Notation "$ s" := (list_ascii_of_string s%string) (at level 0, s at level 0).

(** 312 words determine the whole sequence. *)
Theorem C99_sequence : forall ws, List.length ws = 312%nat ->
  (exists X, twister_sequence ws X) /\
  (forall X Y, twister_sequence ws X -> twister_sequence ws Y -> forall i, X i = Y i) /\
  (Forall (fun w => 0 <= w < 2 ^ 64) ws -> forall X, twister_sequence ws X -> forall i, 0 <= tempered (X i) < 2 ^ 64).
Proof.
  intros ws L. split; [exact (sequence_exists ws L)|]. split; [exact (sequence_unique ws)|].
  intros R X HX i. apply tempered_range. exact (sequence_range ws X HX L R i).
Qed.
Print Assumptions C99_sequence.

(** An engine in any state never fails and hands out the sequence of its words,
    beginning at its position; a position behind the last word counts as that of
    the next block. *)
Theorem C99_draws : forall ws p X n, List.length ws = 312%nat -> Forall (fun w => 0 <= w < 2 ^ 64) ws -> 0 <= p ->
  twister_sequence ws X ->
  exists e, mt_draws n (mkEngine ws p) = Ok (map (fun k => tempered (X (Z.to_nat (Z.min p 312) + k)%nat)) (seq 0 n), e).
Proof.
  intros ws p X n L R Hp HX. pose proof (sequence_range ws X HX L R) as RX.
  assert (P : at_place X (Z.to_nat (Z.min p 312)) (mkEngine ws (Z.min p 312))).
  { exists 0%nat, (Z.to_nat (Z.min p 312)). cbn [mt_words mt_pos]. repeat split; try lia.
    intros k Hk. symmetry. now apply HX. }
  destruct (draws_at_place ws X n HX RX _ _ P) as (e & E & _).
  assert (M : map (fun k => tempered (X k)) (seq (Z.to_nat (Z.min p 312)) n) =
              map (fun k => tempered (X (Z.to_nat (Z.min p 312) + k)%nat)) (seq 0 n)).
  { rewrite <- (map_map (fun k => (Z.to_nat (Z.min p 312) + k)%nat) (fun k => tempered (X k))). f_equal.
    generalize (Z.to_nat (Z.min p 312)). clear. intros a. induction n as [|n IH]; [reflexivity|].
    rewrite !seq_S, map_app, IH. cbn [map]. now rewrite Nat.add_0_l. }
  rewrite M in E. destruct (Z.le_gt_cases p 312) as [Hle|Hgt].
  - rewrite Z.min_l in E |- * by lia. eauto.
  - destruct n as [|n]; [eexists; reflexivity|]. exists e. rewrite <- E. rewrite Z.min_r by lia. cbn [mt_draws].
    unfold mt_draw. cbn [mt_pos mt_words]. destruct (Z.leb_spec 312 p); [|lia]. reflexivity.
Qed.
Print Assumptions C99_draws.

(** A freshly seeded engine: the standard's sequence for the seed, without its first
    312 words. *)
Theorem C99_seeded : forall seed ws X n, mt_state seed ws -> twister_sequence ws X ->
  exists e, mt_draws n (mt19937_64 seed) = Ok (map (fun k => tempered (X (312 + k)%nat)) (seq 0 n), e).
Proof.
  intros seed ws X n H HX. destruct (mt_seeded seed) as [S P].
  rewrite (mt_state_unique _ _ _ H S) in HX. destruct S as [L _].
  pose proof (C99_draws (mt_words (mt19937_64 seed)) 312 X n L (mt_state_range seed) ltac:(lia) HX) as D.
  clear -D P. destruct (mt19937_64 seed) as [w p]. cbn [mt_words mt_pos] in *. subst p. exact D.
Qed.
Print Assumptions C99_seeded.

(** An engine that loads what dumpmt prints. *)
Theorem C99_dumped : forall b i x t more target, blanks b -> int_text i x -> ~ starts_with_digit t -> - 2 ^ 31 <= x < 2 ^ 31 ->
  List.length (mt_words target) = 312%nat ->
  exists text e, dumpmt ((b ++ i ++ t) :: more) = Ok (0, text) /\ mt_load target text = (e, Ok tt) /\
    forall ws X n, mt_state (x mod 2 ^ 64) ws -> twister_sequence ws X ->
    exists e', mt_draws n e = Ok (map (fun k => tempered (X (312 + k)%nat)) (seq 0 n), e').
Proof.
  intros b i x t more target Hb Hi Ht Hx L.
  destruct (C74_output_is_seeded_engine b i x t more target Hb Hi Ht Hx L) as (text & ws & E & EL & HS).
  exists text, (mkEngine ws 312). split; [exact E|]. split; [exact EL|]. intros ws' X n HS' HX.
  rewrite (mt_state_unique _ _ _ HS' HS) in HX. destruct (mt_seeded (x mod 2 ^ 64)) as [HS2 P].
  destruct (C99_seeded (x mod 2 ^ 64) ws X n HS HX) as (e & D). exists e. rewrite <- D. f_equal.
  rewrite (mt_state_unique _ _ _ HS HS2). destruct (mt19937_64 (x mod 2 ^ 64)) as [w p]. cbn [mt_pos mt_words] in *. now rewrite P.
Qed.
Print Assumptions C99_dumped.

(** After any number of draws the engine can be archived; an engine that loads the
    text, whatever state it was in, continues with the words that would have come. *)
Theorem C99_archived : forall e n m words e', List.length (mt_words e) = 312%nat ->
  Forall (fun w => 0 <= w < 2 ^ 64) (mt_words e) -> 0 <= mt_pos e <= 312 ->
  mt_draws n e = Ok (words, e') ->
  forall t, List.length (mt_words t) = 312%nat ->
  exists t', mt_load t (mt_save e') = (t', Ok tt) /\
    (r <- mt_draws m t' ;; Ok (words ++ fst r, snd r)) = mt_draws (n + m) e.
Proof.
  intros e n m words e' L R Hp H t Lt.
  destruct (sequence_exists (mt_words e) L) as [X HX]. pose proof (sequence_range _ X HX L R) as RX.
  assert (P : at_place X (Z.to_nat (mt_pos e)) e).
  { exists 0%nat, (Z.to_nat (mt_pos e)). repeat split; try lia. intros k Hk. symmetry. now apply HX. }
  destruct (draws_at_place _ X n HX RX _ _ P) as (e1 & E1 & P1). rewrite H in E1. injection E1 as -> ->.
  destruct (place_state X _ e1 RX P1) as (L1 & R1 & Hp1).
  exists e1. split.
  - destruct e1 as [w p]. cbn [mt_words mt_pos] in *.
    refine (mt_load_ok t _ w p [] _ _); [congruence|]. apply (mt_put_numbers (mkEngine w p)); cbn [mt_words mt_pos]; [exact R1|].
    rewrite two64_eq. lia.
  - destruct (draws_at_place _ X m HX RX _ _ P1) as (e2 & E2 & _). rewrite E2. cbn [bind fst snd].
    destruct (draws_at_place _ X (n + m) HX RX _ _ P) as (e3 & E3 & _).
    rewrite E3. rewrite seq_app, map_app.
    assert (E : forall a n m s t, mt_draws n a = Ok (s, t) ->
      mt_draws (n + m) a = (r <- mt_draws m t ;; Ok ((s ++ fst r)%list, snd r))).
    { clear. intros a n. revert a. induction n as [|n IH]; intros a m s t E; cbn [mt_draws plus] in *.
      - injection E as <- <-. cbn [app]. now destruct (mt_draws m a) as [[]| | |].
      - destruct (mt_draw a) as [[w a']| | |]; try discriminate. cbn [bind fst snd] in *.
        destruct (mt_draws n a') as [[s' t']| | |] eqn:En; try discriminate. cbn [bind fst snd] in E. injection E as <- <-.
        rewrite (IH a' m s' t' En). now destruct (mt_draws m t') as [[]| | |]. }
    rewrite (E e n m _ _ H), E2 in E3. cbn [bind fst snd] in E3. injection E3 as _ <-. reflexivity.
Qed.
Print Assumptions C99_archived.

(** A simulation whose steps draw from the engine, saved and restarted at any time:
    it ends as the surviving steps would have made it in one go on the standard's
    sequence for the seed, and the next words are the next ones of that sequence. *)
Theorem C99_simulation : forall {C S} (step : C -> S -> prog S) (save : S -> list tok) (load : S -> loader S) seed s0 ws X h,
  (forall t s, exists r, load t (save s) = Some (s, r)) ->
  mt_state seed ws -> twister_sequence ws X ->
  Forall (fun t => List.length (mt_words (fst t)) = 312%nat) (targets h) ->
  let W k := tempered (X (312 + k)%nat) in
  let '(s, i) := simulate step W (surviving [] [] h) s0 0 in
  exists e, client (alone (sim_call step)) (sim_save save) (sim_load load) (mt19937_64 seed, s0) h (mt19937_64 seed, s0) tt None =
    Some ((e, s), tt) /\
  forall n, exists e', mt_draws n e = Ok (map (fun k => W (i + k)%nat) (seq 0 n), e').
Proof.
  intros C S step save load seed s0 ws X h HL HS HX HT W. destruct (mt_seeded seed) as [HS2 P].
  pose proof (mt_state_unique _ _ _ HS HS2) as Ew. destruct HS2 as [L _].
  assert (RX : forall i, 0 <= X i < 2 ^ 64).
  { rewrite Ew in HX. exact (sequence_range _ X HX L (mt_state_range seed)). }
  assert (P0 : at_place X 312 (mt19937_64 seed)).
  { exists 0%nat, 312%nat. rewrite P. repeat split; try lia; auto. intros k Hk. rewrite <- Ew. symmetry. now apply HX. }
  destruct (client_sim step save load ws X _ s0 312 HX RX HL P0 h HT) as (e & E & Pe).
  assert (G : forall {A} (p : prog A) i, play (fun k => tempered (X k)) p (312 + i) = (fst (play W p i), (312 + snd (play W p i))%nat)).
  { induction p as [a|f IH]; intros i; [reflexivity|]. cbn [play]. exact (IH _ (Datatypes.S i)). }
  assert (G2 : forall l s i, simulate step (fun k => tempered (X k)) l s (312 + i) =
                       (fst (simulate step W l s i), (312 + snd (simulate step W l s i))%nat)).
  { induction l as [|c l IH]; intros s i; [reflexivity|]. cbn [simulate]. rewrite G.
    destruct (play W (step c s) i) as [s1 i1]. cbn [fst snd]. apply IH. }
  change 312%nat with (312 + 0)%nat in E, Pe. rewrite G2 in E, Pe. destruct (simulate step W (surviving [] [] h) s0 0) as [s i].
  cbn [fst snd] in E, Pe. exists e. split; [exact E|]. intros n.
  destruct (draws_at_place ws X n HX RX _ _ Pe) as (e' & D & _). exists e'. rewrite D. f_equal. f_equal.
  unfold W. clear. induction n as [|n IH]; [reflexivity|]. rewrite !seq_S, !map_app, IH. cbn [map].
  now rewrite !Nat.add_0_l, Nat.add_assoc.
Qed.
Print Assumptions C99_simulation.

(** The standard ([rand.predef]) requires the 10000th word of the default seed 5489 to be this. *)
Example C99_example_standard :
  (r <- mt_draws (Z.to_nat 10000) (mt19937_64 5489) ;; Ok (nth (Z.to_nat 9999) (fst r) 0)) = Ok 9981545732273789042.
Proof. vm_compute. reflexivity. Qed.

(** Counting successes of choose_with_probability: three of five steps survive. *)
Example C99_example :
  let step (p : f64) (s : Z) := Draw (fun w => Ret (2 * s + if choose_with_probability_rng p w then 1 else 0)) in
  let save s := [TL s] in
  let load (t : Z) := load_l in
  let half := dyad 1 (-1) in
  let h := [Do half; Save; Do half; Do half; Restart (mt19937_64 7, 5); Do half; Do half] in
  surviving [] [] h = [half; half; half] /\
  (exists e, client (alone (sim_call step)) (sim_save save) (sim_load load) (mt19937_64 5489, 1) h (mt19937_64 5489, 1) tt None = Some ((e, 10), tt) /\ mt_pos e = 3) /\
  (forall t s, exists r, load t (save s) = Some (s, r)).
Proof. 
  cbv zeta. split; [reflexivity|]. split; [|intros t s; eexists; reflexivity].
  eexists. split; vm_compute; reflexivity.
Qed.
