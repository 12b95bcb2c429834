(** Specification of a group of observables: the values measured per key, and
    one file of comma separated lines. *)
From Coq Require Import ZArith List Bool Ascii String Sorted.
From Verif Require Import Base F64 Num M_Text M_Accum M_Util M_Obs.
Import ListNotations.
Open Scope Z_scope.

(** The requirement on the order of the keys. *)
Record strict_total {K} (lt : K -> K -> bool) : Prop := {
  st_irrefl : forall a, lt a a = false;
  st_trans : forall a b c, lt a b = true -> lt b c = true -> lt a c = true;
  st_total : forall a b, lt a b = false -> lt b a = false -> a = b }.

(** A line: the cells separated by commas. *)
Fixpoint join (cells : list (list ascii)) : list ascii :=
  match cells with
  | [] => []
  | [c] => c
  | c :: cs => c ++ [comma] ++ join cs
  end.
Definition line (cells : list (list ascii)) : list ascii := join cells ++ [newline].

(** Reading a table back: the pieces between the separators. *)
Fixpoint split (sep : ascii) (s : list ascii) : list (list ascii) :=
  match s with
  | [] => [[]]
  | c :: s' =>
      if Ascii.eqb c sep then [] :: split sep s'
      else match split sep s' with [] => [[c]] | p :: ps => (c :: p) :: ps end
  end.
(** The cells of every line; text after the last newline is not a line. *)
Definition table (s : list ascii) : list (list (list ascii)) :=
  map (split comma) (removelast (split newline s)).

(** Text without separators. *)
Definition clean (c : list ascii) : Prop := ~ In comma c /\ ~ In newline c.

Section Spec.
Context {K : Type} (lt : K -> K -> bool).
Context (fmt_key : K -> list ascii) (fmt_mean : Z -> f64 -> list ascii).
Context (writable : bool) (chk : bool).

(** The values measured for each key, and the file. *)
Record sstate := mkS { s_vals : K -> option (list f64); s_file : option (list ascii) }.

(** [ks] lists the keys of [s] in increasing order. *)
Definition lists_keys (s : sstate) (ks : list K) : Prop :=
  StronglySorted (fun a b => lt a b = true) ks /\ forall k, In k ks <-> s_vals s k <> None.

Definition same_vals (s s' : sstate) : Prop := forall k, s_vals s' k = s_vals s k.
Definition same_file (s s' : sstate) : Prop := s_file s' = s_file s.
Definition same_except (k : K) (s s' : sstate) : Prop := forall k', k' <> k -> s_vals s' k' = s_vals s k'.

(** What a KahanAccumulator reports after the additions [vs]. *)
Definition kahan_after (vs : list f64) : kahan f64 := fold_left (kahan_step numF) vs (kahan_new numF).
Definition mean_cell (p : Z) (s : sstate) (k : K) : list ascii :=
  fmt_mean p (KahanMean numF (kahan_after (match s_vals s k with Some vs => vs | None => [] end))).
Definition count_cell (vs : list f64) : list ascii := put_int (Z.of_nat (List.length vs) mod 2 ^ 64).
Definition full (vs : list f64) : bool := chk && (Z.of_nat (List.length vs) mod 2 ^ 64 =? 2 ^ 64 - 1).

Definition written (old new : option (list ascii)) (text : list ascii) : Prop :=
  new = if writable then Some text else old.

Inductive sstep (s : sstate) : ogcall -> sstate -> out unit -> Prop :=
| S_measure k x vs s' :
    s_vals s k = Some vs -> full vs = false ->
    s_vals s' k = Some (vs ++ [x]) -> same_except k s s' -> same_file s s' ->
    sstep s (OMeasure k x) s' (Ok tt)
| S_full k x vs s' :
    s_vals s k = Some vs -> full vs = true -> same_vals s s' -> same_file s s' ->
    sstep s (OMeasure k x) s' (Throw ExAccumulatorOverflow)
| S_unknown k x s' :
    s_vals s k = None -> same_vals s s' -> same_file s s' ->
    sstep s (OMeasure k x) s' (Throw ExOutOfRange)
| S_add_new k s' :
    s_vals s k = None -> s_vals s' k = Some [] -> same_except k s s' -> same_file s s' ->
    sstep s (OAdd k) s' (Ok tt)
| S_add_old k s' :
    s_vals s k <> None -> same_vals s s' -> same_file s s' ->
    sstep s (OAdd k) s' (Ok tt)
| S_headers ks s' :
    lists_keys s ks -> ks <> [] -> same_vals s s' ->
    written (s_file s) (s_file s') (line (map fmt_key ks ++ [chars "Count"])) ->
    sstep s OHeaders s' (Ok tt)
| S_print p k ks vs s' :
    lists_keys s (k :: ks) -> s_vals s k = Some vs ->
    (forall k', s_vals s' k' = match s_vals s k' with Some _ => Some [] | None => None end) ->
    written (s_file s) (s_file s')
      (match s_file s with Some t => t | None => [] end ++
       line (map (mean_cell p s) (k :: ks) ++ [count_cell vs])) ->
    sstep s (OPrint p) s' (Ok tt)
| S_empty_headers s' : lists_keys s [] -> sstep s OHeaders s' UB
| S_empty_print p s' : lists_keys s [] -> sstep s (OPrint p) s' UB.

Inductive sruns : sstate -> list ogcall -> sstate -> list (out unit) -> Prop :=
| R_nil s : sruns s [] s []
| R_ub s c h s' : sstep s c s' UB -> sruns s (c :: h) s [UB]
| R_cons s c h s1 o s2 os : sstep s c s1 o -> o <> UB -> sruns s1 h s2 os -> sruns s (c :: h) s2 (o :: os).
End Spec.

(** The keys added by a history. *)
Fixpoint added {K} (h : list (ogcall (K:=K))) : list K :=
  match h with
  | [] => []
  | OAdd k :: h' => k :: added h'
  | _ :: h' => added h'
  end.

(** How many lines a history prints. *)
Fixpoint prints {K} (h : list (ogcall (K:=K))) : nat :=
  match h with
  | [] => O
  | OPrint _ :: h' => S (prints h')
  | _ :: h' => prints h'
  end.
