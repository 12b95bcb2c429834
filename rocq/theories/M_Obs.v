(** Model of include/bwsl/ObservableGroup.hpp.
    The key type is any type with the order [lt] that std::map uses.  The text
    that fmt produces for a key and for a mean with a given number of digits is a
    parameter ([fmt_key], [fmt_mean]); integers are printed in decimal.  The
    number of digits is assumed to be one that fmt accepts (at most INT_MAX). *)
From Coq Require Import ZArith List Bool Ascii String.
From Verif Require Import Base F64 Num M_Text M_Archive M_Accum M_Util.
Import ListNotations.
Open Scope Z_scope.

Definition comma : ascii := ","%char.
Definition newline : ascii := ascii_of_nat 10.

(** * std::map as the list of its elements in key order *)
Section Map.
Context {K V : Type} (lt : K -> K -> bool).

(** try_emplace, emplace_hint: nothing happens when an equivalent key exists. *)
Fixpoint map_emplace (m : list (K * V)) (k : K) (v : V) : list (K * V) :=
  match m with
  | [] => [(k, v)]
  | (k', v') :: m' =>
      if lt k k' then (k, v) :: m
      else if lt k' k then (k', v') :: map_emplace m' k v
      else m
  end.

(** m.at(k).f(): the map after the call and its outcome. *)
Fixpoint map_at (m : list (K * V)) (k : K) (f : V -> V * out unit) : list (K * V) * out unit :=
  match m with
  | [] => ([], Throw ExOutOfRange)
  | (k', v') :: m' =>
      if lt k' k then let '(m1, o) := map_at m' k f in ((k', v') :: m1, o)
      else if lt k k' then (m, Throw ExOutOfRange)
      else let '(v1, o) := f v' in ((k', v1) :: m', o)
  end.
End Map.

(** * Files *)

(** std::ofstream: [wr p] tells whether p can be opened for writing; writing to
    a stream that could not be opened does nothing. *)
Definition set_file (fs : filesystem) (p : list ascii) (text : list ascii) : filesystem :=
  fun q => if str_eq q p then Some text else fs q.
Definition contents (fs : filesystem) (p : list ascii) : list ascii :=
  match fs p with Some t => t | None => [] end.

Section Obs.
Context {K : Type} (lt : K -> K -> bool).
Context (fmt_key : K -> list ascii) (fmt_mean : Z -> f64 -> list ascii).
Context (wr : list ascii -> bool) (chk : bool).

(** ObservableGroup.hpp:79-83 *)
Record group := mkGroup { og_file : list ascii; og_acc : list (K * kahan f64) }.

(** ObservableGroup.hpp:93-97 *)
Definition og_empty (file : list ascii) : group := mkGroup file [].

(** ObservableGroup.hpp:99-107 *)
Definition og_new (file : list ascii) (indices : list K) : group :=
  mkGroup file (fold_left (fun m i => map_emplace lt m i (kahan_new numF)) indices []).

(** ObservableGroup.hpp:109-114 *)
Definition OgMeasure (g : group) (idx : K) (val : f64) : group * out unit :=
  let '(m, o) := map_at lt (og_acc g) idx (fun a => KahanAdd numF chk a val) in
  (mkGroup (og_file g) m, o).

(** ObservableGroup.hpp:116-129 *)
Definition OgPrintHeaders (g : group) (fs : filesystem) : filesystem * out unit :=
  match og_acc g with
  | [] => (fs, UB) (* begin() is dereferenced *)
  | (k, _) :: m =>
      let text := fmt_key k ++ flat_map (fun e => comma :: fmt_key (fst e)) m ++ chars ",Count" ++ [newline] in
      (if wr (og_file g) then set_file fs (og_file g) text else fs, Ok tt)
  end.

(** ObservableGroup.hpp:131-146 *)
Definition OgPrintAndReset (g : group) (fs : filesystem) (precision : Z) : group * filesystem * out unit :=
  match og_acc g with
  | [] => (g, fs, UB)
  | (k, a) :: m =>
      let count := KahanCount a in
      let text := fmt_mean precision (KahanMean numF a) ++
                  flat_map (fun e => comma :: fmt_mean precision (KahanMean numF (snd e))) m ++
                  [comma] ++ put_int count ++ [newline] in
      (mkGroup (og_file g) ((k, KahanReset numF a) :: map (fun e => (fst e, KahanReset numF (snd e))) m),
       if wr (og_file g) then set_file fs (og_file g) (contents fs (og_file g) ++ text) else fs,
       Ok tt)
  end.

(** ObservableGroup.hpp:148-155 *)
Definition OgAddObservable (g : group) (key : K) : group :=
  mkGroup (og_file g) (map_emplace lt (og_acc g) key (kahan_new numF)).

(** ObservableGroup.hpp:157-167 with boost/serialization/map.hpp: the name, then
    the number of elements and the elements; loading clears the map and inserts
    the elements.  The archive form of a key is a parameter. *)
Context (save_key : K -> list tok) (load_key : loader K).
Definition og_save (g : group) : list tok :=
  TS (map (fun c => Z.of_nat (nat_of_ascii c)) (og_file g)) ::
  save_vector (fun e => save_key (fst e) ++ kahan_save (snd e)) (og_acc g).
Definition og_load (g : group) : loader group :=
  lbind load_s (fun s =>
  lbind (load_vector (lbind load_key (fun k => lbind (kahan_load (kahan_new numF)) (fun a => lret (k, a)))))
    (fun l => lret (mkGroup (map (fun z => ascii_of_nat (Z.to_nat z)) s)
                            (fold_left (fun m e => map_emplace lt m (fst e) (snd e)) l [])))).

(** * What a client can call on one group *)
Inductive ogcall :=
| OMeasure (k : K) (x : f64)
| OHeaders
| OPrint (precision : Z)
| OAdd (k : K).

Definition og_call (g : group) (fs : filesystem) (c : ogcall) : group * filesystem * out unit :=
  match c with
  | OMeasure k x => let '(g', o) := OgMeasure g k x in (g', fs, o)
  | OHeaders => let '(fs', o) := OgPrintHeaders g fs in (g, fs', o)
  | OPrint p => OgPrintAndReset g fs p
  | OAdd k => (OgAddObservable g k, fs, Ok tt)
  end.

(** The calls one after the other, caught exceptions included; undefined
    behaviour ends the run. *)
Fixpoint og_run (h : list ogcall) (g : group) (fs : filesystem) : group * filesystem * list (out unit) :=
  match h with
  | [] => (g, fs, [])
  | c :: h' =>
      match og_call g fs c with
      | (g', fs', UB) => (g', fs', [UB])
      | (g', fs', o) => let '(g2, fs2, os) := og_run h' g' fs' in (g2, fs2, o :: os)
      end
  end.
End Obs.
