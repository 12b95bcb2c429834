(** Specification of counting: how often each index occurs. *)
From Coq Require Import ZArith Reals List.
From Verif Require Import Base F64 M_Hist.
Import ListNotations.
Open Scope Z_scope.

(** One call per index, stopping at the first failure. *)
Fixpoint each {S} (call : S -> Z -> S * out unit) (ids : list Z) (s : S) : S * out unit :=
  match ids with
  | [] => (s, Ok tt)
  | i :: ids' => match call s i with (s', Ok _) => each call ids' s' | (s', e) => (s', e) end
  end.

Definition occurrences (ids : list Z) (i : Z) : Z := Z.of_nat (count_occ Z.eq_dec ids i).
Definition highest (ids : list Z) : Z := fold_right Z.max (-1) ids.

(** A histogram of n bins reports how often each index occurs in ids. *)
Definition counts_well (h : hist) (n : Z) (ids : list Z) : Prop :=
  HistGetCount h = Z.of_nat (length ids) /\ HistGetNbins h = n /\
  exists r, HistGetResults h = Ok r /\ vsize r = n /\
  forall i, 0 <= i < n -> HistGetCountOf h i = Ok (occurrences ids i) /\
    HistGetResult h i = Ok (nth (Z.to_nat i) r f0) /\ fin (nth (Z.to_nat i) r f0) /\
    RR (nth (Z.to_nat i) r f0) = rnd (IZR (occurrences ids i) / INR (length ids)).
