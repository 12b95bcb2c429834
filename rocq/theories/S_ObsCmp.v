(** Specification of two runs of a group of observables having the same results. *)
From Coq Require Import ZArith List Bool.
From Verif Require Import Base F64 Num M_Accum M_Obs S_Obs S_ObsFile.
Import ListNotations.

Section Cmp.
Context {K : Type} (lt same : K -> K -> bool).

(** k is the first of the keys. *)
Definition first_key (keys : list K) (k : K) : Prop := In k keys /\ forall k', In k' keys -> lt k' k = false.

(** The calls between two prints: the accumulators report the same means, and the
    first key was measured as often. *)
Definition same_results (keys : list K) (e e' : Z * list (ogcall (K:=K))) : Prop :=
  (forall k, In k keys -> KahanMean numF (kahan_after (measured same k (snd e))) = KahanMean numF (kahan_after (measured same k (snd e')))) /\
  (forall k, first_key keys k -> length (measured same k (snd e)) = length (measured same k (snd e'))).
End Cmp.
