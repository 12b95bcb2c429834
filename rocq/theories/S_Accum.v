(** Specification of sums, means and variances over the reals. *)
From Coq Require Import ZArith Reals List.
From Verif Require Import Base.
Import ListNotations.
Open Scope R_scope.

Definition sumR (l : list R) : R := fold_right Rplus 0 l.
Definition sum_abs (l : list R) : R := sumR (map Rabs l).

(** Arithmetic mean and sum of squared deviations from it. *)
Definition meanR (l : list R) : R := sumR l / INR (length l).
Definition sq_devs (l : list R) : R := sumR (map (fun x => (x - meanR l) ^ 2) l).

(** Weighted samples (value, weight). *)
Definition total_weight (l : list (R * R)) : R := sumR (map snd l).
Definition total_weight2 (l : list (R * R)) : R := sumR (map (fun p => snd p ^ 2) l).
Definition wsum (l : list (R * R)) : R := sumR (map (fun p => snd p * fst p) l).
Definition wmean (l : list (R * R)) : R := wsum l / total_weight l.
Definition wsq_devs (l : list (R * R)) : R :=
  sumR (map (fun p => snd p * (fst p - wmean l) ^ 2) l).

(** The entries that count: those with a positive weight. *)
Definition positive_weights (l : list (R * R)) : list (R * R) :=
  filter (fun p => if Rlt_dec 0 (snd p) then true else false) l.

(** A client's calls on an accumulator, and the values added since the last Reset. *)
Inductive call (X : Type) := CAdd (x : X) | CReset.
Arguments CAdd {X}. Arguments CReset {X}.

Fixpoint since_reset {X} (h : list (call X)) (acc : list X) : list X :=
  match h with
  | [] => acc
  | CAdd x :: h' => since_reset h' (acc ++ [x])
  | CReset :: h' => since_reset h' []
  end.

(** Making the calls one after the other, until one of them fails. *)
Fixpoint history {S X} (add : S -> X -> S * out unit) (reset : S -> S) (h : list (call X)) (a : S)
  : S * out unit :=
  match h with
  | [] => (a, Ok tt)
  | CAdd x :: h' => match add a x with (a', Ok _) => history add reset h' a' | (a', e) => (a', e) end
  | CReset :: h' => history add reset h' (reset a)
  end.

Definition sumZ (l : list Z) : Z := fold_right Z.add 0%Z l.
Definition sumZ2 (l : list Z) : Z := sumZ (map (fun x => x * x)%Z l).
