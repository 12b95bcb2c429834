(** Specification of a histogram: the values in each bin, in order of arrival,
    and the number of values added since the last Reset. *)
From Coq Require Import ZArith List Bool.
From Verif Require Import Base F64 M_Hist.
Import ListNotations.
Open Scope Z_scope.

Record bins := mkBins { b_bins : list (list f64); b_total : Z }.

Definition put (b : list (list f64)) (i : nat) (v : f64) : list (list f64) :=
  firstn i b ++ (nth i b [] ++ [v]) :: skipn (S i) b.

Definition pad (b : list (list f64)) (n : nat) : list (list f64) := b ++ repeat [] (n - length b).

(** What a call means; [None]: the call is not allowed. *)
Definition bins_call (b : bins) (c : hcall) : option bins :=
  match c with
  | HCAdd i v =>
      if (0 <=? i) && (i <? Z.of_nat (length (b_bins b)))
      then Some (mkBins (put (b_bins b) (Z.to_nat i) v) (b_total b + 1)) else None
  | HCForceAdd i v =>
      if (0 <=? i) && (i <? two64 - 1)
      then Some (mkBins (put (pad (b_bins b) (S (Z.to_nat i))) (Z.to_nat i) v) (b_total b + 1)) else None
  | HCReset => Some (mkBins (map (fun _ => []) (b_bins b)) 0)
  | HCResize n =>
      if (0 <=? n) && (n <? two64)
      then Some (mkBins (pad (firstn (Z.to_nat n) (b_bins b)) (Z.to_nat n)) (b_total b)) else None
  end.

Fixpoint bins_calls (l : list hcall) (b : bins) : option bins :=
  match l with
  | [] => Some b
  | c :: l' => match bins_call b c with Some b' => bins_calls l' b' | None => None end
  end.

Definition empty_bins (n : nat) : bins := mkBins (repeat [] n) 0.

Definition is_resize (c : hcall) : bool := match c with HCResize _ => true | _ => false end.
Definition unit_call (c : hcall) : Prop :=
  match c with HCAdd _ v | HCForceAdd _ v => v = f1 | _ => True end.
