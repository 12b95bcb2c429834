(** Model of include/bwsl/HistAccumulator.hpp.  Memory allocation never fails. *)
From Coq Require Import ZArith List Bool.
From Verif Require Import Base F64 Num M_Archive M_Accum.
Import ListNotations.
Open Scope Z_scope.
Open Scope out_scope.

(** HistAccumulator.hpp:102-109 *)
Record hist := mkHist { h_nbins : Z; h_acc : list (neumaier f64); h_count : Z }.

Definition fresh_bin : neumaier f64 := neumaier_new numF.

(** HistAccumulator.hpp:38 *)
Definition hist_default : hist := mkHist 0 [] 0.

(** HistAccumulator.hpp:119-123 *)
Definition HistAccumulator (nbins : Z) : hist := mkHist nbins (repeat fresh_bin (Z.to_nat nbins)) 0.

(** HistAccumulator.hpp:125-132 *)
Definition HistReset (h : hist) : hist := mkHist (h_nbins h) (map (NeumaierReset numF) (h_acc h)) 0.

(** HistAccumulator.hpp:138-139 and 151-152: [acc_[idx].Add(val); count_ += 1UL;] *)
Definition hist_add (chk : bool) (h : hist) (idx : Z) (val : f64) : hist * out unit :=
  match vget (h_acc h) idx with
  | Ok a =>
      match NeumaierAdd numF chk a val with
      | (a', Ok _) => (mkHist (h_nbins h) (list_set (h_acc h) (Z.to_nat idx) a') (u64 (h_count h + 1)), Ok tt)
      | (a', e) => (mkHist (h_nbins h) (list_set (h_acc h) (Z.to_nat idx) a') (h_count h), e)
      end
  | _ => (h, UB)
  end.

(** HistAccumulator.hpp:134-140 *)
Definition HistAdd := hist_add.
(** HistAccumulator.hpp:69 *)
Definition HistAdd1 (chk : bool) (h : hist) (idx : Z) : hist * out unit := HistAdd chk h idx f1.

(** HistAccumulator.hpp:146-150  the loop appending bins. *)
Definition hist_grow (idx : Z) (h : hist) : out hist :=
  while_ (fun h => if h_nbins h <=? idx
                   then inl (mkHist (u64 (h_nbins h + 1)) (h_acc h ++ [fresh_bin]) (h_count h))
                   else inr (Ok h)) h.

(** HistAccumulator.hpp:142-153 *)
Definition HistForceAdd (chk : bool) (h : hist) (idx : Z) (val : f64) : hist * out unit :=
  match hist_grow idx h with
  | Ok h' => hist_add chk h' idx val
  | Throw e => (h, Throw e)
  | UB => (h, UB)
  | Diverge => (h, Diverge)
  end.
(** HistAccumulator.hpp:76 *)
Definition HistForceAdd1 (chk : bool) (h : hist) (idx : Z) : hist * out unit := HistForceAdd chk h idx f1.

(** std::vector::resize: drop the tail or append value-initialised elements. *)
Definition vresize {A} (d : A) (l : list A) (n : Z) : list A :=
  firstn (Z.to_nat n) l ++ repeat d (Z.to_nat n - length l).

(** HistAccumulator.hpp:155-160 *)
Definition HistResize (h : hist) (nbins : Z) : hist :=
  mkHist nbins (vresize fresh_bin (h_acc h) nbins) (h_count h).

(** HistAccumulator.hpp:162-172 *)
Definition HistGetResult (h : hist) (idx : Z) : out f64 :=
  c <- vget (h_acc h) idx ;;
  if NeumaierCount c =? 0 then Ok f0
  else Ok (fdiv (NeumaierSum numF c) (of_Z (h_count h))).

(** HistAccumulator.hpp:174-184 *)
Definition HistGetResults (h : hist) : out (list f64) := omapl (HistGetResult h) (upto (h_nbins h)).

(** HistAccumulator.hpp:186-194: element k is divided by the current value of
    element idx, in increasing k. *)
Definition HistGetResultsBy (h : hist) (idx : Z) : out (list f64) :=
  r <- HistGetResults h ;;
  ofold (fun r k => v <- vget r k ;; d <- vget r idx ;; vset r k (fdiv v d)) (upto (vsize r)) r.

(** HistAccumulator.hpp:89, 92-95, 98 *)
Definition HistGetCount (h : hist) : Z := h_count h.
Definition HistGetCountOf (h : hist) (idx : Z) : out Z := c <- vget (h_acc h) idx ;; Ok (NeumaierCount c).
Definition HistGetNbins (h : hist) : Z := h_nbins h.

(** HistAccumulator.hpp:196-204 *)
Definition hist_save (h : hist) : list tok :=
  TU (h_nbins h) :: save_vector neumaier_save (h_acc h) ++ [TU (h_count h)].
Definition hist_load (b : hist) : loader hist :=
  lbind load_u (fun n => let b := mkHist n (h_acc b) (h_count b) in
  lbind (load_vector (neumaier_load fresh_bin)) (fun v => let b := mkHist (h_nbins b) v (h_count b) in
  lbind load_u (fun c => lret (mkHist (h_nbins b) (h_acc b) c)))).

(** A client's calls. *)
Inductive hcall :=
| HCAdd (i : Z) (v : f64)
| HCForceAdd (i : Z) (v : f64)
| HCReset
| HCResize (n : Z).

Definition hist_call (chk : bool) (h : hist) (c : hcall) : hist * out unit :=
  match c with
  | HCAdd i v => HistAdd chk h i v
  | HCForceAdd i v => HistForceAdd chk h i v
  | HCReset => (HistReset h, Ok tt)
  | HCResize n => (HistResize h n, Ok tt)
  end.

Fixpoint hist_calls (chk : bool) (l : list hcall) (h : hist) : hist * out unit :=
  match l with
  | [] => (h, Ok tt)
  | c :: l' => match hist_call chk h c with (h', Ok _) => hist_calls chk l' h' | (h', e) => (h', e) end
  end.
