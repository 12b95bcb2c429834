(** Model of include/bwsl/HyperCubicGrid.hpp and of the two grid functions of
    include/bwsl/Lattice.hpp that only use the grid (EnforceBoundaries,
    GetWinding). *)
From Coq Require Import ZArith List Bool.
From Verif Require Import Base M_MathInt M_Pairs.
Import ListNotations.
Open Scope Z_scope.
Open Scope out_scope.

(** HyperCubicGrid.hpp:145-159  data members; [closed] is
    boundaries_ == boundaries_t::Closed. *)
Record grid := mkGrid {
  dim : Z;
  gsize : list Z;
  numsites : Z;
  numpairs : Z;
  closed : bool }.

(** HyperCubicGrid.hpp:162-170  constructor. *)
Definition HyperCubicGrid (size : list Z) (cl : bool) : grid :=
  let n := accumulate_product_u size in
  mkGrid (vsize size) size n (GetNumPairs n) cl.

(** HyperCubicGrid.hpp:172-176 *)
Definition GetCoordinates (g : grid) (offset : Z) : out (list Z) :=
  index_to_array offset (gsize g).

(** HyperCubicGrid.hpp:178-182 *)
Definition GetIndex (g : grid) (coords : list Z) : out Z := array_to_index coords (gsize g).

(** HyperCubicGrid.hpp:116 and 119-122 *)
Definition GetNumSites (g : grid) : Z := numsites g.
Definition IndexIsValid (g : grid) (i : Z) : bool := i <? numsites g.

(** A loop [for (i = 0; i < dim; i++) coords[i] = f(size[i], coords[i])];
    a coordinate vector that is too short is read out of bounds. *)
Fixpoint each_coord (f : Z -> Z -> out Z) (size coords : list Z) : out (list Z) :=
  match size, coords with
  | [], _ => Ok coords
  | _ :: _, [] => UB
  | s :: size', c :: coords' =>
      x <- f s c ;; r <- each_coord f size' coords' ;; Ok (x :: r)
  end.

(** HyperCubicGrid.hpp:208-214  one coordinate; [s] is the size converted to
    long; both loops on signed longs. *)
Definition enforce_up (s : Z) (c : Z) : Z + out Z :=
  if c <? 0 then match s64 (c + s) with Ok c' => inl c' | _ => inr UB end else inr (Ok c).
Definition enforce_down (s : Z) (c : Z) : Z + out Z :=
  if s <=? c then match s64 (c - s) with Ok c' => inl c' | _ => inr UB end else inr (Ok c).
Definition enforce1 (size c : Z) : out Z :=
  let s := to_s64 size in
  c1 <- while_ (enforce_up s) c ;; while_ (enforce_down s) c1.

(** HyperCubicGrid.hpp:202-217 *)
Definition EnforceBoundaries (g : grid) (coords : list Z) : out (list Z) :=
  if closed g then each_coord enforce1 (gsize g) coords else Ok coords.

(** Lattice.hpp:203-209  one coordinate of Lattice::EnforceBoundaries: [s] stays
    a size_t, so [coords[i] += s] is computed modulo 2^64 and converted back. *)
Definition lenforce_up (s : Z) (c : Z) : Z + out Z :=
  if c <? 0 then inl (to_s64 (u64 (c + s))) else inr (Ok c).
Definition lenforce_down (s : Z) (c : Z) : Z + out Z :=
  if to_s64 s <=? c then inl (to_s64 (u64 (c - s))) else inr (Ok c).
Definition lenforce1 (s c : Z) : out Z :=
  c1 <- while_ (lenforce_up s) c ;; while_ (lenforce_down s) c1.

(** Lattice.hpp:199-211 *)
Definition LatticeEnforceBoundaries (g : grid) (coords : list Z) : out (list Z) :=
  each_coord lenforce1 (gsize g) coords.

(** HyperCubicGrid.hpp:219-229 *)
Fixpoint is_on_grid (size coords : list Z) : out bool :=
  match size, coords with
  | [], _ => Ok true
  | _ :: _, [] => UB
  | s :: size', c :: coords' =>
      if (c <? 0) || (s <=? u64 c) then Ok false else is_on_grid size' coords'
  end.
Definition IsOnGrid (g : grid) (coords : list Z) : out bool := is_on_grid (gsize g) coords.

(** HyperCubicGrid.hpp:184-191 *)
Definition GetMappedSite (g : grid) (a b : Z) : out Z :=
  cb <- GetCoordinates g b ;; ca <- GetCoordinates g a ;;
  d <- subtract_into cb ca ;; e <- EnforceBoundaries g d ;; GetIndex g e.

(** HyperCubicGrid.hpp:193-200 *)
Definition GetUnMappedSite (g : grid) (i a : Z) : out Z :=
  ca <- GetCoordinates g a ;; ci <- GetCoordinates g i ;;
  d <- sum_into ca ci ;; e <- EnforceBoundaries g d ;; GetIndex g e.

(** HyperCubicGrid.hpp:231-242 *)
Definition GridPairIndex (g : grid) (a b : Z) : Z := GetPairIndex a b (numsites g).
Definition GetIndividualIndices (g : grid) (pair : Z) : out (Z * Z) := GetPair pair (numsites g).

(** Conversion to [int] (implementation defined, two's complement). *)
Definition to_s32 (z : Z) : Z :=
  let w := z mod 2 ^ 32 in if w <? 2 ^ 31 then w else w - 2 ^ 32.

(** HyperCubicGrid.hpp:252-263  one coordinate of GetJump with closed
    boundaries.  [cbi -= si] and [cbi += si] mix long and size_t: computed
    modulo 2^64 and converted back.  [-si_half] is an int negation. *)
Definition jump1 (si cbi : Z) : out Z :=
  let si_half := to_s32 (si / 2) in
  let cbi := if si_half <? cbi then to_s64 (u64 (cbi - si)) else cbi in
  m <- sint 32 (- si_half) ;;
  Ok (if (cbi <? m) || ((si mod 2 =? 0) && (cbi =? m)) then to_s64 (u64 (cbi + si)) else cbi).

(** HyperCubicGrid.hpp:244-267 *)
Definition GetJump (g : grid) (a b : Z) : out (list Z) :=
  cb <- GetCoordinates g b ;; ca <- GetCoordinates g a ;;
  d <- subtract_into cb ca ;;
  if closed g then each_coord jump1 (gsize g) d else Ok d.

(** Lattice.hpp:236-248  GetWinding: std::transform over all jumps with
    std::divides<long>, the size converted to long. *)
Fixpoint winding (jumps size : list Z) : out (list Z) :=
  match jumps, size with
  | [], _ => Ok []
  | _ :: _, [] => UB
  | j :: jumps', s :: size' =>
      let s' := to_s64 s in
      q <- (if s' =? 0 then UB else s64 (Z.quot j s')) ;;
      r <- winding jumps' size' ;; Ok (q :: r)
  end.
Definition GetWinding (g : grid) (jumps : list Z) : out (list Z) := winding jumps (gsize g).

(** How callers use GetJump (Lattice.hpp:90-92, tests/lattice.cpp): the jumps of
    a walk start, x1, x2, ... are summed into one vector. *)
Fixpoint walk_jumps (g : grid) (cur : Z) (walk acc : list Z) : out (list Z) :=
  match walk with
  | [] => Ok acc
  | nxt :: walk' =>
      j <- GetJump g cur nxt ;; acc' <- sum_into acc j ;; walk_jumps g nxt walk' acc'
  end.
