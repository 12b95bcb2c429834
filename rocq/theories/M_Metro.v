(** A client of Lattice, choose_between, choose_with_probability and MoveStats:
    a Metropolis walker for given weights of the sites,

      auto const& nn = lattice.GetNeighbors(a);
      auto b = nn[choose_between(std::vector<double>(nn.size(), 1.0), rng)];
      auto p = weight[b] / weight[a];
      if (choose_with_probability(p, rng)) {
        a = b;
        stats.Add(MoveResult::Accept(p));
      } else {
        stats.Add(MoveResult::Reject(p));
      }

    Lattice.hpp:79-82, MathUtils.hpp:196-212 and 234-240, MoveStats.hpp:254-270,
    MoveResult.hpp:72-83. *)
From Coq Require Import ZArith List.
From Verif Require Import Base F64 M_Grid M_Bravais M_Lattice M_MathF M_Random M_Move M_Hop.
Import ListNotations.
Open Scope Z_scope.
Open Scope out_scope.

(** stats.Add(r), an exception ending the program. *)
Definition record_move (chk : bool) (s : mstats) (r : moveresult) : out mstats :=
  let '(s', o) := MS_Add chk s r in _ <- o ;; Ok s'.

(** One move from [st], a site and the statistics, with two words of the engine. *)
Definition metropolis {T} (chk : bool) (L : @lattice T) (weight : list f64) (st : Z * mstats) (w1 w2 : Z) : out (Z * mstats) :=
  let '(a, s) := st in
  b <- hop L a w1 ;; wb <- vget weight b ;; wa <- vget weight a ;;
  let p := fdiv wb wa in
  if choose_with_probability_rng p w2
  then s' <- record_move chk s (MR_Accept p) ;; Ok (b, s')
  else s' <- record_move chk s (MR_Reject p) ;; Ok (a, s').

(** One move for every two words. *)
Fixpoint metropolis_run {T} (chk : bool) (L : @lattice T) (weight : list f64) (st : Z * mstats) (ws : list Z) : out (Z * mstats) :=
  match ws with
  | w1 :: w2 :: ws' => st' <- metropolis chk L weight st w1 w2 ;; metropolis_run chk L weight st' ws'
  | _ => Ok st
  end.
