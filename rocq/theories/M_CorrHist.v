(** A client of HyperCubicGrid (or Lattice) and HistAccumulator: correlations of
    the occupations of the sites, one bin for each displacement,

      auto corr = HistAccumulator(grid.GetNumSites());
      for (auto const& n : configurations)
        for (auto a = 0UL; a < grid.GetNumSites(); a++)
          for (auto b = 0UL; b < grid.GetNumSites(); b++)
            corr.Add(grid.GetMappedSite(a, b), n[a] * n[b]);

    HyperCubicGrid.hpp:184-191, HistAccumulator.hpp:119-123 and 134-140. *)
From Coq Require Import ZArith List.
From Verif Require Import Base F64 M_Grid M_Hist.
Import ListNotations.
Open Scope Z_scope.
Open Scope out_scope.

(** h.Add(i, v), an exception ending the program. *)
Definition record_value (chk : bool) (h : hist) (i : Z) (v : f64) : out hist :=
  let '(h', o) := HistAdd chk h i v in _ <- o ;; Ok h'.

(** The two inner loops, for one configuration. *)
Definition correlate (chk : bool) (g : grid) (h : hist) (n : list f64) : out hist :=
  ofold (fun h a =>
    ofold (fun h b =>
      s <- GetMappedSite g a b ;; x <- vget n a ;; y <- vget n b ;; record_value chk h s (fmul x y))
      (upto (GetNumSites g)) h) (upto (GetNumSites g)) h.

Definition correlate_all (chk : bool) (g : grid) (configurations : list (list f64)) : out hist :=
  ofold (correlate chk g) configurations (HistAccumulator (GetNumSites g)).
