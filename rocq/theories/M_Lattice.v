(** Model of include/bwsl/Lattice.hpp (EnforceBoundaries and GetWinding are in
    M_Grid.v).  The arithmetic is generic; M_PI is the parameter [pi], std::sin
    and std::cos are parameters, and so is the text that fmt prints for a double. *)
From Coq Require Import ZArith List Bool Ascii String.
From Verif Require Import Base F64 Num M_MathInt M_MathF M_Pairs M_Grid M_Bravais M_Text M_Util M_Obs.
Import ListNotations.
Open Scope Z_scope.
Open Scope out_scope.

Section Lattice.
Context {T : Type} (N : num T) (pi : T).
Let zero := n_ofZ N 0.

(** Lattice.hpp:170-184  data members *)
Record lattice := mkLattice {
  l_grid : grid;
  l_pos : list (list T);
  l_vec : list (list T);
  l_dist : list T;
  l_nn : list (list Z);
  l_mom : list (list T) }.

(** Lattice.hpp:267-279 *)
Definition ComputePositions (g : grid) (B : bravais T) : out (list (list T)) :=
  c0 <- GetCoordinates g 0 ;;
  omapl (fun i => c <- GetCoordinates g i ;; BGetVector N B c0 c) (upto (GetNumSites g)).

(** Lattice.hpp:315-318: [img[m] - 1] is a long, the product with a size_t and
    the sum are computed modulo 2^64 and converted back to long. *)
Definition shift_image (g : grid) (cs img : list Z) : out (list Z) :=
  omapl (fun m =>
    c <- vget cs m ;; i <- vget img m ;; s <- vget (gsize g) m ;;
    d <- s64 (i - 1) ;; Ok (to_s64 (u64 (c + u64 (d * s))))) (upto (dim g)).

(** Lattice.hpp:313-325  the loop over the images of one site *)
Definition image_step (g : grid) (B : bravais T) (c0 cs imgsize : list Z) (st : T * list T) (k : Z) : out (T * list T) :=
  img <- index_to_array k imgsize ;;
  csm <- shift_image g cs img ;;
  dv <- GetDistanceVector N B c0 csm ;;
  Ok (if n_lt N (fst dv) (fst st) then dv else st).

(** Lattice.hpp:295-330 *)
Definition ComputeVectors (g : grid) (B : bravais T) : out (list (list T)) :=
  let imgsize := repeat 3 (Z.to_nat (dim g)) in
  let nimg := accumulate_product_u imgsize in
  c0 <- GetCoordinates g 0 ;;
  omapl (fun site =>
    cs <- GetCoordinates g site ;;
    dv <- GetDistanceVector N B c0 cs ;;
    r <- (if closed g then ofold (image_step g B c0 cs imgsize) (upto nimg) dv else Ok dv) ;;
    Ok (snd r)) (upto (GetNumSites g)).

(** Lattice.hpp:281-293 *)
Definition ComputeDistances (vectors : list (list T)) : list T :=
  map (fun x => n_sqrt N (sum_squared N x)) vectors.

(** Lattice.hpp:341-350  the neighbours of the point [ci]; [js] are the
    directions that are left *)
Fixpoint site_neighbors (g : grid) (B : bravais T) (ci : list Z) (js : list Z) : out (list Z) :=
  match js with
  | [] => Ok []
  | j :: js' =>
      cj <- GetNeighbor B ci j ;;
      use <- (if closed g then Ok true else IsOnGrid g cj) ;;
      if (use : bool) then
        e <- LatticeEnforceBoundaries g cj ;; i <- GetIndex g e ;;
        r <- site_neighbors g B ci js' ;; Ok (i :: r)
      else site_neighbors g B ci js'
  end.

(** Lattice.hpp:332-355 *)
Definition ComputeNeighbors (g : grid) (B : bravais T) : out (list (list Z)) :=
  omapl (fun i => ci <- GetCoordinates g i ;; site_neighbors g B ci (upto (b_gamma B))) (upto (GetNumSites g)).

(** Lattice.hpp:372-379  [ci[k] -= GetSize()[k] / 2UL] is computed modulo 2^64;
    the loop over kappa divides by the size converted to double. *)
Definition momentum_of (g : grid) (B : bravais T) (ci : list Z) : out (list T) :=
  c <- omapl (fun k => x <- vget ci k ;; s <- vget (gsize g) k ;; Ok (to_s64 (u64 (x - s / 2)))) (upto (vsize ci)) ;;
  kappa <- GetReciprocalSpace N pi B c ;;
  omapl (fun k => x <- vget kappa k ;; s <- vget (gsize g) k ;; Ok (n_div N x (n_ofZ N s))) (upto (vsize kappa)).

(** Lattice.hpp:357-384 *)
Definition ComputeMomenta (g : grid) (B : bravais T) : out (list (list T)) :=
  if closed g then
    omapl (fun i => ci <- GetCoordinates g i ;; momentum_of g B ci) (upto (GetNumSites g))
  else Ok [].

(** Lattice.hpp:187-197 *)
Definition Lattice (B : bravais T) (size : list Z) (cl : bool) : out lattice :=
  let g := HyperCubicGrid size cl in
  p <- ComputePositions g B ;;
  v <- ComputeVectors g B ;;
  nn <- ComputeNeighbors g B ;;
  m <- ComputeMomenta g B ;;
  Ok (mkLattice g p v (ComputeDistances v) nn m).

(** Lattice.hpp:79-82 *)
Definition GetNeighbors (L : lattice) (i : Z) : out (list Z) := vget (l_nn L) i.

(** Lattice.hpp:213-227 *)
Definition GetDistance (L : lattice) (a b : Z) : out T :=
  s <- GetMappedSite (l_grid L) a b ;; vget (l_dist L) s.
Definition GetVector (L : lattice) (a b : Z) : out (list T) :=
  s <- GetMappedSite (l_grid L) a b ;; vget (l_vec L) s.

(** Lattice.hpp:229-234, 250-255 *)
Definition GetMomentum (L : lattice) (a : Z) : out (list T) := vget (l_mom L) a.
Definition GetPosition (L : lattice) (a : Z) : out (list T) := vget (l_pos L) a.

(** Lattice.hpp:257-265 *)
Definition AreNeighbors (L : lattice) (a b : Z) : out bool :=
  nn <- vget (l_nn L) a ;; Ok (existsb (Z.eqb b) nn).

(** Lattice.hpp:538-548 *)
Definition GetCoordination (L : lattice) (a : Z) : out Z := nn <- vget (l_nn L) a ;; Ok (vsize nn).
Definition GetCoordination0 (L : lattice) : out Z := nn <- vget (l_nn L) 0 ;; Ok (vsize nn).

(** * Structure factor *)
Context (fsin fcos : T -> T).

(** Lattice.hpp:404-408 *)
Definition phase (L : lattice) (k x : list T) : out T :=
  ofold (fun prod q => a <- vget k q ;; b <- vget x q ;; Ok (n_add N prod (n_mul N a b))) (upto (dim (l_grid L))) zero.

(** Lattice.hpp:400-411; the occupations are taken after their conversion to
    double. *)
Definition amplitude (L : lattice) (occ k : list T) : out (T * T) :=
  ofold (fun st j =>
    x <- GetVector L 0 j ;; p <- phase L k x ;; o <- vget occ j ;;
    Ok (n_add N (fst st) (n_mul N (fsin p) o), n_add N (snd st) (n_mul N (fcos p) o)))
    (upto (GetNumSites (l_grid L))) (zero, zero).

(** Lattice.hpp:386-414 *)
Definition AccumulateSk (L : lattice) (occ sk : list T) (mult : T) : out (list T) :=
  if closed (l_grid L) then
    let n := GetNumSites (l_grid L) in
    ofold (fun sk i =>
      k <- vget (l_mom L) i ;; a <- amplitude L occ k ;; s <- vget sk i ;;
      vset sk i (n_add N s (n_div N (n_mul N mult (n_add N (n_mul N (fst a) (fst a)) (n_mul N (snd a) (snd a))))
                                    (n_ofZ N (square_u n))))) (upto n) sk
  else Ok sk.

(** Lattice.hpp:416-429 *)
Definition ComputeSk (L : lattice) (occ : list T) (mult : T) : out (list T) :=
  let sk := repeat zero (Z.to_nat (GetNumSites (l_grid L))) in
  if closed (l_grid L) then AccumulateSk L occ sk mult else Ok sk.

(** * Files *)
Context (fmt_d : T -> list ascii) (wr : list ascii -> bool).

(** [,x0,x1,...] and [,v0,v1,...] *)
Definition columns (c : ascii) (n : Z) : list ascii := flat_map (fun i => comma :: c :: put_int i) (upto n).
Definition fields (v : list T) : list ascii := flat_map (fun x => comma :: fmt_d x) v.

Definition write (fs : filesystem) (fname text : list ascii) : filesystem :=
  if wr fname then set_file fs fname text else fs.

(** Lines [i,v0,v1,...] for all sites. *)
Definition site_lines (L : lattice) (get : Z -> out (list T)) : out (list ascii) :=
  ls <- omapl (fun i => v <- get i ;; Ok (put_int i ++ fields v ++ [newline])) (upto (GetNumSites (l_grid L))) ;;
  Ok (List.concat ls).
Definition site_file (L : lattice) (c : ascii) (get : Z -> out (list T)) : out (list ascii) :=
  ls <- site_lines L get ;;
  Ok (chars "i" ++ columns c (dim (l_grid L)) ++ [newline] ++ ls).

(** Lattice.hpp:431-450, 452-471, 473-491 *)
Definition SavePositions (L : lattice) (fs : filesystem) (fname : list ascii) : out filesystem :=
  t <- site_file L "x" (GetPosition L) ;; Ok (write fs fname t).
Definition SaveDistances (L : lattice) (fs : filesystem) (fname : list ascii) : out filesystem :=
  t <- site_file L "d" (GetVector L 0) ;; Ok (write fs fname t).
Definition SaveMomenta (L : lattice) (fs : filesystem) (fname : list ascii) : out filesystem :=
  t <- site_file L "k" (GetMomentum L) ;; Ok (write fs fname t).

(** Lattice.hpp:493-536 *)
Definition SavePairs (L : lattice) (fs : filesystem) (fname : list ascii) : out filesystem :=
  let n := GetNumSites (l_grid L) in
  let d := dim (l_grid L) in
  ls <- omapl (fun i =>
    ab <- GetPair i n ;;
    va <- GetVector L 0 (fst ab) ;; vb <- GetVector L 0 (snd ab) ;; vec <- GetVector L (fst ab) (snd ab) ;;
    Ok (put_int (GetPairIndex (fst ab) (snd ab) n) ++ comma :: put_int (fst ab) ++ comma :: put_int (snd ab) ++
        fields va ++ fields vb ++ fields vec ++ [newline])) (upto (GetNumPairs n)) ;;
  Ok (write fs fname (chars "i,a,b" ++ columns "x" d ++ columns "y" d ++ columns "d" d ++ [newline] ++ List.concat ls)).
End Lattice.
