(** Specification of grid geometry (coordinates as lists of integers). *)
From Coq Require Import ZArith List.
From Verif Require Import Base S_Math.
Import ListNotations.
Open Scope Z_scope.

(** Sizes for which a long holds every sum of two coordinates and a size_t the
    number of sites. *)
Definition sizes_ok (size : list Z) : Prop :=
  Forall (fun s => 0 < s <= 2 ^ 62) size /\ prodZ size < two64.

(** Componentwise f size a b. *)
Fixpoint map3 (f : Z -> Z -> Z -> Z) (size a b : list Z) : list Z :=
  match size, a, b with
  | s :: size', x :: a', y :: b' => f s x y :: map3 f size' a' b'
  | _, _, _ => []
  end.

(** The point b seen from a, and the point at displacement d from a, on a torus. *)
Definition seen_from (size a b : list Z) : list Z := map3 (fun s x y => (y - x) mod s) size a b.
Definition moved_by (size a d : list Z) : list Z := map3 (fun s x y => (x + y) mod s) size a d.

(** Componentwise reduction. *)
Definition reduced_mod (size c : list Z) : list Z := map3 (fun s x _ => x mod s) size c c.

(** [j] is the minimum-image representative of [d] modulo [s]. *)
Definition min_image (s d j : Z) : Prop := (s | j - d) /\ - s < 2 * j <= s.

(** Three lists related componentwise. *)
Inductive Forall3 {A B C} (R : A -> B -> C -> Prop) : list A -> list B -> list C -> Prop :=
| F3nil : Forall3 R [] [] []
| F3cons a b c la lb lc : R a b c -> Forall3 R la lb lc -> Forall3 R (a :: la) (b :: lb) (c :: lc).

(** The site indices of a grid. *)
Definition valid_site (size : list Z) (i : Z) : Prop := 0 <= i < prodZ size.

(** Sizes for which half an extent fits an int. *)
Definition small_sizes (size : list Z) : Prop :=
  Forall (fun s => 0 < s < 2 ^ 32) size /\ prodZ size < two64.

(** Two displacements are the same iff they agree modulo the sizes. *)
Inductive same_displacement : list Z -> list Z -> list Z -> list Z -> list Z -> Prop :=
| SDnil : same_displacement [] [] [] [] []
| SDcons s size a la b lb a' la' b' lb' :
    (s | (b - a) - (b' - a')) -> same_displacement size la lb la' lb' ->
    same_displacement (s :: size) (a :: la) (b :: lb) (a' :: la') (b' :: lb').

(** [t] sums the jumps of n hops leading from [a] to [b]: congruent to the
    displacement modulo the sizes, and at most n half extents. *)
Inductive hops_sum (n : Z) : list Z -> list Z -> list Z -> list Z -> Prop :=
| WInil : hops_sum n [] [] [] []
| WIcons s size a la b lb t lt :
    (s | t - (b - a)) -> 2 * Z.abs t <= n * s -> hops_sum n size la lb lt ->
    hops_sum n (s :: size) (a :: la) (b :: lb) (t :: lt).
