(** Specification for sums of rationals. *)
From Coq Require Import ZArith QArith List.
From Verif Require Import M_Rational S_RationalObj.
Import ListNotations.

Definition sumQ (l : list rat) : Q := fold_right (fun r s => (rv r + s)%Q) 0%Q l.
Definition prodQ (l : list rat) : Q := fold_right (fun r s => (rv r * s)%Q) 1%Q l.

(** An object as the constructor leaves it. *)
Definition built (w : Z) (r : rat) : Prop := exists n d, in_w w n /\ in_w w d /\ d <> 0%Z /\ RationalNum w n d = Base.Ok r.
