(** Boost serialization as used by the serialize/save/load members of the
    headers: an archive is the sequence of primitive values written, in order;
    [ar & x] appends x when saving and takes the next value when loading.  The
    text or binary encoding of the primitives themselves belongs to Boost and is
    not modelled. *)
From Coq Require Import ZArith List.
From Verif Require Import F64.
Import ListNotations.
Open Scope Z_scope.

(** Primitive values: double, unsigned long (or size_t), long, and a string or
    enumerator given by its code units. *)
Inductive tok :=
| TD (x : f64)
| TU (z : Z)
| TL (z : Z)
| TS (s : list Z).

(** A loader consumes values from the front of the archive; [None] when the
    next value is not of the type asked for. *)
Definition loader (A : Type) := list tok -> option (A * list tok).

Definition load_d : loader f64 := fun a => match a with TD x :: r => Some (x, r) | _ => None end.
Definition load_u : loader Z := fun a => match a with TU x :: r => Some (x, r) | _ => None end.
Definition load_l : loader Z := fun a => match a with TL x :: r => Some (x, r) | _ => None end.
Definition load_s : loader (list Z) := fun a => match a with TS x :: r => Some (x, r) | _ => None end.

Definition lbind {A B} (l : loader A) (f : A -> loader B) : loader B :=
  fun a => match l a with Some (x, r) => f x r | None => None end.
Definition lret {A} (x : A) : loader A := fun a => Some (x, a).

(** boost/serialization/vector.hpp: the element count, then the elements. *)
Definition save_vector {A} (save : A -> list tok) (v : list A) : list tok :=
  TU (Z.of_nat (length v)) :: flat_map save v.
Fixpoint load_n {A} (load : loader A) (n : nat) : loader (list A) :=
  match n with
  | O => lret []
  | S n' => lbind load (fun x => lbind (load_n load n') (fun l => lret (x :: l)))
  end.
Definition load_vector {A} (load : loader A) : loader (list A) :=
  lbind load_u (fun n => load_n load (Z.to_nat n)).
