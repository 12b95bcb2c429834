(** Model of include/bwsl/LinSpace.hpp for a signed integer type T of [w] bits (int,
    long): integer division truncates, and an overflow is undefined.  The members are
    those of M_Space.v with outcomes. *)
From Coq Require Import ZArith List Bool.
From Verif Require Import Base M_Rational M_Space.
Import ListNotations.
Open Scope Z_scope.
Open Scope out_scope.

Section LinZ.
Context (w : Z).

(** static_cast<T> of an unsigned long: the value modulo 2^w. *)
Definition scast (z : Z) : Z := (z + 2 ^ (w - 1)) mod 2 ^ w - 2 ^ (w - 1).

(** LinSpace.hpp:83-93; the assertion at line 91 vanishes in release builds. *)
Definition LinSpaceZ (first last : Z) (steps : Z) : out (linspace Z) :=
  d <- sint w (last - first) ;; q <- sdiv w d (scast steps) ;; Ok (mkLin first first last q steps 0).

(** LinSpace.hpp:104-111 *)
Definition LinIncrZ (l : linspace Z) : out (linspace Z) :=
  let step := u64 (li_step l + 1) in
  p <- sint w (li_stepsize l * scast step) ;; v <- sint w (li_first l + p) ;;
  Ok (mkLin v (li_first l) (li_last l) (li_stepsize l) (li_nsteps l) step).

(** LinSpace.hpp:95-102 *)
Definition LinCallZ (l : linspace Z) : out (Z * linspace Z) :=
  let retval := LinDeref l in l' <- LinIncrZ l ;; Ok (retval, l').

(** LinSpace.hpp:142-150 with std::generate_n, which calls a copy of the object n times. *)
Fixpoint generate_z (n : nat) (g : linspace Z) : out (list Z) :=
  match n with
  | O => Ok []
  | S n' => vg <- LinCallZ g ;; vs <- generate_z n' (snd vg) ;; Ok (fst vg :: vs)
  end.
Definition LinCollectZ (l : linspace Z) (n : Z) : out (list Z) := generate_z (Z.to_nat n) l.

(** One call of a client and what it shows: LinSpace.hpp:95-102, 104-111, 113-120, 39,
    142-150. *)
Definition lin_call_z (l : linspace Z) (c : spcall) : out (list Z * linspace Z) :=
  match c with
  | ScCall => vl <- LinCallZ l ;; Ok ([fst vl], snd vl)
  | ScPre => l' <- LinIncrZ l ;; Ok ([LinDeref l'], l')
  | ScPost => let tmp := l in l' <- LinIncrZ l ;; Ok ([LinDeref tmp], l')
  | ScDeref => Ok ([LinDeref l], l)
  | ScCollect n => vs <- LinCollectZ l n ;; Ok (vs, l)
  end.
Fixpoint lin_calls_z (h : list spcall) (l : linspace Z) : out (list (list Z)) :=
  match h with
  | [] => Ok []
  | c :: h' => vl <- lin_call_z l c ;; vs <- lin_calls_z h' (snd vl) ;; Ok (fst vl :: vs)
  end.

(** for (auto it = o.begin(); it != o.end(); ++it) out.push_back( *it);
    LinSpace.hpp:122-140, 152-164 *)
Definition lin_for_z (o : linspace Z) : out (list Z) :=
  while_ (fun '(it, acc) =>
    if LinEq it (LinEnd o) then inr (Ok (rev acc))
    else match LinIncrZ it with Ok it' => inl (it', LinDeref it :: acc) | Throw e => inr (Throw e) | UB => inr UB | Diverge => inr Diverge end)
    (LinBegin o, []).
End LinZ.
