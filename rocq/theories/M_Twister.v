(** Model of drawing from std::mt19937_64, the engine of applications/dumpmt.cpp:30,
    and of archiving it with RNGUtils.hpp.  The generator is that of libstdc++ 13,
    bits/random.tcc; its parameters are those of bits/random.h:1620-1627
    (n = 312, m = 156, r = 31). *)
From Coq Require Import ZArith List Bool Ascii.
From Verif Require Import Base M_Text M_Util M_Archive S_Twister M_Restart.
Import ListNotations.
Open Scope Z_scope.
Open Scope out_scope.

(** bits/random.tcc:400-401  the masks of the upper 33 and the lower 31 bits. *)
Definition upper_mask : Z := u64 (Z.shiftl (2 ^ 64 - 1) 31).
Definition lower_mask : Z := 2 ^ 64 - 1 - upper_mask.

(** bits/random.tcc:405-408, 413-416, 419-422: x[i] is replaced, given the indices
    of the word after it and of the word 156 places on. *)
Definition gen_word (i next far : Z) (x : list Z) : out (list Z) :=
  xi <- vget x i ;;
  xn <- vget x next ;;
  xf <- vget x far ;;
  let y := Z.lor (Z.land xi upper_mask) (Z.land xn lower_mask) in
  vset x i (Z.lxor (Z.lxor xf (Z.shiftr y 1))
                   (if Z.land y 1 =? 0 then 0 else 0xb5026f5aa96619e9)).

(** bits/random.tcc:397-424  _M_gen_rand. *)
Definition gen_rand (x : list Z) : out (list Z) :=
  x <- ofold (fun x k => gen_word k (k + 1) (k + 156) x) (upto (312 - 156)) x ;;
  x <- ofold (fun x k => gen_word k (k + 1) (k - (312 - 156)) x) (map (Z.add (312 - 156)) (upto (156 - 1))) x ;;
  gen_word 311 0 155 x.

(** bits/random.tcc:463-467. *)
Definition temper (z : Z) : Z :=
  let z := Z.lxor z (Z.land (Z.shiftr z 29) 0x5555555555555555) in
  let z := Z.lxor z (Z.land (u64 (Z.shiftl z 17)) 0x71d67fffeda60000) in
  let z := Z.lxor z (Z.land (u64 (Z.shiftl z 37)) 0xfff7eee000000000) in
  Z.lxor z (Z.shiftr z 43).

(** bits/random.tcc:454-469  operator(): the word returned and the engine after. *)
Definition mt_draw (e : engine) : out (Z * engine) :=
  e <- (if 312 <=? mt_pos e then x <- gen_rand (mt_words e) ;; Ok (mkEngine x 0) else Ok e) ;;
  z <- vget (mt_words e) (mt_pos e) ;;
  Ok (temper z, mkEngine (mt_words e) (mt_pos e + 1)).

Fixpoint mt_draws (n : nat) (e : engine) : out (list Z * engine) :=
  match n with
  | O => Ok ([], e)
  | S n' =>
      r <- mt_draw e ;;
      rs <- mt_draws n' (snd r) ;;
      Ok (fst r :: fst rs, snd rs)
  end.

(** RNGUtils.hpp:56-68  save: one string. *)
Definition engine_save (e : engine) : list tok :=
  [TS (map (fun c => Z.of_nat (nat_of_ascii c)) (mt_save e))].
(** RNGUtils.hpp:42-54  load into the engine t; [None] when it throws. *)
Definition engine_load (t : engine) : loader engine := lbind load_s (fun s a =>
  match mt_load t (map (fun c => ascii_of_nat (Z.to_nat c)) s) with
  | (e, Ok _) => Some (e, a)
  | _ => None
  end).

(** A client's step that draws random words (S_Twister.prog), on an engine: not
    code of the library but of its clients. *)
Fixpoint run_prog {A} (p : prog A) (e : engine) : out (A * engine) :=
  match p with
  | Ret a => Ok (a, e)
  | Draw f => r <- mt_draw e ;; run_prog (f (fst r)) (snd r)
  end.

(** A step of a simulation whose state is an engine and what the client computes. *)
Definition sim_call {C S} (step : C -> S -> prog S) (s : engine * S) (c : C) : (engine * S) * out unit :=
  match run_prog (step c (snd s)) (fst s) with
  | Ok (s', e') => ((e', s'), Ok tt)
  | Throw x => (s, Throw x)
  | UB => (s, UB)
  | Diverge => (s, Diverge)
  end.

(** The archive: the engine, then the rest of the state. *)
Definition sim_save {S} (save : S -> list tok) (s : engine * S) : list tok :=
  engine_save (fst s) ++ save (snd s).
Definition sim_load {S} (load : S -> loader S) (t : engine * S) : loader (engine * S) :=
  lbind (engine_load (fst t)) (fun e => lbind (load (snd t)) (fun s => lret (e, s))).
