(** Machine integers, bytes, lists indexed by [N] and the outcome monad used by
    the whole model.  This file models no particular file of /repo; the
    constants 2^8 .. 2^64 are the widths of uint8_t .. uint64_t. *)
From Coq Require Import NArith List Bool.
Import ListNotations.
Open Scope N_scope.

(** Outcome of a piece of C++ code.
    [Ok v]  normal completion with value [v];
    [Exit]  the process was terminated by error_exit
            (polytracker/src/taintdag/error.cpp:14-24);
    [UB]    undefined behaviour or a failed assert;
    [Fuel]  the fuel of a bounded interpreter ran out (never a behaviour of the
            code: every theorem about a fuelled function excludes it). *)
Inductive Res (A : Type) : Type :=
| Ok (a : A)
| Exit
| UB
| Fuel.
Arguments Ok {A} a.
Arguments Exit {A}.
Arguments UB {A}.
Arguments Fuel {A}.

Definition bind {A B} (r : Res A) (f : A -> Res B) : Res B :=
  match r with
  | Ok a => f a
  | Exit => Exit
  | UB => UB
  | Fuel => Fuel
  end.

Notation "'do' x <- e ; f" := (bind e (fun x => f))
  (at level 200, x pattern, e at level 100, f at level 200, right associativity).

(** Unsigned wrap-around arithmetic. *)
Definition two8  : N := 256.
Definition two16 : N := 65536.
Definition two32 : N := 4294967296.
Definition two64 : N := 18446744073709551616.
Definition add32 (a b : N) : N := (a + b) mod two32.
Definition add64 (a b : N) : N := (a + b) mod two64.
Definition mul64 (a b : N) : N := (a * b) mod two64.

(** Lists indexed by [N]: array reads, in-place writes and lengths. *)
Definition get {A} (l : list A) (i : N) : option A := nth_error l (N.to_nat i).
Definition len {A} (l : list A) : N := N.of_nat (length l).
Fixpoint upd_nat {A} (l : list A) (i : nat) (v : A) : list A :=
  match l, i with
  | [], _ => []
  | _ :: t, O => v :: t
  | h :: t, S j => h :: upd_nat t j v
  end.
Definition upd {A} (l : list A) (i : N) (v : A) : list A := upd_nat l (N.to_nat i) v.

(** [nseq a n] = a, a+1, ..., a+n-1. *)
Fixpoint nseq (a : N) (n : nat) : list N :=
  match n with
  | O => []
  | S m => a :: nseq (a + 1) m
  end.

(** Little endian bytes of a [k]-byte unsigned integer, and back. *)
Fixpoint le_bytes (k : nat) (v : N) : list N :=
  match k with
  | O => []
  | S j => v mod two8 :: le_bytes j (v / two8)
  end.
Fixpoint le_val (bs : list N) : N :=
  match bs with
  | [] => 0
  | b :: r => b + two8 * le_val r
  end.
