(** Specification vocabulary for the bitmap section. *)
From Coq Require Import NArith List.
From Verif Require Import M_Base M_Memory M_Bitmap.
Import ListNotations.
Open Scope N_scope.

Inductive bop : Type :=
| BSet (i : N)                (* set one bit *)
| BRange (first n : N).       (* set bits first .. first+n-1 *)

(** The bits an operation asks for. *)
Definition asks (o : bop) (i : N) : Prop :=
  match o with
  | BSet k => i = k
  | BRange first n => first <= i < first + n
  end.

(** The operation stays inside a bitmap of [cap] bits. *)
Definition bop_ok (cap : N) (o : bop) : Prop :=
  match o with
  | BSet k => k < cap
  | BRange first n => n = 0 \/ first + n <= cap
  end.

(** The operation is a range reaching into the last bucket of the bitmap. *)
Definition range_in_last_bucket (cap : N) (o : bop) : Prop :=
  match o with
  | BSet _ => False
  | BRange first n => 0 < n /\ 64 * (bucket_count cap - 1) < first + n
  end.

Definition bm_step (m : mem) (s : bitmap) (o : bop) : Res (mem * bitmap) :=
  match o with
  | BSet k => do r <- bm_set m s k; let '(_, m', s') := r in Ok (m', s')
  | BRange first n => bm_set_range m s first n
  end.
Fixpoint bm_run (m : mem) (s : bitmap) (ops : list bop) : Res (mem * bitmap) :=
  match ops with
  | [] => Ok (m, s)
  | o :: rest => do r <- bm_step m s o; let (m', s') := r in bm_run m' s' rest
  end.

(** The bytes of the section as recorded in the file: the first size() bytes. *)
Definition bm_content (m : mem) (s : bitmap) : list N := load m (bm_beg s) (bm_size s).
