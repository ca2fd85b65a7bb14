(** Model of polytracker/include/taintdag/section.h: SectionBase and FixedSizeAlloc. *)
From Coq Require Import NArith List Bool.
From Verif Require Import M_Base M_Memory.
Import ListNotations.
Open Scope N_scope.

(** SectionBase, section.h:25-103: mem_ = [sbeg, send) and write_it_, as absolute
    addresses.  The mutex m_ is the subject of M_ConcSection; here every operation
    is one step because write() returns with the lock held until the record has been
    constructed. *)
Record sect := mkSect { sbeg : N; send : N; wit : N }.

(** SectionBase::SectionBase, section.h:29. *)
Definition sect_new (b e : N) : sect := mkSect b e b.

(** SectionBase::size, section.h:32-35. *)
Definition sect_size (s : sect) : N := wit s - sbeg s.

(** SectionBase::write, section.h:55-71.  Pointer addition wraps at 2^64 as the code
    assumes ("wrapping allocation").  Returns the start of the granted memory. *)
Definition sect_write (s : sect) (size : N) : option (N * sect) :=
  let new := add64 (wit s) size in
  if (send s <? new) || (new <? wit s) then None
  else Some (wit s, mkSect (sbeg s) (send s) new).

(** SectionBase::offset, section.h:76-91. *)
Definition sect_offset (s : sect) (p : N) : Res N :=
  if (p <? sbeg s) || (send s <=? p) then Exit else Ok (p - sbeg s).

(** FixedSizeAlloc::FixedSizeAlloc, section.h:109-117. *)
Definition fixed_new (align es b e : N) : Res sect :=
  if negb (b mod align =? 0) then Exit
  else if negb ((e - b) mod es =? 0) then Exit
  else Ok (sect_new b e).

(** FixedSizeAlloc::construct, section.h:139-147; [bs] is the object representation
    of the new record (its length is sizeof(T)).  Returns its address. *)
Definition construct (m : mem) (s : sect) (bs : list N) : option (N * mem * sect) :=
  match sect_write s (len bs) with
  | Some (p, s') => Some (p, store m p bs, s')
  | None => None
  end.

(** The loop of construct_range, section.h:159-162: the generator runs while the
    iterator has not reached the end; [gen i] are the bytes it writes in its i-th run. *)
Fixpoint gen_loop (m : mem) (p : N) (es : N) (gen : N -> list N) (i : N) (todo : nat) : mem :=
  match todo with
  | O => m
  | S k => gen_loop (store m p (gen i)) (p + es) es gen (i + 1) k
  end.

(** FixedSizeAlloc::construct_range, section.h:151-170; entry_size()*n wraps at 2^64.
    (The loop ends because the wrapped product is a multiple of entry_size when that
    is a power of two, which holds for every instance.)  Returns the first address. *)
Definition construct_range (m : mem) (s : sect) (es n : N) (gen : N -> list N)
  : option (N * mem * sect) :=
  let mem_size := mul64 es n in
  match sect_write s mem_size with
  | Some (p, s') => Some (p, gen_loop m p es gen 0 (N.to_nat (mem_size / es)), s')
  | None => None
  end.

(** FixedSizeAlloc::index, count, section.h:173-179. *)
Definition sect_index (s : sect) (es p : N) : Res N :=
  do o <- sect_offset s p; Ok (o / es).
Definition sect_count (s : sect) (es : N) : N := sect_size s / es.

(** begin()[i], section.h:184: the bytes of entry [i]. *)
Definition entry (m : mem) (s : sect) (es i : N) : list N := load m (sbeg s + es * i) es.
