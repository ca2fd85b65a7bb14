(** Model of polytracker/include/taintdag/string_table.h: StringTable
    (offset_t = uint32_t, length_t = uint16_t, tag 3). *)
From Coq Require Import NArith List Bool.
From Verif Require Import M_Base M_Memory M_Section.
Import ListNotations.
Open Scope N_scope.

(** string_table.h:22, 30-40. *)
Definition st_tag : N := 3.
Definition st_allocation_size : N := 1048576.        (* 0x100000 *)
Definition st_align_of : N := 2.                     (* alignof(uint16_t) *)
Definition st_max_offset : N := 4294967295.
Definition st_max_string_len : N := N.min 65535 (st_max_offset - 2).

(** StringTableBase::StringTableBase, string_table.h:43-48. *)
Definition st_new (b e : N) : Res sect :=
  if st_max_offset <? e - b then Exit else Ok (sect_new b e).

(** allocated_len, string_table.h:129-135. *)
Definition allocated_len (n : N) : N :=
  let req := n + 2 in
  let rem := req mod st_align_of in
  if negb (rem =? 0) then req + (st_align_of - rem) else req.

(** add_string, string_table.h:54-73.  The length is stored as uint16_t; the string
    bytes follow; a padding byte is left as it was.  The returned size_t is narrowed
    to offset_t. *)
Definition add_string (m : mem) (s : sect) (sv : list N) : Res (option N * mem * sect) :=
  if st_max_string_len <? len sv then Exit
  else
    match sect_write s (allocated_len (len sv)) with
    | Some (p, s') =>
        let m1 := store_int m p 2 (len sv mod two16) in
        let m2 := store m1 (p + 2) sv in
        do o <- sect_offset s' p; Ok (Some (o mod two32), m2, s')
    | None => Ok (None, m, s)
    end.

(** iterator::curr_len and operator*, string_table.h:100-103, 112-114. *)
Definition st_curr_len (m : mem) (it : N) : N := load_int m it 2.
Definition st_deref (m : mem) (it : N) : list N := load m (it + 2) (st_curr_len m it).

(** from_offset, string_table.h:77-79. *)
Definition from_offset (m : mem) (s : sect) (ofs : N) : list N := st_deref m (sbeg s + ofs).

(** Iteration from begin() to end(), string_table.h:89-92, 109, 122-124: the loop
    "for (it = begin(); it != end(); ++it)". *)
Fixpoint st_iterate (fuel : nat) (m : mem) (it e : N) : Res (list (list N)) :=
  if it =? e then Ok []
  else match fuel with
       | O => Fuel
       | S f => do r <- st_iterate f m (it + allocated_len (st_curr_len m it)) e;
                Ok (st_deref m it :: r)
       end.
Definition st_all (fuel : nat) (m : mem) (s : sect) : Res (list (list N)) :=
  st_iterate fuel m (sbeg s) (sbeg s + sect_size s).
