(** Shadow memory: one 4-byte label per application byte, in the same address space as
    the application (polytracker/src/compiler-rt/lib/dfsan).  The whole address space is
    one byte addressed memory [mem]; addresses are 64-bit numbers.
    Not modelled: origin tracking (off in PolyTracker builds), the dfso_ variants,
    page protection.  The page size is 4096. *)
From Coq Require Import NArith List Bool.
From Verif Require Import M_Base M_Memory M_Labels.
Import ListNotations.
Open Scope N_scope.

(** dfsan_platform.h:20-27 (x86-64). *)
Definition SHADOW_ADDR : N := 0x10000.
Definition ORIGIN_ADDR : N := 0x200000000000.
Definition UNION_TABLE_ADDR : N := 0x400000000000.
Definition APP_ADDR : N := 0x700000008000.
(** ~0x700000000000 in 64 bits. *)
Definition SHADOW_MASK : N := two64 - 1 - 0x700000000000.

(** shadow_for, dfsan.h:69-72. *)
Definition shadow_for (p : N) : N := N.shiftl (N.land p SHADOW_MASK) 2 mod two64.

(** The label of application byte [p]: the dfsan_label at shadow_for(p). *)
Definition label_at (m : mem) (p : N) : N := load_int m (shadow_for p) 4.

(** is_shadow_addr_valid, dfsan.h:93-95. *)
Definition is_shadow_addr_valid (s : N) : bool := (SHADOW_ADDR <=? s) && (s <? ORIGIN_ADDR).

(** [n] bytes set to [v]: internal_memset, and, with 0, ReleaseMemoryPagesToOS (anonymous
    private pages read as zero after they were released). *)
Definition fill (m : mem) (a n v : N) : mem :=
  fun x => if (a <=? x) && (x <? a + n) then v else m x.

(** WriteShadowIfDifferent, dfsan.cpp:534-551: [n] labels from shadow address [s]. *)
Fixpoint write_shadow (m : mem) (label s : N) (n : nat) : mem :=
  match n with
  | O => m
  | S k =>
      let m1 := if load_int m s 4 =? label then m else store_int m s 4 label in
      write_shadow m1 label (s + 4) k
  end.

(** mem_is_zero (sanitizer_common). *)
Definition mem_is_zero (m : mem) (a n : N) : bool := forallb (fun b => b =? 0) (load m a n).

(** ClearShadowIfNonZero, dfsan.cpp:619-623. *)
Definition clear_shadow (m : mem) (s n : N) : mem :=
  if mem_is_zero m s n then m else fill m s n 0.

(** RoundUpTo / RoundDownTo (sanitizer_common) for a power of two. *)
Definition PAGE : N := 4096.
Definition round_up (x : N) : N := N.ldiff (x + (PAGE - 1)) (PAGE - 1).
Definition round_down (x : N) : N := N.ldiff x (PAGE - 1).

(** SetShadow, dfsan.cpp:625-659, called from dfsan_set_label, dfsan.cpp:666-675. *)
Definition set_label (m : mem) (label addr size : N) : mem :=
  let beg := shadow_for addr in
  if negb (label =? 0) then write_shadow m label beg (N.to_nat size)
  else
    let end_ := shadow_for (add64 addr size) in
    let beg_aligned := round_up beg in
    let end_aligned := round_down end_ in
    if end_aligned <=? beg_aligned + 8 * PAGE then write_shadow m label beg (N.to_nat size)
    else
      let m1 := clear_shadow m beg (beg_aligned - beg) in
      let m2 := fill m1 beg_aligned (end_aligned - beg_aligned) 0 in
      clear_shadow m2 end_aligned (end_ - end_aligned).

(** __polytracker_union_table, polytracker.cpp:40-46: 0 before initialisation. *)
Definition union_table (init : bool) (t : table) (l r : N) : Res (N * table) :=
  if init then union_taint t l r else Ok (0, t).

(** __dfsan_union, dfsan.cpp:219-231 (the DCHECK is compiled out). *)
Definition dfsan_union_ne (init : bool) (t : table) (l r : N) : Res (N * table) :=
  if l =? 0 then Ok (r, t) else if r =? 0 then Ok (l, t) else union_table init t l r.

(** dfsan_union, dfsan.cpp:298-303. *)
Definition dfsan_union (init : bool) (t : table) (l r : N) : Res (N * table) :=
  if l =? r then Ok (l, t) else dfsan_union_ne init t l r.

(** __dfsan_union_load, dfsan.cpp:233-242: the loop from index 1; [s] is the shadow
    address of the next label, [n] the number of labels left. *)
Fixpoint union_load_loop (init : bool) (m : mem) (t : table) (label s : N) (n : nat) : Res (N * table) :=
  match n with
  | O => Ok (label, t)
  | S k =>
      let next := load_int m s 4 in
      do (label1, t1) <- (if label =? next then Ok (label, t) else dfsan_union_ne init t label next);
      union_load_loop init m t1 label1 (s + 4) k
  end.
(** With n = 0 the C loop would run for 2^64 rounds; dfsan_read_label excludes it. *)
Definition union_load (init : bool) (m : mem) (t : table) (s n : N) : Res (N * table) :=
  union_load_loop init m t (load_int m s 4) (s + 4) (N.to_nat (n - 1)).

(** dfsan_read_label, dfsan.cpp:727-732. *)
Definition read_labels (init : bool) (m : mem) (t : table) (addr size : N) : Res (N * table) :=
  if size =? 0 then Ok (0, t) else union_load init m t (shadow_for addr) size.

(** __dfsan_union_load_fast16labels, dfsan.cpp:244-250: labels combined with OR. *)
Fixpoint or_load_loop (m : mem) (label s : N) (n : nat) : N :=
  match n with
  | O => label
  | S k => or_load_loop m (N.lor label (load_int m s 4)) (s + 4) k
  end.
Definition union_load_fast16 (m : mem) (s n : N) : N :=
  or_load_loop m (load_int m s 4) (s + 4) (N.to_nat (n - 1)).

(** dfsan_add_label, dfsan.cpp:677-692; [s] is labelp. *)
Fixpoint add_label_loop (init : bool) (m : mem) (t : table) (label s : N) (n : nat) : Res (mem * table) :=
  match n with
  | O => Ok (m, t)
  | S k =>
      let old := load_int m s 4 in
      if old =? label then add_label_loop init m t label (s + 4) k
      else
        do (x, t1) <- dfsan_union_ne init t old label;
        add_label_loop init (store_int m s 4 x) t1 label (s + 4) k
  end.
Definition add_label (init : bool) (m : mem) (t : table) (label addr size : N) : Res (mem * table) :=
  if label =? 0 then Ok (m, t)
  else add_label_loop init m t label (shadow_for addr) (N.to_nat size).

(** internal_memmove: the source bytes are read before any byte is written. *)
Definition move (m : mem) (d s n : N) : mem := store m d (load m s n).

(** internal_memcpy: a forward loop over the bytes. *)
Fixpoint copy_loop (m : mem) (d s : N) (n : nat) : mem :=
  match n with
  | O => m
  | S k => copy_loop (store m d [m s]) (d + 1) (s + 1) k
  end.

(** dfsan_memmove, dfsan_custom.cpp:504-509, behind __dfsw_memmove (559-565); the
    result carries the label of the destination pointer. *)
Definition dfsan_memmove (m : mem) (dest src n : N) : mem :=
  move (move m (shadow_for dest) (shadow_for src) (n * 4)) dest src n.
Definition dfsw_memmove (m : mem) (dest src n dest_label : N) : mem * N * N :=
  (dfsan_memmove m dest src n, dest, dest_label).

(** dfsan_memcpy, dfsan_custom.cpp:516-521, behind __dfsw_memcpy (540-545). *)
Definition dfsan_memcpy (m : mem) (dest src n : N) : mem :=
  copy_loop (copy_loop m (shadow_for dest) (shadow_for src) (N.to_nat (n * 4))) dest src (N.to_nat n).
Definition dfsw_memcpy (m : mem) (dest src n dest_label : N) : mem * N * N :=
  (dfsan_memcpy m dest src n, dest, dest_label).

(** dfsan_memset, dfsan_custom.cpp:528-531, behind __dfsw_memset (578-584). *)
Definition dfsan_memset (m : mem) (s c c_label n : N) : mem :=
  set_label (fill m s n (c mod two8)) c_label s n.
Definition dfsw_memset (m : mem) (s c n s_label c_label : N) : mem * N * N :=
  (dfsan_memset m s c c_label n, s, s_label).

(** strlen (libc). *)
Fixpoint strlen (fuel : nat) (m : mem) (p : N) : Res N :=
  match fuel with
  | O => Fuel
  | S f => if m p =? 0 then Ok 0 else do k <- strlen f m (p + 1); Ok (1 + k)
  end.

(** strcat (libc): appends the bytes of [src] with the terminator. *)
Definition libc_strcat (m : mem) (dest dl src sl : N) : mem :=
  move m (dest + dl) src (sl + 1).

(** __dfsw_strcat, dfsan_custom.cpp:596-608. *)
Definition dfsw_strcat (fuel : nat) (m : mem) (dest src dest_label : N) : Res (mem * N * N) :=
  do dl <- strlen fuel m dest;
  do sl0 <- strlen fuel m src;
  let m1 := libc_strcat m dest dl src sl0 in
  do sl <- strlen fuel m1 src;
  Ok (copy_loop m1 (shadow_for (dest + dl)) (shadow_for src) (N.to_nat (sl * 4)), dest, dest_label).

(** __dfsw_strcat, taint_sources/string_taints.cpp:4-11, which PolyTracker also links.
    curr_offset is strlen(dest) - 1, so -1 for an empty destination; the conversion to
    int is not modelled (strings shorter than 2^31). *)
Definition dfsw_strcat_runtime (fuel : nat) (m : mem) (dest src dest_label src_label : N) : Res (mem * N * N) :=
  do dl <- strlen fuel m dest;
  do sl0 <- strlen fuel m src;
  let m1 := libc_strcat m dest dl src sl0 in
  do dl1 <- strlen fuel m1 dest;
  Ok (set_label m1 src_label (dest + dl - 1) (dl1 + 1 - dl), dest, dest_label).

(** __dfsw_strdup, dfsan_custom.cpp:629-636; [p] is what malloc returned. *)
Definition dfsw_strdup (fuel : nat) (m : mem) (s p : N) : Res (mem * N * N) :=
  do k <- strlen fuel m s;
  Ok (dfsan_memcpy m p s (k + 1), p, 0).

(** __dfsw_strncpy, dfsan_custom.cpp:649-663. *)
Definition dfsw_strncpy (fuel : nat) (m : mem) (s1 s2 n s1_label : N) : Res (mem * N * N) :=
  do k <- strlen fuel m s2;
  let m1 :=
    if k <? n then dfsan_memset (dfsan_memcpy m s1 s2 (k + 1)) (s1 + k + 1) 0 0 (n - k - 1)
    else dfsan_memcpy m s1 s2 n in
  Ok (m1, s1, s1_label).

(** dfsan_set_label of one byte; nothing is mapped below kShadowAddr (the first 64 KiB,
    vm.mmap_min_addr), so touching a shadow cell there is undefined. *)
Definition set_label_byte (m : mem) (label addr : N) : Res mem :=
  if shadow_for addr <? SHADOW_ADDR then UB else Ok (set_label m label addr 1).

Fixpoint set_labels (m : mem) (labels : list N) (addr : N) : Res mem :=
  match labels with
  | [] => Ok m
  | l :: r => do m1 <- set_label_byte m l addr; set_labels m1 r (addr + 1)
  end.

(** __dfsw_realloc, taint_sources/memory_taints.cpp:11-45.  [m1] is the memory after libc
    realloc and [new_mem] its result. *)
Definition dfsw_realloc (m m1 : mem) (ptr new_size new_mem : N) : Res (mem * N * N) :=
  let shadow := if negb (ptr =? 0) && (0 <? new_size)
                then map (fun i => label_at m (ptr + i)) (nseq 0 (N.to_nat new_size)) else [] in
  do m2 <- (if negb (new_mem =? ptr) then set_labels m1 shadow new_mem else Ok m1);
  Ok (m2, new_mem, 0).

(** __dfsw_malloc and __dfsw_free, memory_taints.cpp:4-9 and 47: shadow memory is not
    touched.  [m1] is the memory after libc malloc. *)
Definition dfsw_malloc (m1 : mem) (p : N) : mem * N * N := (m1, p, 0).
Definition dfsw_free (m : mem) (p : N) : mem := m.
