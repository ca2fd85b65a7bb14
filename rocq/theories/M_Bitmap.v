(** Model of polytracker/include/taintdag/bitmap_section.h, single threaded view
    (M_ConcBitmap has the interleaving semantics).  BucketType is uint64_t as in the
    only instance, SourceLabelIndexSection. *)
From Coq Require Import NArith List Bool.
From Verif Require Import M_Base M_Memory.
Import ListNotations.
Open Scope N_scope.

(** bitmap_section.h:45-54. *)
Definition bits_per_bucket : N := 64.
Definition bm_tag : N := 5.
Definition bm_align_of : N := 8.
Definition bucket_count (capacity : N) : N := (capacity + bits_per_bucket - 1) / bits_per_bucket.
Definition bm_allocation_size (capacity : N) : N := 8 * bucket_count capacity.

(** mem_ (its start and size), the template parameter BitCapacity and buckets_used_. *)
Record bitmap := mkBm { bm_beg : N; bm_len : N; bm_cap : N; bm_used : N }.

(** BitmapSectionBase::BitmapSectionBase, bitmap_section.h:63-73. *)
Definition bm_new (cap b e : N) : Res bitmap :=
  if negb ((e - b) mod bm_align_of =? 0) then Exit
  else if e - b <? bm_allocation_size cap then Exit
  else Ok (mkBm b (e - b) cap 0).

(** size, bitmap_section.h:84-86. *)
Definition bm_size (s : bitmap) : N := mul64 (bm_used s) 8.

(** bucket / bucket_value, bitmap_section.h:194-206. *)
Definition bucket_addr (s : bitmap) (i : N) : N := bm_beg s + 8 * i.
Definition bucket_value (m : mem) (s : bitmap) (i : N) : N := load_int m (bucket_addr s i) 8.

Definition all_bits_set : N := 18446744073709551615. (* bitmap_section.h:176-177 *)

(** set_bits, bitmap_section.h:212-221, run by one thread: the compare-exchange
    succeeds.  Returns whether all bits were already set. *)
Definition set_bits (m : mem) (s : bitmap) (i bits : N) : bool * mem :=
  let old := bucket_value m s i in
  if N.land old bits =? bits then (true, m)
  else (false, store_int m (bucket_addr s i) 8 (N.lor old bits)).

(** update_buckets_used, bitmap_section.h:226-234. *)
Definition update_buckets_used (s : bitmap) (bidx : N) : bitmap :=
  let new_max := add64 bidx 1 in
  if new_max <? bm_used s then s else mkBm (bm_beg s) (bm_len s) (bm_cap s) new_max.

(** set, bitmap_section.h:90-105. *)
Definition bm_set (m : mem) (s : bitmap) (bitno : N) : Res (bool * mem * bitmap) :=
  if bm_cap s <=? bitno then Exit
  else
    let bidx := bitno / bits_per_bucket in
    let mask := N.shiftl 1 (bitno mod bits_per_bucket) in
    let (ret, m') := set_bits m s bidx mask in
    Ok (ret, m', update_buckets_used s bidx).

(** The loop over full buckets, bitmap_section.h:142-147. *)
Fixpoint fill_buckets (m : mem) (s : bitmap) (i : N) (n : nat) : mem :=
  match n with
  | O => m
  | S k => fill_buckets (store_int m (bucket_addr s i) 8 all_bits_set) s (i + 1) k
  end.

(** all_bits_set << k on 64 bits. *)
Definition shl64 (a k : N) : N := N.shiftl a k mod two64.

(** set_range, bitmap_section.h:110-158.  A bucket beyond the end of the section would
    be undefined behaviour; it arises only when bit_begin + n wraps at 2^64. *)
Definition bm_set_range (m : mem) (s : bitmap) (bit_begin n : N) : Res (mem * bitmap) :=
  if n =? 0 then Ok (m, s)
  else if bm_cap s <=? bit_begin then Exit
  else if bm_cap s <? add64 bit_begin n then Exit
  else
    let current := bit_begin / bits_per_bucket in
    let start := bit_begin mod bits_per_bucket in
    let '(m1, n1, current1) :=
      if negb (start =? 0) then
        let bit_end := N.min (add64 start n) bits_per_bucket in
        let mask := N.land (shl64 all_bits_set start)
                           (N.shiftr all_bits_set (bits_per_bucket - bit_end)) in
        (snd (set_bits m s current mask), n - (bit_end - start), current + 1)
      else (m, n, current) in
    let n_full := n1 / bits_per_bucket in
    if bm_len s <? 8 * (current1 + (n1 + bits_per_bucket - 1) / bits_per_bucket) then UB
    else
    let m2 := fill_buckets m1 s current1 (N.to_nat n_full) in
    let current2 := current1 + n_full in
    let n2 := n1 - n_full * bits_per_bucket in
    let m3 := if 0 <? n2
              then snd (set_bits m2 s current2 (N.shiftr all_bits_set (bits_per_bucket - n2)))
              else m2 in
    Ok (m3, update_buckets_used s current2).

(** is_set, bitmap_section.h:162-166. *)
Definition bm_is_set (m : mem) (s : bitmap) (bitno : N) : Res bool :=
  if bm_cap s <=? bitno then Exit
  else Ok (negb (N.land (bucket_value m s (bitno / bits_per_bucket))
                        (N.shiftl 1 (bitno mod bits_per_bucket)) =? 0)).
