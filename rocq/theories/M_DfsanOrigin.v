(** Model of the origins of tainted bytes, polytracker/src/compiler-rt/lib/dfsan/dfsan.cpp
    (317-330, 374-532, 564-571): four bytes of the program share one origin.

    Addresses are those of the program's bytes; as shadow_for and unaligned_origin_for
    (dfsan.h:65-87) add or multiply by constants that keep the alignment, origins are indexed
    by address / 4 and labels by address.  A label has 32 bits, so the 64 bits read through
    src_s are two labels.  ChainOrigin (351-372) is a function [chain] of the origin, for the
    stack trace of one call.  The addresses have valid shadow (320-325 and 487-492 are left
    out) and do not wrap. *)
From Coq Require Import NArith List Bool.
From Verif Require Import M_Base.
Import ListNotations.
Open Scope N_scope.

Definition origins : Type := N -> N.
Definition put (o : origins) (c v : N) : origins := fun x => if x =? c then v else o x.

(** SetOrigin, 524-528: two cells at a time, from [c] on. *)
Fixpoint set_pairs (n : nat) (o : origins) (c origin : N) : origins :=
  match n with
  | O => o
  | S k =>
      let o1 := if (o c =? origin) && (o (c + 1) =? origin) then o
                else put (put o c origin) (c + 1) origin in
      set_pairs k o1 (c + 2) origin
  end.
(** SetOrigin, 506-532; cells instead of bytes from 514 on. *)
Definition set_origin (o : origins) (x size origin : N) : origins :=
  if size =? 0 then o
  else
    let beg := x / 4 in
    let fin := (x + size + 3) / 4 in
    let '(o1, beg1) :=
      if N.odd beg then ((if o beg =? origin then o else put o beg origin), beg + 1)
      else (o, beg) in
    let o2 := set_pairs (N.to_nat (fin / 2 - beg1 / 2)) o1 beg1 origin in
    if N.odd fin then (if o2 (fin - 1) =? origin then o2 else put o2 (fin - 1) origin) else o2.

(** GetOriginIfTainted, 317-330. *)
Fixpoint origin_if_tainted (n : nat) (lab : N -> N) (o : origins) (addr : N) : N :=
  match n with
  | O => 0
  | S k => if lab addr =? 0 then origin_if_tainted k lab o (addr + 1) else o (addr / 4)
  end.
(** ChainAndWriteOriginIfTainted, 383-390. *)
Definition chain_and_write (chain : N -> N) (lab : N -> N) (o : origins) (src size dst : N) : origins :=
  let g := origin_if_tainted (N.to_nat size) lab o src in
  if g =? 0 then o else put o (dst / 4) (chain g).

(** Whether the 64 bits of shadow from the label at [i] on are zero, 429 and 466. *)
Definition no_labels (lab : N -> N) (i : N) : bool := (lab i =? 0) && (lab (i + 1) =? 0).
(** 428-436: [n] cells, upwards. *)
Fixpoint copy_up (n : nat) (chain lab : N -> N) (o : origins) (src_o src_s dst_o last_src last_dst : N) : origins :=
  match n with
  | O => o
  | S k =>
      if no_labels lab src_s then copy_up k chain lab o (src_o + 1) (src_s + 2) (dst_o + 1) last_src last_dst
      else
        let '(ls, ld) := if o src_o =? last_src then (last_src, last_dst) else (o src_o, chain (o src_o)) in
        copy_up k chain lab (put o dst_o ld) (src_o + 1) (src_s + 2) (dst_o + 1) ls ld
  end.
(** CopyOrigin, 397-437. *)
Definition copy_origin (chain lab : N -> N) (o : origins) (d s size : N) : origins :=
  let beg0 := d / 4 * 4 in
  let '(o1, beg) := if beg0 <? d then (chain_and_write chain lab o s (beg0 + 4 - d) beg0, beg0 + 4) else (o, beg0) in
  let fin := (d + size) / 4 * 4 in
  if fin <? beg then o1
  else
    let o2 := if fin <? d + size then chain_and_write chain lab o1 (s + (fin - d)) (d + size - fin) fin else o1 in
    if fin <=? beg then o2
    else
      let sa := (s + 3) / 4 * 4 in
      copy_up (N.to_nat ((fin - beg) / 4)) chain lab o2 (sa / 4) sa (beg / 4) 0 0.

(** 465-473: [n] cells, downwards. *)
Fixpoint copy_down (n : nat) (chain lab : N -> N) (o : origins) (src_o src_s dst_o last_src last_dst : N) : origins :=
  match n with
  | O => o
  | S k =>
      if no_labels lab src_s then copy_down k chain lab o (src_o - 1) (src_s - 2) (dst_o - 1) last_src last_dst
      else
        let '(ls, ld) := if o src_o =? last_src then (last_src, last_dst) else (o src_o, chain (o src_o)) in
        copy_down k chain lab (put o dst_o ld) (src_o - 1) (src_s - 2) (dst_o - 1) ls ld
  end.
(** ReverseCopyOrigin, 442-479. *)
Definition reverse_copy_origin (chain lab : N -> N) (o : origins) (d s size : N) : origins :=
  let fin := (d + size) / 4 * 4 in
  let o1 := if fin <? d + size then chain_and_write chain lab o (s + (fin - d)) (d + size - fin) fin else o in
  let beg := d / 4 * 4 in
  let o2 :=
    if beg + 4 <? fin then
      let sa := (s + 3) / 4 * 4 in
      let top := sa + fin - beg - 4 in
      copy_down (N.to_nat ((fin - beg) / 4)) chain lab o1 (top / 4) top (fin / 4 - 1) 0 0
    else o1 in
  if beg <? d then chain_and_write chain lab o2 s (beg + 4 - d) beg else o2.

(** MoveOrigin, 485-503. *)
Definition move_origin (chain lab : N -> N) (o : origins) (d s size : N) : origins :=
  if (d / 4 <? (s + size) / 4) && (s / 4 <=? d / 4) then reverse_copy_origin chain lab o d s size
  else copy_origin chain lab o d s size.
(** __dfsan_mem_origin_transfer, 564-571. *)
Definition mem_origin_transfer (chain lab : N -> N) (o : origins) (d s size : N) : origins :=
  if s =? d then o else move_origin chain lab o d s size.
