(** polytracker/include/taintdag/bitmap_section.h under concurrency: every access to a
    bucket or to buckets_used_ is one atomic step. *)
From Coq Require Import NArith List Bool.
From Verif Require Import M_Base M_Memory M_Bitmap M_Conc.
Import ListNotations.
Open Scope N_scope.

(** A call to set or set_range. *)
Inductive bcall : Type :=
| CSet (bitno : N)
| CRange (bit_begin n : N).

(** The atomic accesses a call still has to perform. *)
Inductive baction : Type :=
| ALoad (k bits : N)          (* set_bits: the first load, line 213 *)
| ACas (k bits old : N)       (* set_bits: compare_exchange_weak with [old] expected, line 218 *)
| AStore (k : N)              (* set_range: bucket(k).store(all_bits_set), line 146 *)
| AUsedLoad (new : N)         (* update_buckets_used: the load, line 228 *)
| AUsedCas (new old : N).     (* update_buckets_used: compare_exchange_weak, line 232 *)

(** The accesses of a call, in program order: set (bitmap_section.h:90-105) and set_range
    (110-158) up to the loops inside set_bits and update_buckets_used.  error_exit is [Exit],
    a bucket outside of the section [UB]. *)
Definition accesses (cap len : N) (c : bcall) : Res (list baction) :=
  match c with
  | CSet bitno =>
      if cap <=? bitno then Exit
      else let bidx := bitno / bits_per_bucket in
           Ok [ALoad bidx (N.shiftl 1 (bitno mod bits_per_bucket)); AUsedLoad (add64 bidx 1)]
  | CRange bit_begin n =>
      if n =? 0 then Ok []
      else if cap <=? bit_begin then Exit
      else if cap <? add64 bit_begin n then Exit
      else
        let current := bit_begin / bits_per_bucket in
        let start := bit_begin mod bits_per_bucket in
        let '(a1, n1, current1) :=
          if negb (start =? 0) then
            let bit_end := N.min (add64 start n) bits_per_bucket in
            let mask := N.land (shl64 all_bits_set start)
                               (N.shiftr all_bits_set (bits_per_bucket - bit_end)) in
            ([ALoad current mask], n - (bit_end - start), current + 1)
          else ([], n, current) in
        let n_full := n1 / bits_per_bucket in
        if len <? 8 * (current1 + (n1 + bits_per_bucket - 1) / bits_per_bucket) then UB
        else
          let current2 := current1 + n_full in
          let n2 := n1 - n_full * bits_per_bucket in
          Ok (a1 ++ map AStore (nseq current1 (N.to_nat n_full)) ++
              (if 0 <? n2 then [ALoad current2 (N.shiftr all_bits_set (bits_per_bucket - n2))] else []) ++
              [AUsedLoad (add64 current2 1)])
  end.

Record bshared := mkBs { bs_mem : mem; bs_map : bitmap }.
Definition bs_used (s : bshared) : N := bm_used (bs_map s).
Definition set_used (s : bshared) (v : N) : bshared :=
  mkBs (bs_mem s) (mkBm (bm_beg (bs_map s)) (bm_len (bs_map s)) (bm_cap (bs_map s)) v).

Record bthread := mkBt { bt_now : list baction; bt_todo : list bcall }.

(** One access.  [fail] makes a weak compare-exchange fail although the value is the
    expected one. *)
Definition bstep (i : N) (fail : bool) (t : bthread) (s : bshared) : option (bthread * bshared) :=
  let go now s' := Some (mkBt now (bt_todo t), s') in
  match bt_now t with
  | [] =>
      match bt_todo t with
      | [] => None
      | c :: rest => match accesses (bm_cap (bs_map s)) (bm_len (bs_map s)) c with
                     | Ok l => Some (mkBt l rest, s)
                     | _ => None
                     end
      end
  | ALoad k bits :: r =>
      let old := bucket_value (bs_mem s) (bs_map s) k in
      if N.land old bits =? bits then go r s else go (ACas k bits old :: r) s
  | ACas k bits old :: r =>
      let cur := bucket_value (bs_mem s) (bs_map s) k in
      if (cur =? old) && negb fail
      then go r (mkBs (store_int (bs_mem s) (bucket_addr (bs_map s) k) 8 (N.lor old bits)) (bs_map s))
      else if N.land cur bits =? bits then go r s else go (ACas k bits cur :: r) s
  | AStore k :: r =>
      go r (mkBs (store_int (bs_mem s) (bucket_addr (bs_map s) k) 8 all_bits_set) (bs_map s))
  | AUsedLoad new :: r =>
      let old := bs_used s in
      if new <? old then go r s else go (AUsedCas new old :: r) s
  | AUsedCas new old :: r =>
      let cur := bs_used s in
      if (cur =? old) && negb fail then go r (set_used s new)
      else if new <? cur then go r s else go (AUsedCas new cur :: r) s
  end.

Definition bstart (m : mem) (b : bitmap) (progs : list (list bcall)) : bshared * list bthread :=
  (mkBs m b, map (mkBt []) progs).
