(** Model of polytracker/include/taintdag/taint.h (types and constants) and
    polytracker/src/taintdag/encoding.cpp, include/taintdag/encoding.h. *)
From Coq Require Import NArith List Bool.
From Verif Require Import M_Base.
Import ListNotations.
Open Scope N_scope.

(** taint.h:30-58 constants. *)
Definition source_taint_bit_shift : N := 63.          (* taint.h:31 *)
Definition affects_control_flow_shift : N := 62.      (* taint.h:32 *)
Definition mask_affects_control_flow : N :=           (* taint.h:34-35, ~(1<<62) on 64 bits *)
  18446744073709551615 - 4611686018427387904.
Definition label_bits : N := 31.                      (* taint.h:41 *)
Definition max_label : N := 2147483647.               (* taint.h:42 *)
Definition val1_shift : N := label_bits.              (* taint.h:45 *)
Definition label_mask : N := max_label.               (* taint.h:46 *)
Definition source_index_bits : N := 8.                (* taint.h:50 *)
Definition max_source_index : N := 255.               (* taint.h:51 *)
Definition source_index_mask : N := max_source_index.  (* taint.h:52 *)
Definition source_offset_bits : N := 54.              (* taint.h:55 *)
Definition max_source_offset : N := 18014398509481983. (* taint.h:57-58, 2^54-1 *)

(** taint.h:66-143.  [Taint] is the variant of the three structs; the base class
    field affects_control_flow is the first argument.  Source offsets are
    int64_t in the code; the model uses [N]: negative offsets are rejected by
    Offset::from_off_t (src/taintdag/util.cpp) before they reach this layer. *)
Inductive taint : Type :=
| TSource (cf : bool) (index offset : N)
| TRange  (cf : bool) (first last : N)
| TUnion  (cf : bool) (lower higher : N).

(** RangeTaint::RangeTaint, taint.h:98-103; a failed assert is [UB]. *)
Definition mk_range (first last : N) (cf : bool) : Res taint :=
  if first <? last then Ok (TRange cf first last) else UB.

(** UnionTaint::UnionTaint, taint.h:118-132; asserts on 32-bit label arithmetic. *)
Definition mk_union (label1 label2 : N) (cf : bool) : Res taint :=
  if label1 =? label2 then UB
  else if label1 =? add32 label2 1 then UB
  else if label2 =? add32 label1 1 then UB
  else if label1 <? label2 then Ok (TUnion cf label1 label2)
  else Ok (TUnion cf label2 label1).

Definition b2n (b : bool) : N := if b then 1 else 0.

(** encode, encoding.cpp:26-56, line by line.  [val |= rt.last] (line 42) is not
    masked in the code either.  Shifts are on 64 bits; with the masks in place no
    bit is shifted out, so the shift needs no truncation. *)
Definition encode (t : taint) : N :=
  match t with
  | TSource cf index offset =>
      let val := N.shiftl 1 source_taint_bit_shift in
      let val := N.lor val (N.shiftl (b2n cf) affects_control_flow_shift) in
      let val := N.lor val (N.shiftl (N.land offset max_source_offset) source_index_bits) in
      N.lor val (N.land index source_index_mask)
  | TRange cf first last =>
      let val := N.shiftl 0 source_taint_bit_shift in
      let val := N.lor val (N.shiftl (b2n cf) affects_control_flow_shift) in
      let val := N.lor val last in
      N.lor val (N.shiftl (N.land first label_mask) val1_shift)
  | TUnion cf lower higher =>
      let val := N.shiftl 0 source_taint_bit_shift in
      let val := N.lor val (N.shiftl (b2n cf) affects_control_flow_shift) in
      let val := N.lor val (N.shiftl (N.land label_mask higher) val1_shift) in
      N.lor val (N.land lower label_mask)
  end.

(** decode, encoding.cpp:58-79. *)
Definition decode (encoded : N) : Res taint :=
  let cf := negb (N.land (N.shiftr encoded affects_control_flow_shift) 1 =? 0) in
  if negb (N.land (N.shiftr encoded source_taint_bit_shift) 1 =? 0) then
    let idx := N.land encoded source_index_mask in
    let off := N.land (N.shiftr encoded source_index_bits) max_source_offset in
    Ok (TSource cf idx off)
  else
    let a := N.land (N.shiftr encoded val1_shift) label_mask in
    let b := N.land encoded label_mask in
    if a =? b then Exit
    else if a <? b then mk_range a b cf
    else mk_union a b cf.

(** is_source_taint, encoding.cpp:81-83. *)
Definition is_source_taint (encoded : N) : bool :=
  negb (N.land (N.shiftr encoded source_taint_bit_shift) 1 =? 0).

(** add_affects_control_flow, encoding.cpp:85-87. *)
Definition add_affects_control_flow (encoded : N) : N :=
  N.lor encoded (N.shiftl 1 affects_control_flow_shift).

(** check_affects_control_flow, encoding.cpp:89-91. *)
Definition check_affects_control_flow (encoded : N) : bool :=
  negb (N.land (N.shiftr encoded affects_control_flow_shift) 1 =? 0).

(** equal_ignore_cf, encoding.h:34-36. *)
Definition equal_ignore_cf (e1 e2 : N) : bool :=
  N.land e1 mask_affects_control_flow =? N.land e2 mask_affects_control_flow.
