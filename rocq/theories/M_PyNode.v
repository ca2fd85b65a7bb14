(** Model of the node classes and of TDFile.decode_node,
    polytracker/taint_dag.py:358-403, 439-449, 539-559. *)
From Coq Require Import NArith Bool.
From Verif Require Import M_Base.
Open Scope N_scope.

(** taint_dag.py:358-403; the flag is the attribute affects_control_flow.  For a
    union [left] is the first constructor argument. *)
Inductive py_node : Type :=
| PyUntainted
| PySource (idx offset : N) (cf : bool)
| PyRange (first last : N) (cf : bool)
| PyUnion (left right : N) (cf : bool).

(** TDFile.__init__, taint_dag.py:442-449. *)
Definition py_source_taint_bit_shift : N := 63.
Definition py_affects_control_flow_bit_shift : N := 62.
Definition py_label_bits : N := 31.
Definition py_label_mask : N := 2147483647.
Definition py_val1_shift : N := py_label_bits.
Definition py_source_index_mask : N := 255.
Definition py_source_index_bits : N := 8.
Definition py_source_offset_mask : N := 18014398509481983. (* (1 << 54) - 1 *)

(** TDFile.decode_node, taint_dag.py:539-559; [v] is the result of read_node(label). *)
Definition py_decode_node (label v : N) : py_node :=
  if label =? 0 then PyUntainted
  else
    let st := N.land (N.shiftr v py_source_taint_bit_shift) 1 in
    let affects_cf := negb (N.land (N.shiftr v py_affects_control_flow_bit_shift) 1 =? 0) in
    if negb (st =? 0) then
      let idx := N.land v py_source_index_mask in
      let offset := N.land (N.shiftr v py_source_index_bits) py_source_offset_mask in
      PySource idx offset affects_cf
    else
      let v1 := N.land (N.shiftr v py_val1_shift) py_label_mask in
      let v2 := N.land v py_label_mask in
      if v2 <? v1 then PyUnion v1 v2 affects_cf
      else PyRange v1 v2 affects_cf.
