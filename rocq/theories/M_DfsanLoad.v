(** Model of loads with origins: __dfsan_load_label_and_origin,
    polytracker/src/compiler-rt/lib/dfsan/dfsan.cpp (252-269), and loadShadowOrigin,
    polytracker/src/passes/DataFlowSanitizer.cpp (2022-2042, 2191-2300).

    Labels are those of the program's bytes, origins those of groups of four bytes.  The
    union of labels is a parameter, in the order of __dfsan_union_load.  Loads from constants
    and from variables that do not escape (2198-2227) are left out, and so are the other modes
    of labels (the 16-bit ones, 2283-2285), which are off. *)
From Coq Require Import NArith List Bool.
From Verif Require Import M_Base M_DfsanOrigin.
Import ListNotations.
Open Scope N_scope.

(** The loop, 260-267: the labels or-ed, and the first origin that is not 0. *)
Fixpoint load_loop (n : nat) (lab : N -> N) (o : origins) (p label ret : N) : N * N :=
  match n with
  | O => (label, ret)
  | S k =>
      if lab p =? 0 then load_loop k lab o (p + 1) label ret
      else load_loop k lab o (p + 1) (N.lor label (lab p)) (if ret =? 0 then o (p / 4) else ret)
  end.
(** __dfsan_load_label_and_origin, 255-269: 64 bits. *)
Definition load_label_and_origin (lab : N -> N) (o : origins) (addr n : N) : N :=
  let '(label, ret) := load_loop (N.to_nat n) lab o addr 0 0 in N.lor ret (N.shiftl label 32).

(** The labels joined one after the other, as __dfsan_union_load does (dfsan.cpp:233-243). *)
Fixpoint union_load (union : N -> N -> N) (n : nat) (lab : N -> N) (p label : N) : N :=
  match n with
  | O => label
  | S k => union_load union k lab (p + 1) (if label =? lab p then label else union label (lab p))
  end.

(** useCallbackLoadLabelAndOrigin, 2022-2042: labels have 32 bits. *)
Definition use_callback (size : N) (aligned4 : bool) : bool :=
  if size <=? 2 then false else negb (aligned4 && (size mod (64 / 32) =? 0)).
(** loadShadowOrigin, 2191-2300: the label and the origin of the value loaded.  Without the
    call the origin is that of the first group. *)
Definition load_value (union : N -> N -> N) (lab : N -> N) (o : origins) (addr size : N) (aligned4 : bool) : N * N :=
  if size =? 0 then (0, 0)
  else if use_callback size aligned4 then
    let r := load_label_and_origin lab o addr size in (N.shiftr r 32 mod 2 ^ 32, r mod 2 ^ 32)
  else (union_load union (N.to_nat (size - 1)) lab (addr + 1) (lab addr), o (addr / 4)).
