(** Model of labelling and storing with origins, polytracker/src/compiler-rt/lib/dfsan/dfsan.cpp
    (349-372, 580-590, 625-635, 660-692) and of the call that
    polytracker/src/passes/DataFlowSanitizer.cpp (2440-2458) makes for a store, or the code it adds instead (2392-2427, 2459-2468).

    Labels are those of the program's bytes, written as in M_Dfsan, where the shadow is
    modelled; origin tracking is on.  Pages of origins that are released when a label is
    removed (592-612) are left as they are: their bytes have no label.  The union of labels is
    a parameter.  Messages for debugging (360-365) are left out. *)
From Coq Require Import NArith List Bool.
From Verif Require Import M_Base M_DfsanOrigin M_DfsanChain.
Import ListNotations.
Open Scope N_scope.

Record world : Type := mkWorld { w_label : N -> N; w_origin : origins; w_depot : depot }.

Definition in_range (x size a : N) : bool := (x <=? a) && (a <? x + size).

(** ChainOrigin, 351-372. *)
Definition chain_origin (in_signal : bool) (f : limits) (d : depot) (id stack : N) : Res (depot * N) :=
  if in_signal then Ok (d, id) else create_chained f d id stack.

(** dfsan_set_label, 665-675, with SetShadow, 625-635; [stack] is that of the call. *)
Definition set_label (in_signal : bool) (f : limits) (w : world) (stack label addr size : N) : Res world :=
  let labels := fun a => if in_range addr size a then label else w_label w a in
  if label =? 0 then Ok (mkWorld labels (w_origin w) (w_depot w))
  else
    do c <- chain_origin in_signal f (w_depot w) 0 stack;
    Ok (mkWorld labels (set_origin (w_origin w) addr size (snd c)) (fst c)).

(** dfsan_add_label, 677-692. *)
Definition add_label (union : N -> N -> N) (in_signal : bool) (f : limits) (w : world) (stack label addr size : N) : Res world :=
  if label =? 0 then Ok w
  else
    do c <- chain_origin in_signal f (w_depot w) 0 stack;
    Ok (mkWorld (fun a => if in_range addr size a && negb (w_label w a =? label) then union (w_label w a) label else w_label w a)
          (set_origin (w_origin w) addr size (snd c)) (fst c)).

(** __dfsan_maybe_store_origin, 580-590: the label is a u16 there, although labels have 32
    bits.  (The bits above are not read as the C++ type says; a compiler that relies on the
    caller to clear them may read them.) *)
Definition maybe_store_origin (in_signal : bool) (f : limits) (w : world) (stack s p size o : N) : Res world :=
  if s mod 2 ^ 16 =? 0 then Ok w
  else
    do c <- chain_origin in_signal f (w_depot w) o stack;
    Ok (mkWorld (w_label w) (set_origin (w_origin w) p size (snd c)) (fst c)).
(** A store of a value with label [s] and origin [o], instrumented with a call
    (DataFlowSanitizer.cpp:2453-2458): the origin and then the label of every byte. *)
Definition store_value (in_signal : bool) (f : limits) (w : world) (stack s o addr size : N) : Res world :=
  do w1 <- maybe_store_origin in_signal f w stack s addr size o;
  Ok (mkWorld (fun a => if in_range addr size a then s else w_label w1 a) (w_origin w1) (w_depot w1)).

(** paintOrigin, DataFlowSanitizer.cpp:2392-2427, from the cell of the address
    (getShadowOriginAddress, 1814-1833) on: pairs of cells if the store is aligned to 8 bytes,
    and then single ones. *)
Fixpoint paint_pairs (n : nat) (o : origins) (c origin : N) : origins :=
  match n with O => o | S k => paint_pairs k (put (put o c origin) (c + 1) origin) (c + 2) origin end.
Fixpoint paint_cells (n : nat) (o : origins) (c origin : N) : origins :=
  match n with O => o | S k => paint_cells k (put o c origin) (c + 1) origin end.
Definition paint_origin (aligned8 : bool) (o : origins) (c origin size : N) : origins :=
  let pairs := if aligned8 then size / 8 else 0 in
  paint_cells (N.to_nat ((size + 3) / 4 - 2 * pairs)) (paint_pairs (N.to_nat pairs) o c origin) (c + 2 * pairs) origin.
(** A store instrumented without a call, 2459-2468. *)
Definition store_inline (in_signal : bool) (f : limits) (w : world) (aligned8 : bool) (stack s o addr size : N) : Res world :=
  let labels := fun a => if in_range addr size a then s else w_label w a in
  if s =? 0 then Ok (mkWorld labels (w_origin w) (w_depot w))
  else
    do c <- chain_origin in_signal f (w_depot w) o stack;
    Ok (mkWorld labels (paint_origin aligned8 (w_origin w) (addr / 4) (snd c) size) (fst c)).
