(** Specification vocabulary for the taint words of the label table. *)
From Coq Require Import NArith.
From Verif Require Import M_Encoding.
Open Scope N_scope.

(** The taints the format documents: 8-bit source index, 54-bit offset, 31-bit
    labels, non-empty ranges, ordered and non-adjacent unions. *)
Definition documented (t : taint) : Prop :=
  match t with
  | TSource _ index offset => index <= 255 /\ offset <= 2 ^ 54 - 1
  | TRange _ first last => first < last /\ last <= 2 ^ 31 - 1
  | TUnion _ lower higher => lower + 1 < higher /\ higher <= 2 ^ 31 - 1
  end.

(** The same taint with the control-flow flag set. *)
Definition with_flag (t : taint) : taint :=
  match t with
  | TSource _ i o => TSource true i o
  | TRange _ f l => TRange true f l
  | TUnion _ a b => TUnion true a b
  end.

Definition flag_of (t : taint) : bool :=
  match t with TSource c _ _ => c | TRange c _ _ => c | TUnion c _ _ => c end.
