(** Model of polytracker/include/taintdag/union.h. *)
From Coq Require Import NArith List Bool.
From Verif Require Import M_Base M_Encoding.
Import ListNotations.
Open Scope N_scope.

(** ReturnValue, union.h:15. *)
Inductive union_ret : Type :=
| RLabel (l : N)
| RTaint (t : taint).

(** The four overloads of encloses, union.h:17-32. *)
Definition encloses_union_label (lower higher l : N) : bool :=
  (higher =? l) || (lower =? l).
Definition encloses_range_label (first last l : N) : bool :=
  (first <=? l) && (l <=? last).
Definition encloses_range_union (first last lower higher : N) : bool :=
  (first <=? lower) && (higher <=? last).
Definition encloses_range_range (first last first' last' : N) : bool :=
  (first <=? first') && (last' <=? last).

Definition ret_range (first last : N) : Res union_ret :=
  do t <- mk_range first last false; Ok (RTaint t).

(** Visitor::union_labels, union.h:201-209; label arithmetic wraps at 32 bits. *)
Definition union_labels (left right : N) : Res union_ret :=
  if add32 left 1 =? right then ret_range left right
  else if add32 right 1 =? left then ret_range right left
  else do t <- mk_union left right false; Ok (RTaint t).

(** Visitor::range_source, union.h:137-149.  [left right] are the members left_
    and right_ of the visitor. *)
Definition range_source (left right first last rlabel sourcelabel : N) : Res union_ret :=
  if encloses_range_label first last sourcelabel then Ok (RLabel rlabel)
  else if add32 sourcelabel 1 =? first then ret_range sourcelabel last
  else if add32 last 1 =? sourcelabel then ret_range first sourcelabel
  else union_labels left right.

(** Visitor::union_source, union.h:151-163. *)
Definition union_source (left right lower higher ulabel sourcelabel : N) : Res union_ret :=
  if encloses_union_label lower higher sourcelabel then Ok (RLabel ulabel)
  else union_labels left right.

(** union.h:184-188 and 196: the tail of Visitor::union_range. *)
Definition union_range_tail (left right ulabel first last : N) : Res union_ret :=
  if add32 ulabel 1 =? first then ret_range ulabel last
  else if add32 last 1 =? ulabel then ret_range first ulabel
  else union_labels left right.

(** Visitor::union_range, union.h:165-197. *)
Definition union_range (left right lower higher ulabel first last rlabel : N) : Res union_ret :=
  if encloses_range_label first last ulabel then Ok (RLabel rlabel)
  else if encloses_range_union first last lower higher then Ok (RLabel rlabel)
  else if encloses_union_label lower higher rlabel then Ok (RLabel ulabel)
  else if add32 lower 1 =? first then
    if encloses_range_label first last higher then ret_range lower last
    else if higher =? add32 last 1 then ret_range lower higher
    else union_range_tail left right ulabel first last
  else if higher =? add32 last 1 then
    if encloses_range_label first last lower then ret_range first higher
    else union_range_tail left right ulabel first last
  else union_range_tail left right ulabel first last.

(** compute / the overloads of Visitor::operator(), union.h:47-126, 220-223. *)
Definition compute (left : N) (l : taint) (right : N) (r : taint) : Res union_ret :=
  match l, r with
  | TSource _ li lo, TSource _ ri ro =>                               (* 47-52 *)
      if (li =? ri) && (lo =? ro) then Ok (RLabel left) else union_labels left right
  | TUnion _ ll lh, TUnion _ rl rh =>                                 (* 54-82 *)
      if encloses_union_label ll lh right then Ok (RLabel left)
      else if encloses_union_label rl rh left then Ok (RLabel right)
      else if (lh =? rh) && (ll =? rl) then Ok (RLabel left)
      else union_labels left right
  | TRange _ lf llast, TRange _ rf rlast =>                           (* 84-102 *)
      if encloses_range_label lf llast right then Ok (RLabel left)
      else if encloses_range_label rf rlast left then Ok (RLabel right)
      else if encloses_range_range lf llast rf rlast then Ok (RLabel left)
      else if encloses_range_range rf rlast lf llast then Ok (RLabel right)
      else if add32 llast 1 =? rf then ret_range lf rlast
      else if add32 rlast 1 =? lf then ret_range rf llast
      else union_labels left right
  | TSource _ _ _, TUnion _ rl rh => union_source left right rl rh right left  (* 104-106 *)
  | TSource _ _ _, TRange _ rf rlast => range_source left right rf rlast right left (* 108-110 *)
  | TUnion _ ll lh, TSource _ _ _ => union_source left right ll lh left right  (* 112-114 *)
  | TUnion _ ll lh, TRange _ rf rlast =>                                       (* 116-118 *)
      union_range left right ll lh left rf rlast right
  | TRange _ lf llast, TSource _ _ _ => range_source left right lf llast left right (* 120-122 *)
  | TRange _ lf llast, TUnion _ rl rh =>                                       (* 124-126 *)
      union_range left right rl rh right lf llast left
  end.
