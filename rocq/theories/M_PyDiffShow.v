(** Model of how differences of traces are shown: print_file_context, polytracker/diffing.py:15-67,
    TraceDiff.to_image, 285-296, and file_diff, polytracker/visualizations.py:10-34.

    Simplifications: of the text of print_file_context the line with the bytes, the number in
    "plus ... additional bytes" and the line of marks are kept; indentation and the line with the
    offset are not.  The size that file_diff starts from is computed with floating point numbers
    from the number of bytes; here it is a parameter. *)
From Coq Require Import NArith ZArith List Bool.
From Verif Require Import M_Base M_PyAnalysis M_PyTaints M_PyTree M_PyDiff.
Import ListNotations.
Open Scope N_scope.

(** ** print_file_context *)
(** "%02x" of a byte. *)
Definition hex_digit (d : N) : N := if d <? 10 then 48 + d else 87 + d.
(** The text for a byte, diffing.py:44-55. *)
Definition render (b : N) : list N :=
  if b =? 10 then [92; 110]
  else if b =? 13 then [92; 114]
  else if b =? 92 then [92; 92]
  else if b =? 9 then [92; 116]
  else if (32 <=? b) && (b <=? 126) then [b]
  else [92; 120; hex_digit (b / 16); hex_digit (b mod 16)].
(** The loop, diffing.py:43-61: [hs] and [hl] are highlight_start and highlight_length. *)
Fixpoint show_loop (before length : N) (i : N) (data : list N) (st : Z * Z * Z * list N) : Z * Z * Z * list N :=
  match data with
  | [] => st
  | b :: rest =>
      let '(hs, hl, written, out) := st in
      let hs' := if i =? before then written else hs in
      let hl' := if i =? before + length then (written - hs')%Z else hl in
      show_loop before length (i + 1) rest (hs', hl', (written + Z.of_N (len (render b)))%Z, out ++ render b)
  end.
Record shown := mkShown { sh_text : list N; sh_extra : N; sh_marks : option (N * N) }.
(** diffing.py:15-67: the marks are blanks and then carets.  [context] is num_bytes_context,
    [most] max_highlight_bytes. *)
Definition print_file_context (content : list N) (offset length context most : N) : shown :=
  let extra := if most <? length then length - most else 0 in
  let length := if most <? length then most else length in
  let before := context / 2 in
  let context := if 0 <? extra then before else context in
  let before := if offset <? before then offset else before in
  let start := offset - before in
  let data := firstn (N.to_nat (length + context)) (skipn (N.to_nat start) content) in
  let '(hs, hl, written, out) := show_loop before length 0 data ((-1)%Z, (-1)%Z, 0%Z, []) in
  let hl := if (hl <? 0)%Z && (0 <=? hs)%Z then (written - hs)%Z else hl in
  mkShown out extra (if (0 <? hl)%Z then Some (Z.to_N hs, Z.to_N hl) else None).

(** ** file_diff *)
Inductive color := White | Blue | Red | Black.
(** The loop at visualizations.py:18-19. *)
Fixpoint grow (fuel : nat) (width height n : N) : Res N :=
  if width * height <? n then match fuel with O => Fuel | S f => grow f width (height + 1) n end else Ok height.
(** An image; putpixel outside of it is an exception. *)
Record image := mkImage { im_width : N; im_height : N; im_pixel : N -> N -> color }.
Definition putpixel (im : image) (col row : N) (c : color) : Res image :=
  if (col <? im_width im) && (row <? im_height im)
  then Ok (mkImage (im_width im) (im_height im) (fun x y => if (x =? col) && (y =? row) then c else im_pixel im x y))
  else Exit.
(** visualizations.py:21-33. *)
Definition paint (in_first in_second : N -> bool) (im : image) (i : N) : Res image :=
  let first := in_first i in
  let second := in_second i in
  if negb (first && second) then
    let row := i / im_width im in
    let col := i mod im_width im in
    if first then putpixel im col row Blue else if second then putpixel im col row Red else putpixel im col row Black
  else Ok im.
Fixpoint paint_all (in_first in_second : N -> bool) (im : image) (l : list N) : Res image :=
  match l with [] => Ok im | i :: r => do im' <- paint in_first in_second im i; paint_all in_first in_second im' r end.
(** visualizations.py:10-34; [w] and [h] are the width and height of lines 16-17. *)
Definition file_diff (fuel : nat) (w h n : N) (in_first in_second : N -> bool) : Res image :=
  do h' <- grow fuel w h n;
  paint_all in_first in_second (mkImage w h' (fun _ _ => White)) (py_range 0 n).
(** IntervalTree.overlaps(p); "source in intervals and ...". *)
Definition holds_byte (d : touches) (x : py_input) (p : N) : bool :=
  match dict_get input_eqb d x with
  | Some s => existsb (fun i => (iv_begin i <=? Z.of_N p)%Z && (Z.of_N p <? iv_end i)%Z) s
  | None => false
  end.
(** to_image, diffing.py:285-296: the loop returns after the first of the inputs, in the
    arbitrary order of a set; [None] without inputs.  [sources] are the inputs with their sizes. *)
Definition to_image (fuel : nat) (has : bool) (w h : N) (t1 t2 : trace) (sources : list (py_input * N)) : Res (option image) :=
  do a <- touched_by has [] t1; do b <- touched_by has [] t2;
  let d1 := merged a in let d2 := merged b in
  if assertion d1 d2 then
    match sources with
    | [] => Ok None
    | (x, n) :: _ => do im <- file_diff fuel w h n (holds_byte d1 x) (holds_byte d2 x); Ok (Some im)
    end
  else Exit.
