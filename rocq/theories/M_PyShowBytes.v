(** polytracker cavities --print-bytes: the bytes in and around a cavity.
    polytracker/mapping.py:166-187 and 216-225.

    Simplifications: bytes and characters are numbers; the file can be read. *)
From Coq Require Import NArith List Bool Arith.
From Verif Require Import M_Base.
Import ListNotations.
Open Scope N_scope.

(** f"{i:x}" for a byte. *)
Definition hex1 (d : N) : N := if d <? 10 then 48 + d else 87 + d.
Definition hex (i : N) : list N := if i <? 16 then [hex1 i] else [hex1 (i / 16); hex1 (i mod 16)].
(** The body of the loop of ascii, mapping.py:168-186. *)
Definition escape (i : N) : list N :=
  if i =? 92 then [92; 92]
  else if i =? 34 then [92; 34]
  else if (32 <=? i) && (i <=? 126) then [i]
  else if i =? 0 then [92; 48]
  else if i =? 10 then [92; 110]
  else if i =? 9 then [92; 116]
  else if i =? 13 then [92; 114]
  else if i <? 10 then [92; 48 + i]
  else [92; 120] ++ hex i.
(** ascii, mapping.py:166-187. *)
Definition ascii (b : list N) : list N := flat_map escape b.

(** contents[a:b] *)
Definition cut (a b : nat) (l : list N) : list N := firstn (b - a) (skipn a l).
(** The two lines printed for a cavity, mapping.py:221-225, without their ends. *)
Definition show_cavity (contents : list N) (begin end_ : nat) : list N * list N :=
  let before := ascii (cut (begin - 10) begin contents) in
  let after := ascii (cut end_ (end_ + 10) contents) in
  let inside := ascii (cut begin end_ contents) in
  ([9; 34] ++ before ++ inside ++ after ++ [34], [9; 32] ++ repeat 32 (length before) ++ repeat 94 (length inside)).
