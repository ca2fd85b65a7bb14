(** How bytes are written, and which are shown. *)
From Coq Require Import NArith List Arith.
From Verif Require Import M_Base.
Import ListNotations.
Open Scope N_scope.

(** Hexadecimal digits: 0-9 and a-f. *)
Definition hex_value (c d : N) : Prop := (48 <= c <= 57 /\ d = c - 48) \/ (97 <= c <= 102 /\ d = c - 87).
(** A text stands for a byte: the character itself, or a backslash and a letter, a digit, or x and
    one or two hexadecimal digits. *)
Inductive stands (b : N) : list N -> Prop :=
| st_self : 32 <= b <= 126 -> b <> 34 -> b <> 92 -> stands b [b]
| st_quoted : b = 34 \/ b = 92 -> stands b [92; b]
| st_newline : b = 10 -> stands b [92; 110]
| st_tab : b = 9 -> stands b [92; 116]
| st_return : b = 13 -> stands b [92; 114]
| st_digit : b < 9 -> stands b [92; 48 + b]
| st_hex1 c : hex_value c b -> stands b [92; 120; c]
| st_hex2 c d x y : hex_value c x -> hex_value d y -> 0 < x -> b = 16 * x + y -> stands b [92; 120; c; d].
(** A text stands for a sequence of bytes. *)
Definition stand_for (bytes text : list N) : Prop := exists ts, Forall2 stands bytes ts /\ text = concat ts.

(** The bytes of a file from one offset up to another. *)
Definition bytes_at (contents : list N) (a b : nat) (l : list N) : Prop :=
  forall k x, nth_error l k = Some x <-> (a + k < b)%nat /\ nth_error contents (a + k) = Some x.
Definition printable (c : N) : Prop := 32 <= c <= 126.
(** Bytes whose hexadecimal form has one digit. *)
Definition one_digit (b : N) : Prop := b = 11 \/ b = 12 \/ b = 14 \/ b = 15.
