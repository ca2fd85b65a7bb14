(** Specification vocabulary for the string table. *)
From Coq Require Import NArith List.
From Verif Require Import M_Base M_Memory M_Section M_StringTable.
Import ListNotations.
Open Scope N_scope.

(** A string is a list of bytes. *)
Definition is_bytes (l : list N) : Prop := Forall (fun b => b < 256) l.

(** Text: a list of Unicode scalar values, and its UTF-8 encoding (RFC 3629). *)
Definition scalar (c : N) : Prop := c <= 1114111 /\ ~ (55296 <= c <= 57343).
Definition utf8_char (c : N) : list N :=
  if c <? 128 then [c]
  else if c <? 2048 then [192 + c / 64; 128 + c mod 64]
  else if c <? 65536 then [224 + c / 4096; 128 + (c / 64) mod 64; 128 + c mod 64]
  else [240 + c / 262144; 128 + (c / 4096) mod 64; 128 + (c / 64) mod 64; 128 + c mod 64].
Definition utf8 (text : list N) : list N := concat (map utf8_char text).

(** The answers to a sequence of add_string calls. *)
Fixpoint add_strings (m : mem) (s : sect) (strs : list (list N)) : Res (list (option N) * mem * sect) :=
  match strs with
  | [] => Ok ([], m, s)
  | x :: rest =>
      do r <- add_string m s x;
      let '(o, m1, s1) := r in
      do q <- add_strings m1 s1 rest;
      let '(l, m2, s2) := q in Ok (o :: l, m2, s2)
  end.

(** The strings that got an offset, in order. *)
Fixpoint accepted (strs : list (list N)) (answers : list (option N)) : list (list N) :=
  match strs, answers with
  | x :: r, Some _ :: q => x :: accepted r q
  | _ :: r, None :: q => accepted r q
  | _, _ => []
  end.
Fixpoint somes {A} (l : list (option A)) : list A :=
  match l with
  | [] => []
  | Some a :: r => a :: somes r
  | None :: r => somes r
  end.

(** The offsets a table of [cap] bytes hands out when [used] bytes are taken: each
    string takes a two byte length and is padded to an even number of bytes. *)
Fixpoint expected_offsets (cap used : N) (strs : list (list N)) : list (option N) :=
  match strs with
  | [] => []
  | x :: r => let n := 2 + len x + len x mod 2 in
              if used + n <=? cap then Some used :: expected_offsets cap (used + n) r
              else None :: expected_offsets cap used r
  end.
