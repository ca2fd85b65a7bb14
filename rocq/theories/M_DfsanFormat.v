(** sprintf and snprintf of the DFSan runtime
    (polytracker/src/compiler-rt/lib/dfsan/dfsan_custom.cpp:2162-2463).
    What libc's snprintf makes of one chunk of the format is a parameter, [renderer].
    Simplified: origins are left out; a failing snprintf leaves the buffer alone; malloc
    of the chunk succeeds; a pointer is a number, additions to it do not wrap. *)
From Coq Require Import NArith ZArith List Bool.
From Verif Require Import M_Base M_Memory M_Labels M_Dfsan M_DfsanStr.
Import ListNotations.
Open Scope N_scope.

(** The types va_arg is used with (long, long long, intmax_t and size_t are all 64 bits
    wide and passed alike on x86-64). *)
Inductive kind : Type := KInt | KLong | KDouble | KLongDouble | KPtr.
Definition kind_eqb (a b : kind) : bool :=
  match a, b with
  | KInt, KInt | KLong, KLong | KDouble, KDouble | KLongDouble, KLongDouble | KPtr, KPtr => true
  | _, _ => false
  end.

(** One variadic argument: its type, its value and the label in va_labels. *)
Record arg : Type := mk_arg { a_kind : kind; a_value : N; a_label : N }.

(** va_arg; a wrong type or a missing argument is undefined. *)
Definition va_arg (k : kind) (args : list arg) : Res (arg * list arg) :=
  match args with
  | a :: rest => if kind_eqb (a_kind a) k then Ok (a, rest) else UB
  | [] => UB
  end.

(** The value of an int given by 32 bits. *)
Definition to_int (v : N) : Z :=
  let w := v mod two32 in if w <? 2147483648 then Z.of_N w else (Z.of_N w - 4294967296)%Z.

(** The text libc produces for a chunk and arguments; [None] for an error. *)
Definition renderer : Type := list N -> list (kind * N) -> mem -> option (list N).

(** How many arguments a chunk makes libc read: one for every star and one for the
    directive itself. *)
Definition needs (chunk : list N) : N :=
  match chunk with
  | 37 :: rest => if last rest 0 =? 37 then 0 else len (filter (N.eqb 42) rest) + 1
  | _ => 0
  end.

(** snprintf(p, avail, chunk, vals...): the memory and the return value. *)
Definition libc_snprintf (render : renderer) (m : mem) (p avail : N) (chunk : list N) (vals : list (kind * N)) : Res (mem * Z) :=
  if len vals <? needs chunk then UB
  else
    match render chunk vals m with
    | None => Ok (m, (-1)%Z)
    | Some text =>
        if len text <? 2147483648
        then Ok ((if avail =? 0 then m else store m p (firstn (N.to_nat (N.min (avail - 1) (len text))) text ++ [0])), Z.of_N (len text))
        else Ok (m, (-1)%Z)
    end.

(** The room left, 2175, 2185 and 2211: str_off < size ? size - str_off : 0. *)
Definition avail (size off : N) : N := if off <? size then size - off else 0.

(** Formatter::num_written_bytes, 2206-2224. *)
Definition num_written_bytes (size off : N) (retval : Z) : N :=
  if (retval <? 0)%Z then 0
  else
    let num_avail := avail size off in
    if num_avail =? 0 then 0
    else
      let num_written := Z.to_N retval in
      if num_avail <=? num_written then num_written - num_avail else num_written.

(** What is done with the labels of a chunk: dfsan_set_label, or a copy of those of the
    string argument. *)
Inductive labelling : Type := Set_label (l : N) | Copy_labels (arg : N).

(** Formatter::format and the call that follows it: the chunk between fmt_start and
    fmt_cur is formatted, then the labels are set. *)
Definition emit (render : renderer) (m : mem) (str size off : N) (chunk : list N) (vals : list (kind * N)) (lab : labelling)
    : Res (mem * Z) :=
  do (m1, retval) <- libc_snprintf render m (str + off) (avail size off) chunk vals;
  let n := num_written_bytes size off retval in
  do m2 <- match lab with
           | Set_label l => set_label_any m1 l (str + off) n
           | Copy_labels a => Ok (copy_loop m1 (shadow_for (str + off)) (shadow_for a) (N.to_nat (n * 4)))
           end;
  Ok (m2, retval).

(** 2261-2262: the last character of a constant chunk that starts at [cur]. *)
Fixpoint literal_end (fuel : nat) (m : mem) (cur : N) : Res N :=
  match fuel with
  | O => Fuel
  | S f => if negb (m (cur + 1) =? 0) && negb (m (cur + 1) =? 37) then literal_end f m (cur + 1) else Ok cur
  end.

(** The conversion specifiers of the switch, 2271-2405: "diouxX", "aAeEfFgG", "c", "s",
    "p", "n", "%". *)
Inductive conv : Type := Cint | Cfloat | Cchar | Cstr | Cptr | Ccount | Cpercent.
Definition conv_of (b : N) : option conv :=
  match b with
  | 100 | 105 | 111 | 117 | 120 | 88 => Some Cint
  | 97 | 65 | 101 | 69 | 102 | 70 | 103 | 71 => Some Cfloat
  | 99 => Some Cchar
  | 115 => Some Cstr
  | 112 => Some Cptr
  | 110 => Some Ccount
  | 37 => Some Cpercent
  | _ => None
  end.

(** The loop 2270-2406 up to the conversion specifier ([None]: the end of the format):
    where it is, the last star argument (-1: none) and the arguments left. *)
Fixpoint scan (fuel : nat) (m : mem) (cur : N) (width : Z) (args : list arg) : Res (N * option conv * Z * list arg) :=
  match fuel with
  | O => Fuel
  | S f =>
      let b := m (cur + 1) in
      match conv_of b with
      | Some c => Ok (cur + 1, Some c, width, args)
      | None =>
          if b =? 42 then do (a, rest) <- va_arg KInt args; scan f m (cur + 1) (to_int (a_value a)) rest
          else if b =? 0 then Ok (cur + 1, None, width, args)
          else scan f m (cur + 1) width args
      end
  end.

(** The type of the argument of an integer conversion at [e], 2278-2304. *)
Definition int_kind (m : mem) (e : N) : kind :=
  match m (e - 1) with
  | 104 => KInt
  | 108 | 113 | 106 | 122 | 116 => KLong
  | _ => KInt
  end.
(** The same for floating point, 2323-2327. *)
Definition float_kind (m : mem) (e : N) : kind := if m (e - 1) =? 76 then KLongDouble else KDouble.

(** Formatter::format(arg), 2181-2193: the width is passed on if it is not negative. *)
Definition with_width (width : Z) (a : arg) : list (kind * N) :=
  (if (0 <=? width)%Z then [(KInt, Z.to_N width)] else []) ++ [(a_kind a, a_value a)].

(** format_buffer, 2247-2423, from the head of its loop: the memory, the return value and
    what is written to *ret_label ([None]: nothing). *)
Fixpoint format_loop (fuel : nat) (render : renderer) (m : mem) (str size off cur : N) (args : list arg)
    : Res (mem * Z * option N) :=
  match fuel with
  | O => Fuel
  | S f =>
      if m cur =? 0 then Ok (m, to_int off, Some 0)
      else
        do (m1, retval, e, args1) <-
          (if negb (m cur =? 37) then
             do e <- literal_end f m cur;
             do (m1, r) <- emit render m str size off (load m cur (e - cur + 1)) [] (Set_label 0);
             Ok (m1, r, e, args)
           else
             do (e, c, width, args0) <- scan f m cur (-1)%Z args;
             let chunk := load m cur (e - cur + 1) in
             let directive k :=
               do (a, rest) <- va_arg k args0;
               do (m1, r) <- emit render m str size off chunk (with_width width a) (Set_label (a_label a));
               Ok (m1, r, e, rest) in
             match c with
             | Some Cint => directive (int_kind m e)
             | Some Cfloat => directive (float_kind m e)
             | Some Cchar => directive KInt
             | Some Cstr =>
                 do (a, rest) <- va_arg KPtr args0;
                 do (m1, r) <- emit render m str size off chunk (with_width width a) (Copy_labels (a_value a));
                 Ok (m1, r, e, rest)
             | Some Cptr => directive KPtr
             | Some Ccount =>
                 do (a, rest) <- va_arg KPtr args0;
                 do m2 <- set_label_any (store_int m (a_value a) 4 (off mod two32)) 0 (a_value a) 8;
                 Ok (m2, 0%Z, e, rest)
             | Some Cpercent =>
                 do (m1, r) <- emit render m str size off chunk [] (Set_label 0);
                 Ok (m1, r, e, args0)
             | None => Ok (m, 0%Z, e, args0)
             end);
        if (retval <? 0)%Z then Ok (m1, retval, None)
        else format_loop f render m1 str size (off + Z.to_N retval) (e + 1) args1
  end.

(** __dfsw_snprintf, 2452-2463, and __dfsw_sprintf, 2426-2436. *)
Definition dfsw_snprintf (fuel : nat) (render : renderer) (m : mem) (str size fmt : N) (args : list arg) : Res (mem * Z * option N) :=
  format_loop fuel render m str size 0 fmt args.
Definition dfsw_sprintf (fuel : nat) (render : renderer) (m : mem) (str fmt : N) (args : list arg) : Res (mem * Z * option N) :=
  format_loop fuel render m str (two64 - 1) 0 fmt args.
