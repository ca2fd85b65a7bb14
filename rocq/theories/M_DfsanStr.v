(** The DFSan versions of the libc functions that compare, search and convert strings
    and memory (polytracker/src/compiler-rt/lib/dfsan/dfsan_custom.cpp).
    [strict] is flags().strict_data_dependencies (dfsan_flags.inc:25-27, default true).
    Every wrapper returns its value, the label written to *ret_label and the label table.
    Simplified: results of libc functions the wrapper only forwards are an argument of
    the model; arguments of a call of dfsan_union are evaluated from left to right; the
    weak hooks are not defined. *)
From Coq Require Import NArith ZArith List Bool.
From Verif Require Import M_Base M_Memory M_Labels M_Dfsan.
Import ListNotations.
Open Scope N_scope.

(** A char is signed on x86-64: the value of byte [b] read as a char. *)
Definition schar (b : N) : Z := if b <? 128 then Z.of_N b else (Z.of_N b - 256)%Z.

(** dfsan_strchr_with_label, dfsan_custom.cpp:123-131, the loop from index [i]: the
    position (0 for null) and *bytes_read.  [c] is an int, s[i] a char. *)
Fixpoint strchr_loop (fuel : nat) (m : mem) (s : N) (c : Z) (i : N) : Res (N * N) :=
  match fuel with
  | O => Fuel
  | S f =>
      let ch := schar (m (s + i)) in
      if (ch =? c)%Z || (ch =? 0)%Z
      then Ok ((if (ch =? 0)%Z && negb (c =? 0)%Z then 0 else s + i), i + 1)
      else strchr_loop f m s c (i + 1)
  end.

(** dfsan_strchr_with_label, 119-138, behind __dfsw_strchr, 140-147. *)
Definition dfsw_strchr (strict init : bool) (fuel : nat) (m : mem) (t : table)
    (s : N) (c : Z) (s_label c_label : N) : Res (N * N * table) :=
  do (match_pos, bytes_read) <- strchr_loop fuel m s c 0;
  if strict then Ok (match_pos, s_label, t)
  else
    do (l1, t1) <- read_labels init m t s bytes_read;
    do (l2, t2) <- dfsan_union init t1 s_label c_label;
    do (l, t3) <- dfsan_union init t2 l1 l2;
    Ok (match_pos, l, t3).

(** dfsan_memcmp_bcmp, 206-217, the loop from index [i] with [n] bytes left: the result
    and *bytes_read. *)
Fixpoint memcmp_loop (m : mem) (s1 s2 i : N) (n : nat) : Z * N :=
  match n with
  | O => (0%Z, i)
  | S k =>
      let a := schar (m (s1 + i)) in
      let b := schar (m (s2 + i)) in
      if negb (a =? b)%Z then ((a - b)%Z, i + 1) else memcmp_loop m s1 s2 (i + 1) k
  end.

(** dfsan_strncmp, 303-311, the loop from index [i]; n = 0 means no limit. *)
Fixpoint strncmp_loop (fuel : nat) (m : mem) (s1 s2 n i : N) : Res (Z * N) :=
  match fuel with
  | O => Fuel
  | S f =>
      let a := schar (m (s1 + i)) in
      let b := schar (m (s2 + i)) in
      if negb (a =? b)%Z || (a =? 0)%Z || (b =? 0)%Z || ((0 <? n) && (i =? n - 1))
      then Ok ((a - b)%Z, i + 1)
      else strncmp_loop f m s1 s2 n (i + 1)
  end.

(** tolower (libc) in the C locale. *)
Definition tolower (c : Z) : Z := if ((65 <=? c) && (c <=? 90))%Z then (c + 32)%Z else c.

(** dfsan_strncasecmp, 348-360; the conversion of the int to char loses nothing in the C
    locale. *)
Fixpoint strncasecmp_loop (fuel : nat) (m : mem) (s1 s2 n i : N) : Res (Z * N) :=
  match fuel with
  | O => Fuel
  | S f =>
      let a := tolower (schar (m (s1 + i))) in
      let b := tolower (schar (m (s2 + i))) in
      if negb (a =? b)%Z || (m (s1 + i) =? 0) || (m (s2 + i) =? 0) || ((0 <? n) && (i =? n - 1))
      then Ok ((a - b)%Z, i + 1)
      else strncasecmp_loop f m s1 s2 n (i + 1)
  end.

(** dfsan_get_memcmp_label, 219-224. *)
Definition memcmp_label (strict init : bool) (m : mem) (t : table) (s1 s2 pos : N) : Res (N * table) :=
  if strict then Ok (0, t)
  else
    do (l1, t1) <- read_labels init m t s1 pos;
    do (l2, t2) <- read_labels init m t1 s2 pos;
    dfsan_union init t2 l1 l2.

(** The comparison functions of libc with a DFSan version. *)
Inductive compare_fn : Type :=
| Memcmp (n : N) | Bcmp (n : N) | Strcmp | Strncmp (n : N) | Strcasecmp | Strncasecmp (n : N).

(** __dfsw_memcmp (264-273), __dfsw_bcmp (285-291), __dfsw_strcmp (322-332),
    __dfsw_strncmp (394-411), __dfsw_strcasecmp (362-371), __dfsw_strncasecmp (433-445). *)
Definition dfsw_compare (strict init : bool) (fuel : nat) (c : compare_fn) (m : mem) (t : table)
    (s1 s2 : N) : Res (Z * N * table) :=
  do (r, bytes_read) <-
    match c with
    | Memcmp n | Bcmp n => Ok (memcmp_loop m s1 s2 0 (N.to_nat n))
    | Strcmp => strncmp_loop fuel m s1 s2 0 0
    | Strncmp n => if n =? 0 then Ok (0%Z, 0) else strncmp_loop fuel m s1 s2 n 0
    | Strcasecmp => strncasecmp_loop fuel m s1 s2 0 0
    | Strncasecmp n => if n =? 0 then Ok (0%Z, 0) else strncasecmp_loop fuel m s1 s2 n 0
    end;
  do (l, t1) <- memcmp_label strict init m t s1 s2 bytes_read;
  Ok (r, l, t1).

(** __dfsw_strlen, 482-491. *)
Definition dfsw_strlen (strict init : bool) (fuel : nat) (m : mem) (t : table) (s : N) : Res (N * N * table) :=
  do k <- strlen fuel m s;
  if strict then Ok (k, 0, t)
  else do (l, t1) <- read_labels init m t s (k + 1); Ok (k, l, t1).

(** __dfsw_strpbrk, 165-182; [ret] is what strpbrk returned. *)
Definition dfsw_strpbrk (strict init : bool) (fuel : nat) (m : mem) (t : table)
    (s accept s_label accept_label ret : N) : Res (N * N * table) :=
  if strict then Ok (ret, (if ret =? 0 then 0 else s_label), t)
  else
    do k <- (if ret =? 0 then strlen fuel m s else Ok (ret - s));
    do (l1, t1) <- read_labels init m t s (k + 1);
    do ka <- strlen fuel m accept;
    do (l2, t2) <- read_labels init m t1 accept (ka + 1);
    do (l3, t3) <- dfsan_union init t2 s_label accept_label;
    do (l4, t4) <- dfsan_union init t3 l2 l3;
    do (l, t5) <- dfsan_union init t4 l1 l4;
    Ok (ret, l, t5).

(** __dfsw_memchr, 1793-1809; [ret] is what memchr returned. *)
Definition dfsw_memchr (strict init : bool) (m : mem) (t : table)
    (s n s_label c_label ret : N) : Res (N * N * table) :=
  if strict then Ok (ret, (if ret =? 0 then 0 else s_label), t)
  else
    let k := if ret =? 0 then n else ret - s + 1 in
    do (l1, t1) <- read_labels init m t s k;
    do (l2, t2) <- dfsan_union init t1 s_label c_label;
    do (l, t3) <- dfsan_union init t2 l1 l2;
    Ok (ret, l, t3).

(** __dfsw_strrchr, 1829-1844; [ret] is what strrchr returned. *)
Definition dfsw_strrchr (strict init : bool) (fuel : nat) (m : mem) (t : table)
    (s s_label c_label ret : N) : Res (N * N * table) :=
  if strict then Ok (ret, (if ret =? 0 then 0 else s_label), t)
  else
    do k <- strlen fuel m s;
    do (l1, t1) <- read_labels init m t s (k + 1);
    do (l2, t2) <- dfsan_union init t1 s_label c_label;
    do (l, t3) <- dfsan_union init t2 l1 l2;
    Ok (ret, l, t3).

(** __dfsw_strstr, 1862-1880; [ret] is what strstr returned. *)
Definition dfsw_strstr (strict init : bool) (fuel : nat) (m : mem) (t : table)
    (haystack needle haystack_label needle_label ret : N) : Res (N * N * table) :=
  if strict then Ok (ret, (if ret =? 0 then 0 else haystack_label), t)
  else
    do kn <- strlen fuel m needle;
    do k <- (if ret =? 0 then do kh <- strlen fuel m haystack; Ok (kh + 1) else Ok (ret + kn - haystack));
    do (l1, t1) <- read_labels init m t haystack k;
    do (l2, t2) <- read_labels init m t1 needle (kn + 1);
    do (l3, t3) <- dfsan_union init t2 haystack_label needle_label;
    do (l4, t4) <- dfsan_union init t3 l2 l3;
    do (l, t5) <- dfsan_union init t4 l1 l4;
    Ok (ret, l, t5).

(** dfsan_strtolong_label, 1143-1154, and dfsan_strtod_label, 1204-1214 (with no base):
    [end_] is where libc stopped. *)
Definition strto_label (init : bool) (m : mem) (t : table) (nptr end_ base_label : N) : Res (N * table) :=
  if nptr <? end_ then
    do (l, t1) <- read_labels init m t nptr (end_ - nptr + (if m end_ =? 0 then 1 else 0));
    dfsan_union init t1 base_label l
  else Ok (0, t).

(** dfsan_strtol and its siblings (1134-1141, 1196-1202, 1243-1250, 1278-1285,
    1311-1318): *endptr is written by uninstrumented code. *)
Definition store_endptr (m : mem) (endptr end_ : N) : mem :=
  if endptr =? 0 then m else store_int m endptr 8 end_.

(** __dfsw_strtol (1173-1181), strtoll (1253-1261), strtoul (1288-1296), strtoull
    (1321-1330) and, with base label 0, strtod (1217-1223): the memory, the label of the
    result and the table.  The result itself is the result of libc. *)
Definition dfsw_strto (init : bool) (m : mem) (t : table) (nptr endptr end_ base_label : N) : Res (mem * N * table) :=
  let m1 := store_endptr m endptr end_ in
  do (l, t1) <- strto_label init m1 t nptr end_ base_label;
  Ok (m1, l, t1).

(** __dfsw_strcpy, 1106-1116. *)
Definition dfsw_strcpy (fuel : nat) (m : mem) (dest src dst_label : N) : Res (mem * N * N) :=
  do k0 <- strlen fuel m src;
  let m1 := copy_loop m dest src (N.to_nat (k0 + 1)) in
  do k <- strlen fuel m1 src;
  Ok (copy_loop m1 (shadow_for dest) (shadow_for src) (N.to_nat ((k + 1) * 4)), dest, dst_label).

(** dfsan_set_label, dfsan.cpp:666-675, for any address: nothing is mapped below
    kShadowAddr, so reading or writing a shadow cell there is undefined; releasing pages
    that are not mapped (ReleaseMemoryPagesToOS, madvise) has no effect on them. *)
Definition touches (a n : N) : bool := (0 <? n) && (a <? SHADOW_ADDR).
Definition set_label_any (m : mem) (label addr size : N) : Res mem :=
  let beg := shadow_for addr in
  let end_ := shadow_for (add64 addr size) in
  let beg_aligned := round_up beg in
  let end_aligned := round_down end_ in
  let bad :=
    if negb (label =? 0) || (end_aligned <=? beg_aligned + 8 * PAGE) then touches beg size
    else touches beg (beg_aligned - beg) || touches end_aligned (end_ - end_aligned) in
  if bad then UB else Ok (set_label m label addr size).

(** __dfsw_calloc, 463-471.  [m1] is the memory after libc calloc and [p] its result; the
    product is computed with wrap-around. *)
Definition dfsw_calloc (m1 : mem) (nmemb size p : N) : Res (mem * N * N) :=
  do m2 <- set_label_any m1 0 p (mul64 nmemb size);
  Ok (m2, p, 0).
