(** What the C standard says about the libc functions with a DFSan version.  Bytes are
    compared as unsigned char (C11 7.24.4). *)
From Coq Require Import NArith ZArith Bool.
From Verif Require Import M_Base M_Memory M_Labels S_Labels S_Provenance S_Dfsan M_Dfsan M_DfsanStr.
Open Scope N_scope.

(** The lower case of a byte in the C locale. *)
Definition lower (b : N) : N := if (65 <=? b) && (b <=? 90) then b + 32 else b.

(** What a comparison makes of a byte. *)
Definition letter (c : compare_fn) (b : N) : N :=
  match c with Strcasecmp | Strncasecmp _ => lower b | _ => b end.

(** Position [i] takes part in the comparison: it is below the limit and, for strings, not
    behind the terminator of the first string. *)
Definition in_play (c : compare_fn) (m : mem) (s1 i : N) : Prop :=
  match c with
  | Memcmp n | Bcmp n => i < n
  | Strcmp | Strcasecmp => forall j, j < i -> m (s1 + j) <> 0
  | Strncmp n | Strncasecmp n => i < n /\ forall j, j < i -> m (s1 + j) <> 0
  end.

Definition same_letters (c : compare_fn) (m : mem) (s1 s2 n : N) : Prop :=
  forall i, i < n -> letter c (m (s1 + i)) = letter c (m (s2 + i)).

(** The sign of the result: that of the first difference. *)
Inductive ordered (c : compare_fn) (m : mem) (s1 s2 : N) : Z -> Prop :=
| o_equal : (forall i, in_play c m s1 i -> letter c (m (s1 + i)) = letter c (m (s2 + i))) ->
    ordered c m s1 s2 0
| o_less i : in_play c m s1 i -> same_letters c m s1 s2 i -> letter c (m (s1 + i)) < letter c (m (s2 + i)) ->
    ordered c m s1 s2 (-1)
| o_greater i : in_play c m s1 i -> same_letters c m s1 s2 i -> letter c (m (s2 + i)) < letter c (m (s1 + i)) ->
    ordered c m s1 s2 1.

(** A comparison has to look at position [i]. *)
Definition looked (c : compare_fn) (m : mem) (s1 s2 i : N) : Prop :=
  in_play c m s1 i /\ same_letters c m s1 s2 i.

(** The arguments are valid: the comparison ends within [k] bytes. *)
Definition ends (c : compare_fn) (m : mem) (s1 s2 k : N) : Prop :=
  forall i, looked c m s1 s2 i -> i < k.

(** strchr: the first occurrence of the character [c] converted to char, up to and
    including the terminator; null if there is none. *)
Definition as_char (c : Z) : N := Z.to_N (c mod 256).
Inductive strchr_result (m : mem) (s : N) (c : Z) : N -> Prop :=
| found i : m (s + i) = as_char c -> (forall j, j < i -> m (s + j) <> 0 /\ m (s + j) <> as_char c) ->
    strchr_result m s c (s + i)
| not_found k : c_string m s k -> (forall j, j <= k -> m (s + j) <> as_char c) -> strchr_result m s c 0.

(** The results of the forwarded functions. *)
Inductive memchr_result (m : mem) (s : N) (c : Z) (n : N) : N -> Prop :=
| mc_found i : i < n -> m (s + i) = as_char c -> (forall j, j < i -> m (s + j) <> as_char c) ->
    memchr_result m s c n (s + i)
| mc_not_found : (forall j, j < n -> m (s + j) <> as_char c) -> memchr_result m s c n 0.

Definition occurs (m : mem) (accept b : N) : Prop :=
  exists j k, c_string m accept k /\ j < k /\ m (accept + j) = b.
Inductive strpbrk_result (m : mem) (s accept : N) : N -> Prop :=
| pb_found i : occurs m accept (m (s + i)) ->
    (forall j, j < i -> m (s + j) <> 0 /\ ~ occurs m accept (m (s + j))) -> strpbrk_result m s accept (s + i)
| pb_not_found k : c_string m s k -> (forall j, j < k -> ~ occurs m accept (m (s + j))) ->
    strpbrk_result m s accept 0.

Definition starts_at (m : mem) (h i needle k : N) : Prop :=
  forall j, j < k -> m (h + i + j) = m (needle + j).
Inductive strstr_result (m : mem) (h hk needle nk : N) : N -> Prop :=
| ss_found i : i + nk <= hk -> starts_at m h i needle nk -> (forall j, j < i -> ~ starts_at m h j needle nk) ->
    strstr_result m h hk needle nk (h + i)
| ss_not_found : (forall j, j + nk <= hk -> ~ starts_at m h j needle nk) -> strstr_result m h hk needle nk 0.

(** Some byte of [n] bytes at [p] is labelled with something that stands for [b]. *)
Definition read_from (m : mem) (t : table) (p n : N) (b : input_byte) : Prop :=
  exists i, i < n /\ derives (view t) (label_at m (p + i)) b.
