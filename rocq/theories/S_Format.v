(** What the C standard says about sprintf and snprintf (C11 7.21.6.1, 7.21.6.5, 7.21.6.6). *)
From Coq Require Import NArith ZArith List Bool.
From Verif Require Import M_Base M_Memory M_Dfsan S_Dfsan M_DfsanFormat.
Import ListNotations.
Open Scope N_scope.

(** A format is a sequence of ordinary characters, "%%" and directives: "%", flags, width,
    precision and length modifier, and a conversion specifier. *)
Inductive item : Type :=
| Ordinary (b : N)
| Percent
| Directive (middle : list N) (specifier : N).

Definition spelling (i : item) : list N :=
  match i with
  | Ordinary b => [b]
  | Percent => [37; 37]
  | Directive mid c => 37 :: mid ++ [c]
  end.

Definition star : N := 42.
(** The letters of length modifiers: h l q j z t L. *)
Definition is_length (b : N) : bool := existsb (N.eqb b) [104; 108; 113; 106; 122; 116; 76].
(** Flags - + space # 0 ', digits, period, star. *)
Definition is_flag (b : N) : bool := existsb (N.eqb b) [45; 43; 32; 35; 48; 39; 49; 50; 51; 52; 53; 54; 55; 56; 57; 46; 42].

Definition stars (mid : list N) : nat := length (filter (N.eqb star) mid).

(** The type of the argument of specifier [c] with length modifier [len]. *)
Inductive converts : list N -> N -> kind -> Prop :=
| c_int l c : In c [100; 105; 111; 117; 120; 88] -> In l [[]; [104]; [104; 104]] -> converts l c KInt
| c_long l c : In c [100; 105; 111; 117; 120; 88] -> In l [[108]; [108; 108]; [113]; [106]; [122]; [116]] -> converts l c KLong
| c_double l c : In c [97; 65; 101; 69; 102; 70; 103; 71] -> In l [[]; [108]] -> converts l c KDouble
| c_long_double c : In c [97; 65; 101; 69; 102; 70; 103; 71] -> converts [76] c KLongDouble
| c_char : converts [] 99 KInt
| c_string : converts [] 115 KPtr
| c_pointer : converts [] 112 KPtr.

(** [i] is a valid item that reads arguments of types [ks].  Not covered: more than one
    star, n, and specifiers of GNU or for wide characters. *)
Inductive valid : item -> list kind -> Prop :=
| v_ordinary b : b <> 0 -> b <> 37 -> valid (Ordinary b) []
| v_percent : valid Percent []
| v_directive flags l c k :
    forallb is_flag flags = true -> (stars flags <= 1)%nat -> converts l c k ->
    valid (Directive (flags ++ l) c) (repeat KInt (stars flags) ++ [k]).

(** The memory outside [n] bytes at [str], the buffer, decides what libc makes of a
    directive. *)
Definition renders (render : renderer) (m : mem) (str n : N) (chunk : list N) (used : list arg) (piece : list N) : Prop :=
  forall m', (forall x, app_byte x -> ~ within str n x -> m' x = m x) ->
  render chunk (map (fun a => (a_kind a, a_value a)) used) m' = Some piece.

(** [items] with arguments [args] produce the text [out]: its bytes, each with the label it
    should have: no label for what the format itself contributes, the label of the argument,
    and for "%s" the label of the byte of the string ([None]: no claim is made, for
    strings with a width or a precision).  Star arguments are not negative, and
    strings do not overlap the buffer. *)
Inductive produces (render : renderer) (m : mem) (str n : N) : list item -> list arg -> list (N * option N) -> Prop :=
| p_nil args : produces render m str n [] args []
| p_ordinary b items args out : valid (Ordinary b) [] -> produces render m str n items args out ->
    produces render m str n (Ordinary b :: items) args ((b, Some 0) :: out)
| p_percent items args out : produces render m str n items args out ->
    produces render m str n (Percent :: items) args ((37, Some 0) :: out)
| p_value mid c star_args v items args piece out :
    c <> 115 -> valid (Directive mid c) (map a_kind (star_args ++ [v])) ->
    Forall (fun a => a_value a < 2147483648) star_args ->
    renders render m str n (37 :: mid ++ [c]) (star_args ++ [v]) piece ->
    produces render m str n items args out ->
    produces render m str n (Directive mid c :: items) (star_args ++ v :: args) (map (fun b => (b, Some (a_label v))) piece ++ out)
| p_string s items args piece out :
    a_kind s = KPtr -> renders render m str n [37; 115] [s] piece ->
    app_range (a_value s) (len piece) -> apart str n (a_value s) (len piece) ->
    produces render m str n items args out ->
    produces render m str n (Directive [] 115 :: items) (s :: args)
      (combine piece (map (fun i => Some (label_at m (a_value s + i))) (nseq 0 (length piece))) ++ out)
| p_padded mid star_args v items args piece out :
    valid (Directive mid 115) (map a_kind (star_args ++ [v])) ->
    Forall (fun a => a_value a < 2147483648) star_args ->
    renders render m str n (37 :: mid ++ [115]) (star_args ++ [v]) piece ->
    produces render m str n items args out ->
    produces render m str n (Directive mid 115 :: items) (star_args ++ v :: args) (map (fun b => (b, None)) piece ++ out).

(** snprintf puts at most [size] - 1 characters of the text and a terminator into the
    buffer, and nothing if [size] is 0. *)
Definition kept (size : N) (text : list N) : N := N.min (len text) (size - 1).
Definition room (size : N) (text : list N) : N := if size =? 0 then 0 else kept size text + 1.
Definition printed (m m' : mem) (str size : N) (text : list N) : Prop :=
  (0 < size -> load m' str (kept size text) = firstn (N.to_nat (kept size text)) text /\ m' (str + kept size text) = 0) /\
  (forall x, app_byte x -> ~ within str (room size text) x -> m' x = m x).

(** libc renders characters without "%" as they are, and "%%" as "%". *)
Definition plain_text (render : renderer) : Prop :=
  (forall m l, ~ In 0 l -> ~ In 37 l -> render l [] m = Some l) /\
  (forall m, render [37; 37] [] m = Some [37]).

(** The format [items] at address [fmt], clear of the buffer. *)
Definition format_at (m : mem) (fmt : N) (items : list item) (str n : N) : Prop :=
  let s := flat_map spelling items ++ [0] in
  load m fmt (len s) = s /\ app_range fmt (len s) /\ apart str n fmt (len s).
