(** Model of the section readers of polytracker/taint_dag.py.  A section is the list of
    its bytes (mem[hdr.offset : hdr.offset + hdr.size]).  A raised exception (ValueError
    of from_buffer_copy on a short buffer, AssertionError, UnicodeDecodeError,
    IndexError) is [Exit]; since the readers are generators consumed by the analyses to
    the end, the elements yielded before an exception are not kept. *)
From Coq Require Import NArith ZArith List Bool.
From Verif Require Import M_Base M_Sources.
Import ListNotations.
Open Scope N_scope.

(** buffer[a:b] for 0 <= a <= b. *)
Definition py_slice (l : list N) (a b : N) : list N :=
  firstn (N.to_nat (b - a)) (skipn (N.to_nat a) l).

(** c_uintK.from_buffer_copy(l, a).value *)
Definition py_uint (k : nat) (l : list N) (a : N) : Res N :=
  if len l <? a + N.of_nat k then Exit else Ok (le_val (py_slice l a (a + N.of_nat k))).

(** c_intK.value: two's complement. *)
Definition py_signed (bits v : N) : Z :=
  if v <? 2 ^ (bits - 1) then Z.of_N v else (Z.of_N v - 2 ^ Z.of_N bits)%Z.

(** "for offset in range(0, len(mem), k): yield T.from_buffer_copy(mem[offset:])":
    the list of k-byte records; a trailing partial record raises. *)
Fixpoint py_records (fuel : nat) (k : N) (l : list N) : Res (list (list N)) :=
  match l with
  | [] => Ok []
  | _ :: _ =>
      match fuel with
      | O => Fuel
      | S f => if len l <? k then Exit
               else do r <- py_records f k (skipn (N.to_nat k) l);
                    Ok (firstn (N.to_nat k) l :: r)
      end
  end.
(** One step consumes at least one byte when k >= 1. *)
Definition py_enumerate (k : N) (l : list N) : Res (list (list N)) := py_records (length l) k l.

Fixpoint py_map {A B} (f : A -> Res B) (l : list A) : Res (list B) :=
  match l with
  | [] => Ok []
  | a :: r => do b <- f a; do s <- py_map f r; Ok (b :: s)
  end.

(** bytes.decode("utf-8"), strict: the list of code points.  (Python's decoder, not part
    of /repo.) *)
Definition cont (b : N) : bool := (128 <=? b) && (b <=? 191).
Fixpoint utf8_decode (l : list N) : option (list N) :=
  match l with
  | [] => Some []
  | b0 :: r0 =>
      if b0 <? 128 then option_map (cons b0) (utf8_decode r0)
      else if b0 <? 194 then None
      else if b0 <? 224 then
        match r0 with
        | b1 :: r1 => if cont b1
                      then option_map (cons ((b0 - 192) * 64 + (b1 - 128))) (utf8_decode r1)
                      else None
        | _ => None
        end
      else if b0 <? 240 then
        match r0 with
        | b1 :: b2 :: r2 =>
            let c := (b0 - 224) * 4096 + (b1 - 128) * 64 + (b2 - 128) in
            if cont b1 && cont b2 && (2048 <=? c) && negb ((55296 <=? c) && (c <=? 57343))
            then option_map (cons c) (utf8_decode r2) else None
        | _ => None
        end
      else if b0 <? 245 then
        match r0 with
        | b1 :: b2 :: b3 :: r3 =>
            let c := (b0 - 240) * 262144 + (b1 - 128) * 4096 + (b2 - 128) * 64 + (b3 - 128) in
            if cont b1 && cont b2 && cont b3 && (65536 <=? c) && (c <=? 1114111)
            then option_map (cons c) (utf8_decode r3) else None
        | _ => None
        end
      else None
  end.

(** TDStringSection.read_string, taint_dag.py:107-113. *)
Definition py_read_string (section : list N) (offset : N) : Res (list N) :=
  do n <- py_uint 2 section offset;
  if len section <? offset + 2 + n then Exit
  else match utf8_decode (py_slice section (offset + 2) (offset + 2 + n)) with
       | Some s => Ok s
       | None => Exit
       end.

(** TDLabelSection, taint_dag.py:126-130. *)
Definition py_read_raw (section : list N) (label : N) : Res N := py_uint 8 section (label * 8).
Definition py_label_count (section : list N) : N := len section / 8.

(** TDFDHeader and TDSourceSection.enumerate, taint_dag.py:91-93, 338-351. *)
Record py_fdhdr := mkFd { fd_name_offset : N; fd_fd : Z; fd_size : N }.
Definition py_fdhdr_of (r : list N) : py_fdhdr :=
  mkFd (le_val (py_slice r 0 4)) (py_signed 32 (le_val (py_slice r 4 8))) (le_val (py_slice r 8 16)).
Definition py_sources (section : list N) : Res (list py_fdhdr) :=
  do rs <- py_enumerate 16 section; Ok (map py_fdhdr_of rs).

(** TDSink and TDSinkSection.enumerate, taint_dag.py:275-277, 406-413 (sizeof = 16). *)
Record py_sink := mkSink { sk_offset : Z; sk_label : N; sk_fdidx : N }.
Definition py_sink_of (r : list N) : py_sink :=
  mkSink (py_signed 64 (le_val (py_slice r 0 8))) (le_val (py_slice r 8 12)) (le_val (py_slice r 12 13)).
Definition py_sinks (section : list N) : Res (list py_sink) :=
  do rs <- py_enumerate 16 section; Ok (map py_sink_of rs).

(** TDFnHeader and TDFunctionsSection.__iter__, taint_dag.py:320-326, 354-355. *)
Definition py_functions (section : list N) : Res (list N) :=
  do rs <- py_enumerate 4 section; Ok (map le_val rs).

(** TDEvent and TDEventsSection.__iter__, taint_dag.py:329-335, 416-424 (sizeof = 4):
    pairs (kind, fnidx). *)
Definition py_event_of (r : list N) : N * N := (le_val (py_slice r 0 1), le_val (py_slice r 2 4)).
Definition py_events (section : list N) : Res (list (N * N)) :=
  do rs <- py_enumerate 4 section; Ok (map py_event_of rs).

(** TDBitmapSection.__init__ and enumerate_set_bits, taint_dag.py:288-307. *)
Fixpoint py_bucket_bits (bucket index i : N) (n : nat) : list N :=
  match n with
  | O => []
  | S k => (if N.land (N.shiftr bucket i) 1 =? 0 then [] else [index])
           ++ py_bucket_bits bucket (index + 1) (i + 1) k
  end.
Fixpoint py_buckets (index : N) (buckets : list N) : list N :=
  match buckets with
  | [] => []
  | b :: r => (if b =? 0 then [] else py_bucket_bits b index 0 64) ++ py_buckets (index + 64) r
  end.
Definition py_set_bits (section : list N) : Res (list N) :=
  if negb (len section mod 8 =? 0) then Exit
  else do rs <- py_enumerate 8 section; Ok (py_buckets 0 (map le_val rs)).

(** TDControlFlowLogSection._decode_varint, taint_dag.py:203-214. *)
Fixpoint py_varint (shift val : N) (buffer : list N) : N * list N :=
  match buffer with
  | [] => (val, [])
  | curr :: r =>
      let val' := N.lor val (N.shiftl (N.land curr 127) shift) in
      if N.land curr 128 =? 0 then (val', r) else py_varint (shift + 7) val' r
  end.
Definition py_decode_varint (buffer : list N) : N * list N := py_varint 0 0 buffer.

(** The three event classes, taint_dag.py:133-187; [A] is the type of call stack
    entries: function ids, or names once function_id_mapping was called (260-262).
    Call stacks are lists whose last element is the innermost function. *)
Inductive py_cf_event (A : Type) : Type :=
| PyEnter (callstack : list A)
| PyLeave (callstack : list A)
| PyTainted (callstack : list A) (label : N).
Arguments PyEnter {A}.
Arguments PyLeave {A}.
Arguments PyTainted {A}.

(** TDControlFlowLogSection, taint_dag.py:216-258.  [translate] is the lookup in
    funcmapping (None raises IndexError); it is [Some] when funcmapping is None. *)
Section CfLog.
  Context {A : Type} (eqb : A -> A -> bool) (translate : N -> option A).

  (** callstack.pop(), callstack[-1]: the model keeps the stack reversed, innermost
      first, and reverses it in the events. *)
  Fixpoint py_align (target : A) (stack : list A) : list (py_cf_event A) * list A :=
    match stack with
    | [] => ([], [])
    | top :: rest =>
        if eqb top target then ([], stack)
        else let (es, s) := py_align target rest in (PyLeave (rev stack) :: es, s)
    end.

  (** The final _align_callstack(-1, callstack): no entry equals -1. *)
  Fixpoint py_drain (stack : list A) : list (py_cf_event A) :=
    match stack with
    | [] => []
    | top :: rest => PyLeave (rev stack) :: py_drain rest
    end.

  (** __iter__; every iteration consumes at least the event byte. *)
  Fixpoint py_cf_loop (fuel : nat) (buffer : list N) (stack : list A) : Res (list (py_cf_event A)) :=
    match buffer with
    | [] => Ok (py_drain stack)
    | event :: b0 =>
        match fuel with
        | O => Fuel
        | S f =>
            let (fid, b1) := py_decode_varint b0 in
            match translate fid with
            | None => Exit
            | Some fn =>
                if event =? 0 then
                  do r <- py_cf_loop f b1 (fn :: stack);
                  Ok (PyEnter (rev (fn :: stack)) :: r)
                else if event =? 1 then
                  let (es, s) := py_align fn stack in
                  match s with
                  | [] => Exit
                  | _ :: s' => do r <- py_cf_loop f b1 s'; Ok (es ++ PyLeave (rev s) :: r)
                  end
                else
                  let (es, s) := py_align fn stack in
                  let (label, b2) := py_decode_varint b1 in
                  do r <- py_cf_loop f b2 s; Ok (es ++ PyTainted (rev s) label :: r)
            end
        end
    end.
  Definition py_cf_iter (section : list N) : Res (list (py_cf_event A)) :=
    py_cf_loop (length section) section [].
End CfLog.
