(** The runtime API: calls, executions of the model, and the plain set semantics of a
    sequence of calls.

    In the plain semantics there is no label table: a label is a name, handed out by the
    calls, for a set of input bytes; memory bytes and outputs carry such sets.  A set is
    written as the list of its elements, union is concatenation. *)
From Coq Require Import NArith ZArith List Bool.
From Verif Require Import M_Base M_Memory M_Functions M_CfLog M_Api S_Strings S_Functions S_CallStack.
Import ListNotations.
Open Scope N_scope.

(** ** Calls *)
Inductive call : Type :=
| COpen (fd : Z) (path : list N) (size : option N)       (* a file was opened *)
| CClose (fd : Z)
| CReadMem (fd : Z) (addr : N) (off : option N) (n : N)  (* n bytes were read to addr *)
| CReadVal (fd : Z) (off : option N) (n : N)             (* n bytes were read, e.g. returned *)
| CNamed (name : list N) (addr n : N)                    (* memory becomes a named source *)
| CUnion (l1 l2 : N)
| CSet (addr l : N)                                      (* the program puts a value with label l at addr *)
| CWriteMem (fd : Z) (off : option N) (addr n : N)       (* n bytes at addr were written *)
| CWriteVal (fd : Z) (off : option N) (l n : N)          (* n bytes with label l were written *)
| CAffects (l : N)                                       (* a branch depends on label l *)
| CLog (e : cf_event)                                    (* control-flow log *)
| CFnEntry (name : list N)
| CFnExit (i : N).

Inductive ret : Type :=
| RNone
| RRange (labels : option (N * N))   (* first and last label *)
| RLabel (l : N)
| RIndex (i : N).

(** One call executed by the model.  Padding, uninitialised memory and loop bounds are
    arbitrary. *)
Inductive api_step (r : rt) : call -> ret -> rt -> Prop :=
| as_open fd path size r' : rt_open r fd path size = Ok r' -> api_step r (COpen fd path size) RNone r'
| as_close fd : api_step r (CClose fd) RNone (rt_close r fd)
| as_read_mem fd addr off n x r' : rt_source_mem r fd addr off n = Ok (x, r') ->
    api_step r (CReadMem fd addr off n) (RRange x) r'
| as_read_val fd off n x r' : rt_source_range r fd off n = Ok (x, r') ->
    api_step r (CReadVal fd off n) (RRange x) r'
| as_named name addr n x r' : rt_named r name addr n = Ok (x, r') ->
    api_step r (CNamed name addr n) (RRange x) r'
| as_union l1 l2 x r' : rt_union r l1 l2 = Ok (x, r') -> api_step r (CUnion l1 l2) (RLabel x) r'
| as_set addr l : api_step r (CSet addr l) RNone (rt_set_label r addr l)
| as_write_mem pad fd off addr n r' : (forall i, is_bytes (pad i)) -> rt_sink_mem pad r fd off addr n = Ok r' ->
    api_step r (CWriteMem fd off addr n) RNone r'
| as_write_val pad fd off l n r' : (forall i, is_bytes (pad i)) -> rt_sink_label pad r fd off l n = Ok r' ->
    api_step r (CWriteVal fd off l n) RNone r'
| as_affects fuel junk l r' : rt_affects fuel junk r l = Ok r' -> api_step r (CAffects l) RNone r'
| as_log e r' : rt_cf r e = Ok r' -> api_step r (CLog e) RNone r'
| as_fn_entry pad name i r' : pad < 256 -> rt_fn_entry pad r name = Ok (i, r') ->
    api_step r (CFnEntry name) (RIndex i) r'
| as_fn_exit pad i r' : pad < 256 -> rt_fn_exit pad r i = Ok r' -> api_step r (CFnExit i) RNone r'.

(** ** Plain semantics *)
(** An input byte: the number of the registration (open or named source) and an offset. *)
Definition byte_id : Type := N * N.

Record reg := mkReg { reg_name : list N; reg_fd : option Z; reg_size : option N }.

Record ast := mkAst {
  a_regs : list reg;                           (* registrations in order *)
  a_open : list Z;                             (* descriptors currently open *)
  a_rd : N -> N; a_wr : N -> N;                (* stream positions per registration *)
  a_lab : N -> list byte_id;                   (* meaning of labels *)
  a_mem : N -> list byte_id;                   (* input bytes a memory byte depends on *)
  a_out : list (N * N * list byte_id);         (* outputs: registration, position, depends on *)
  a_cf : list byte_id;                         (* input bytes that affected control flow *)
  a_names : list (list N);                     (* entered functions, in order of first entry *)
  a_events : list (event_kind * N);            (* function entries and exits *)
  a_log : list cf_event                        (* control-flow log *)
}.

Definition a_init : ast :=
  mkAst [] [] (fun _ => 0) (fun _ => 0) (fun _ => []) (fun _ => []) [] [] [] [] [].

(** The registration a descriptor refers to: the most recent one. *)
Fixpoint last_with (regs : list reg) (fd : Z) : option N :=
  match regs with
  | [] => None
  | g :: rest =>
      match last_with rest fd with
      | Some i => Some (i + 1)
      | None => match reg_fd g with
                | Some fd' => if (fd' =? fd)%Z then Some 0 else None
                | None => None
                end
      end
  end.

(** Where a transfer takes place: the given offset, else the stream position. *)
Definition position (pos : N -> N) (i : N) (off : option N) : N :=
  match off with Some o => o | None => pos i end.
Definition advance (pos : N -> N) (i : N) (off : option N) (n : N) : N -> N :=
  match off with Some _ => pos | None => fun k => if k =? i then pos i + n else pos k end.

(** Labels f, f+1, .. of [n] bytes read from registration [i] at [o]. *)
Definition add_labels (lab : N -> list byte_id) (f i o n : N) : N -> list byte_id :=
  fun l => if (f <=? l) && (l <? f + n) then [(i, o + (l - f))] else lab l.
(** ... and the memory they are put to. *)
Definition add_bytes (mm : N -> list byte_id) (addr i o n : N) : N -> list byte_id :=
  fun a => if (addr <=? a) && (a <? addr + n) then [(i, o + (a - addr))] else mm a.

(** Outputs of the bytes at addr, addr+1, ..: only bytes that depend on some input. *)
Definition outputs (i o : N) (vals : list (list byte_id)) : list (N * N * list byte_id) :=
  filter (fun e => match snd e with [] => false | _ => true end)
         (map (fun kv => (i, o + fst kv, snd kv)) (combine (nseq 0 (length vals)) vals)).

Fixpoint index_of (x : list N) (l : list (list N)) : option N :=
  match l with
  | [] => None
  | y :: r => if bytes_eqb y x then Some 0 else option_map N.succ (index_of x r)
  end.

Definition with_lab (s : ast) lab : ast :=
  mkAst (a_regs s) (a_open s) (a_rd s) (a_wr s) lab (a_mem s) (a_out s) (a_cf s) (a_names s) (a_events s) (a_log s).
Definition with_mem (s : ast) mm : ast :=
  mkAst (a_regs s) (a_open s) (a_rd s) (a_wr s) (a_lab s) mm (a_out s) (a_cf s) (a_names s) (a_events s) (a_log s).
Definition with_reg (s : ast) g op : ast :=
  mkAst (a_regs s ++ [g]) op (a_rd s) (a_wr s) (a_lab s) (a_mem s) (a_out s) (a_cf s) (a_names s) (a_events s) (a_log s).
Definition with_rd (s : ast) rd : ast :=
  mkAst (a_regs s) (a_open s) rd (a_wr s) (a_lab s) (a_mem s) (a_out s) (a_cf s) (a_names s) (a_events s) (a_log s).
Definition with_out (s : ast) wr out : ast :=
  mkAst (a_regs s) (a_open s) (a_rd s) wr (a_lab s) (a_mem s) (a_out s ++ out) (a_cf s) (a_names s) (a_events s) (a_log s).

(** The meaning of a call that returned [x]. *)
Definition astep (s : ast) (c : call) (x : ret) : ast :=
  match c, x with
  | COpen fd path size, _ => with_reg s (mkReg path (Some fd) size) (fd :: a_open s)
  | CClose fd, _ =>
      mkAst (a_regs s) (filter (fun z => negb (z =? fd)%Z) (a_open s)) (a_rd s) (a_wr s) (a_lab s) (a_mem s)
            (a_out s) (a_cf s) (a_names s) (a_events s) (a_log s)
  | CReadMem fd addr off n, RRange (Some (f, _)) =>
      match last_with (a_regs s) fd with
      | Some i =>
          let o := position (a_rd s) i off in
          with_rd (with_mem (with_lab s (add_labels (a_lab s) f i o n)) (add_bytes (a_mem s) addr i o n))
                  (advance (a_rd s) i off n)
      | None => s
      end
  | CReadVal fd off n, RRange (Some (f, _)) =>
      match last_with (a_regs s) fd with
      | Some i =>
          let o := position (a_rd s) i off in
          with_rd (with_lab s (add_labels (a_lab s) f i o n)) (advance (a_rd s) i off n)
      | None => s
      end
  | CNamed name addr n, _ =>
      let i := len (a_regs s) in
      let s1 := with_reg s (mkReg name None None) (a_open s) in
      match x with
      | RRange (Some (f, _)) =>
          with_mem (with_lab s1 (add_labels (a_lab s) f i 0 n)) (add_bytes (a_mem s) addr i 0 n)
      | _ => s1
      end
  | CUnion l1 l2, RLabel l => with_lab s (fun k => if k =? l then a_lab s l1 ++ a_lab s l2 else a_lab s k)
  | CSet addr l, _ => with_mem s (fun a => if a =? addr then a_lab s l else a_mem s a)
  | CWriteMem fd off addr n, _ =>
      match last_with (a_regs s) fd with
      | Some i => with_out s (advance (a_wr s) i off n)
                    (outputs i (position (a_wr s) i off) (map (a_mem s) (nseq addr (N.to_nat n))))
      | None => s
      end
  | CWriteVal fd off l n, _ =>
      match last_with (a_regs s) fd with
      | Some i => with_out s (advance (a_wr s) i off n)
                    (outputs i (position (a_wr s) i off) (repeat (a_lab s l) (N.to_nat n)))
      | None => s
      end
  | CAffects l, _ =>
      mkAst (a_regs s) (a_open s) (a_rd s) (a_wr s) (a_lab s) (a_mem s) (a_out s) (a_cf s ++ a_lab s l)
            (a_names s) (a_events s) (a_log s)
  | CLog e, _ =>
      mkAst (a_regs s) (a_open s) (a_rd s) (a_wr s) (a_lab s) (a_mem s) (a_out s) (a_cf s)
            (a_names s) (a_events s) (a_log s ++ [e])
  | CFnEntry name, _ =>
      let names := match index_of name (a_names s) with Some _ => a_names s | None => a_names s ++ [name] end in
      let i := match index_of name (a_names s) with Some k => k | None => len (a_names s) end in
      mkAst (a_regs s) (a_open s) (a_rd s) (a_wr s) (a_lab s) (a_mem s) (a_out s) (a_cf s)
            names (a_events s ++ [(EvEntry, i)]) (a_log s)
  | CFnExit i, _ =>
      mkAst (a_regs s) (a_open s) (a_rd s) (a_wr s) (a_lab s) (a_mem s) (a_out s) (a_cf s)
            (a_names s) (a_events s ++ [(EvExit, i)]) (a_log s)
  | _, _ => s
  end.

(** ** What callers respect *)
(** A name is a byte string of at most 65535 bytes. *)
Definition name_ok (name : list N) : Prop := is_bytes name /\ len name <= 65535.
(** A descriptor passed to a read or write is open, or was never registered. *)
Definition fd_ok (s : ast) (fd : Z) : Prop :=
  (0 <= fd < 2 ^ 31)%Z /\ (In fd (a_open s) \/ last_with (a_regs s) fd = None).
(** A transfer of [n] bytes stays below the largest offset that can be recorded. *)
Definition transfer_ok (s : ast) (pos : N -> N) (fd : Z) (off : option N) (n : N) : Prop :=
  forall i, last_with (a_regs s) fd = Some i -> position pos i off + n <= 2 ^ 54.
(** Labels passed back to the runtime were handed out by it. *)
Definition known (s : ast) (l : N) : Prop := a_lab s l <> [].

Definition call_ok (s : ast) (c : call) : Prop :=
  match c with
  | COpen fd path size => (0 <= fd < 2 ^ 31)%Z /\ name_ok path /\ (forall n, size = Some n -> n < 2 ^ 64 - 1)
  | CClose _ => True
  | CReadMem fd _ off n => fd_ok s fd /\ transfer_ok s (a_rd s) fd off n
  | CReadVal fd off n => fd_ok s fd /\ transfer_ok s (a_rd s) fd off n
  | CNamed name _ n => name_ok name /\ n <= 2 ^ 54
  | CUnion l1 l2 => known s l1 /\ known s l2
  | CSet _ l => l = 0 \/ known s l
  | CWriteMem fd off _ n => fd_ok s fd /\ transfer_ok s (a_wr s) fd off n
  | CWriteVal fd off l n => fd_ok s fd /\ transfer_ok s (a_wr s) fd off n /\ (l = 0 \/ known s l)
  | CAffects l => known s l
  | CLog e => cf_ok e
  | CFnEntry name => name_ok name
  | CFnExit i => i < 2 ^ 16
  end.

(** The limits of the file format, in terms of what happened so far: at most 255
    registrations, one mebibyte of names, 2^20 tainted output bytes; the name tables and
    logs have room.  The last 64 labels are excluded (see C20). *)
Definition strings_of (s : ast) : list (list N) := map reg_name (a_regs s) ++ a_names s.
Definition within_limits (s : ast) : Prop :=
  len (a_regs s) <= 255 /\ names_size (strings_of s) <= 2 ^ 20 /\ len (a_out s) <= 2 ^ 20 /\ len (a_names s) <= 65535.
Definition ret_ok (x : ret) : Prop :=
  match x with RRange (Some (_, la)) => la < 2 ^ 31 - 64 | _ => True end.

(** ** Runs: [api_run base h r s] - the runtime was started with the file mapped at [base],
    the calls [h] were made with these answers and led to state [r], whose plain meaning
    is [s]. *)
Inductive api_run (base : N) : list (call * ret) -> rt -> ast -> Prop :=
| ar_start r : rt_new base = Ok r -> api_run base [] r a_init
| ar_call h r s c x r' :
    api_run base h r s -> call_ok s c -> api_step r c x r' ->
    ret_ok x -> within_limits (astep s c x) ->
    api_run base (h ++ [(c, x)]) r' (astep s c x).
