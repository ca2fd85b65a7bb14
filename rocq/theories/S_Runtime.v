(** Specification vocabulary for the process-level runtime: what a transfer reported by the
    C library means for the labels of memory, and the plain meaning of a whole program
    execution. *)
From Coq Require Import NArith ZArith List Bool.
From Verif Require Import M_Base M_Memory M_Encoding M_Labels M_CfLog M_Functions M_PyFile M_Dfsan M_Api M_Runtime
  S_Provenance S_Labels S_Strings S_Functions S_CallStack S_Api S_PyAnalysis S_History S_Dfsan.
Import ListNotations.
Open Scope N_scope.

(** ** Labels of memory *)
(** Label [l] stands for the input byte [b] alone. *)
Definition stands_for (r : rt) (l : N) (b : byte_id) : Prop :=
  l <> 0 /\ forall b', derives (view (r_tab r)) l b' <-> b' = b.

(** Between [r] and [r'] exactly the [n] bytes at [addr] were labelled: with the input
    bytes o, o+1, .. of registration [i].  All other memory keeps its label. *)
Definition tainted (r r' : rt) (addr n i o : N) : Prop :=
  (forall a, a < addr \/ addr + n <= a -> r_shadow r' a = r_shadow r a) /\
  forall k, k < n -> stands_for r' (r_shadow r' (addr + k)) (i, o + k).

(** Labels of [n] bytes at [addr] are removed and no others. *)
Definition unlabelled (r r' : rt) (addr n : N) : Prop :=
  (forall a, a < addr \/ addr + n <= a -> r_shadow r' a = r_shadow r a) /\
  forall a, addr <= a < addr + n -> r_shadow r' a = 0.
(** Mappings consist of whole pages. *)
Definition pages (n : N) : N := (n + 4095) / 4096 * 4096.

(** The position reported by the C library for a transfer; a negative one means that the
    descriptor has no position. *)
Definition offset_of (pos : Z) : option N := if (0 <=? pos)%Z then Some (Z.to_N pos) else None.

(** [n] more labels can be handed out (the last 64 are excluded, see C20). *)
Definition room (r : rt) (n : N) : Prop := len (r_tab r) + n <= 2 ^ 31 - 64.

(** Descriptor [fd] is not tracked. *)
Definition untracked (h : list (call * ret)) (fd : Z) : Prop := forall i, ~ most_recent (registered h) fd i.

(** ** Decimal numbers *)
Definition digit (c : N) : Prop := 48 <= c <= 57.
Definition decimal_value (ds : list N) : N := fold_left (fun v c => 10 * v + (c - 48)) ds 0.
Definition decimal (ds : list N) (n : N) : Prop :=
  Forall digit ds /\ ds <> [] /\ (hd 0 ds = 48 -> ds = [48]) /\ decimal_value ds = n.

(** ** Program executions *)
(** What a program does.  Values live in memory bytes (registers are memory bytes of their
    own); [pos] is the position of a transfer as in [offset_of]; sizes and return values
    are those of the C library. *)
Inductive event : Type :=
| EOpen (path : list N) (fd : Z) (size : option N)      (* open, fopen, ..: fd < 0 on failure *)
| EClose (fd ret : Z)
| ERead (fd : Z) (buff : N) (pos ret : Z)               (* read, recv, pread, getline *)
| EFread (fd : Z) (buff size : N) (pos : Z) (ret : N)   (* ret items of the given size *)
| EFgets (fd : Z) (str : N) (app : N -> N) (n : N) (pos : Z)  (* n characters; app: memory afterwards *)
| EGetc (fd : Z) (pos c : Z) (dst : N)                  (* c = -1 at the end of the file *)
| EMmap (len : N) (fd pos : Z) (addr : option N)
| EMunmap (addr len : N)                                (* successful; see C100 for failed ones *)
| EArgv (app : N -> N) (args : list (N * N))            (* the arguments: address and length *)
| ECopy (dst src : N)
| ECompute (dst a b : N)                                (* the value at dst is computed from those at a and b *)
| EConst (dst : N)
| EBranch (a : N)                                       (* a branch on the value at a *)
| EWrite (fd : Z) (buff : N) (pos ret : Z)
| EFwrite (fd : Z) (buff size : N) (pos : Z) (ret : N)
| EPutc (ch fd pos ret : Z) (src : N)                   (* ch is the value at src *)
| EEnter (name : list N)                                (* function tracing *)
| EExit (i : N)
| ECfEnter (f : N) | ECfLeave (f : N)                   (* control-flow tracing *)
| ECfTainted (f a : N).                                 (* a decision in f on the value at a *)

(** One event executed by the model of the runtime. *)
Inductive pstep (p : proc) : event -> proc -> Prop :=
| ps_open path fd size x l p' : w_open p path fd size = Ok (x, l, p') -> pstep p (EOpen path fd size) p'
| ps_close fd ret x l p' : w_close p fd ret = Ok (x, l, p') -> pstep p (EClose fd ret) p'
| ps_read fd buff pos ret x l p' : w_read p fd buff pos ret = Ok (x, l, p') -> pstep p (ERead fd buff pos ret) p'
| ps_fread fd buff size pos ret x l p' : w_fread p fd buff size pos ret = Ok (x, l, p') ->
    pstep p (EFread fd buff size pos ret) p'
| ps_fgets fuel fd str app n pos lab x l p' : w_fgets fuel app p fd str pos true lab = Ok (x, l, p') ->
    pstep p (EFgets fd str app n pos) p'
| ps_getc fd pos c dst x l p' r : w_getc p fd pos c = Ok (x, l, p') -> p_tdag p' = Live r ->
    pstep p (EGetc fd pos c dst) (set_rt p' (rt_set_label r dst l))
| ps_mmap n fd pos addr x l p' : w_mmap p n fd pos addr = Ok (x, l, p') -> pstep p (EMmap n fd pos addr) p'
| ps_munmap addr n x l p' : w_munmap p addr n 0 = Ok (x, l, p') -> pstep p (EMunmap addr n) p'
| ps_argv fuel app args p' : taint_argv fuel app p (map fst args) = Ok p' -> pstep p (EArgv app args) p'
| ps_copy dst src r : p_tdag p = Live r -> pstep p (ECopy dst src) (set_rt p (rt_set_label r dst (r_shadow r src)))
| ps_compute dst a b r l t : p_tdag p = Live r -> dfsan_union (p_flag p) (r_tab r) (r_shadow r a) (r_shadow r b) = Ok (l, t) ->
    pstep p (ECompute dst a b) (set_rt p (rt_set_label (set_tab r t) dst l))
| ps_const dst r : p_tdag p = Live r -> pstep p (EConst dst) (set_rt p (rt_set_label r dst 0))
| ps_branch a r fuel junk v p' : p_tdag p = Live r -> cb_dfsw_cond_branch fuel junk p v (r_shadow r a) = Ok p' ->
    pstep p (EBranch a) p'
| ps_write pad fd buff pos ret x l p' : (forall i, is_bytes (pad i)) -> w_write pad p fd buff pos ret = Ok (x, l, p') ->
    pstep p (EWrite fd buff pos ret) p'
| ps_fwrite pad fd buff size pos ret x l p' : (forall i, is_bytes (pad i)) ->
    w_fwrite pad p fd buff size pos ret = Ok (x, l, p') -> pstep p (EFwrite fd buff size pos ret) p'
| ps_putc pad ch fd pos ret src r x l p' : (forall i, is_bytes (pad i)) -> p_tdag p = Live r ->
    w_putc pad p ch fd pos ret (r_shadow r src) = Ok (x, l, p') -> pstep p (EPutc ch fd pos ret src) p'
| ps_enter pad name i p' : pad < 256 -> cb_func_entry pad p name = Ok (i, p') -> pstep p (EEnter name) p'
| ps_exit pad i p' : pad < 256 -> cb_func_exit pad p i = Ok p' -> pstep p (EExit i) p'
| ps_cf_enter f p' : cb_enter p f = Ok p' -> pstep p (ECfEnter f) p'
| ps_cf_leave f p' : cb_leave p f = Ok p' -> pstep p (ECfLeave f) p'
| ps_cf_tainted f a r v old x p' : p_tdag p = Live r -> cb_tainted_cf p v f (r_shadow r a) old = Ok (x, p') ->
    pstep p (ECfTainted f a) p'.

(** The plain meaning of events; states as in S_Api, but no labels ([a_lab] is not used) and
    no control-flow log ([a_log], which holds labels).
    A read from an untracked descriptor leaves what is known about the memory as it is. *)
Definition p_read (s : ast) (fd : Z) (addr : N) (off : option N) (n : N) : ast :=
  match last_with (a_regs s) fd with
  | Some i => let o := position (a_rd s) i off in
              with_rd (with_mem s (add_bytes (a_mem s) addr i o n)) (advance (a_rd s) i off n)
  | None => s
  end.
Definition p_write (s : ast) (fd : Z) (off : option N) (vals : list (list byte_id)) : ast :=
  match last_with (a_regs s) fd with
  | Some i => with_out s (advance (a_wr s) i off (len vals)) (outputs i (position (a_wr s) i off) vals)
  | None => s
  end.
Definition p_set (s : ast) (dst : N) (bs : list byte_id) : ast :=
  with_mem s (fun a => if a =? dst then bs else a_mem s a).
(** Fresh memory depends on nothing. *)
Definition p_fresh (s : ast) (addr n : N) : ast :=
  with_mem s (fun a => if (addr <=? a) && (a <? addr + n) then [] else a_mem s a).
Definition bytes_at (s : ast) (addr n : N) : list (list byte_id) := map (a_mem s) (nseq addr (N.to_nat n)).

(** "argv[i]" *)
Definition is_argv_name (i : N) (name : list N) : Prop :=
  exists ds, decimal ds i /\ name = [97; 114; 103; 118; 91] ++ ds ++ [93].

(** Arguments i, i+1, ..: each becomes a source of its own, named argv[i]. *)
Fixpoint p_args (s : ast) (i : N) (args : list (N * N)) : ast :=
  match args with
  | [] => s
  | (a, n) :: rest =>
      let s1 := with_reg s (mkReg (argv_name i) None None) (a_open s) in
      p_args (with_mem s1 (add_bytes (a_mem s) a (len (a_regs s)) 0 n)) (i + 1) rest
  end.

Definition estep (argv : bool) (s : ast) (e : event) : ast :=
  match e with
  | EOpen path fd size => if (0 <=? fd)%Z then with_reg s (mkReg path (Some fd) size) (fd :: a_open s) else s
  | EClose fd ret => if (ret =? 0)%Z then astep s (CClose fd) RNone else s
  | ERead fd buff pos ret => if (0 <? ret)%Z then p_read s fd buff (offset_of pos) (Z.to_N ret) else s
  | EFread fd buff size pos ret => if 0 <? size * ret then p_read s fd buff (offset_of pos) (size * ret) else s
  | EFgets fd str _ n pos => p_read s fd str (offset_of pos) n
  | EGetc fd pos c dst => if (c =? -1)%Z then p_set s dst []
                          else p_read (p_set s dst []) fd dst (offset_of pos) 1
  | EMmap n fd pos addr => match addr with Some a => p_read (p_fresh s a (pages n)) fd a (offset_of pos) n | None => s end
  | EMunmap addr n => p_fresh s addr (pages n)
  | EArgv _ args => if argv then p_args s 0 args else s
  | ECopy dst src => p_set s dst (a_mem s src)
  | ECompute dst a b => p_set s dst (a_mem s a ++ a_mem s b)
  | EConst dst => p_set s dst []
  | EBranch a => mkAst (a_regs s) (a_open s) (a_rd s) (a_wr s) (a_lab s) (a_mem s) (a_out s) (a_cf s ++ a_mem s a)
                       (a_names s) (a_events s) (a_log s)
  | EWrite fd buff pos ret => if (0 <? ret)%Z then p_write s fd (offset_of pos) (bytes_at s buff (Z.to_N ret)) else s
  | EFwrite fd buff size pos ret =>
      if 0 <? size * ret then p_write s fd (offset_of pos) (bytes_at s buff (size * ret)) else s
  | EPutc ch fd pos ret src => if (ret =? ch)%Z then p_write s fd (offset_of pos) (bytes_at s src 1) else s
  | EEnter name => astep s (CFnEntry name) RNone
  | EExit i => astep s (CFnExit i) RNone
  | ECfEnter _ | ECfLeave _ | ECfTainted _ _ => s
  end.

(** What the control-flow log should say about an event: entries, exits, and decisions on
    values that depend on some input, together with the bytes they depend on. *)
Inductive flow : Type :=
| FEnter (f : N) | FLeave (f : N)
| FTainted (f : N) (bs : list byte_id).
Definition flow_of (s : ast) (e : event) : list flow :=
  match e with
  | ECfEnter f => [FEnter f]
  | ECfLeave f => [FLeave f]
  | ECfTainted f a => match a_mem s a with [] => [] | bs => [FTainted f bs] end
  | _ => []
  end.

(** What is assumed of events: descriptors are used while open, transfers stay within the
    offset limit, strings are as long as their terminator says. *)
Definition event_ok (s : ast) (e : event) : Prop :=
  match e with
  | EOpen path fd size => (fd < 2 ^ 31)%Z /\ name_ok path /\ forall n, size = Some n -> n < 2 ^ 64 - 1
  | EClose _ _ => True
  | ERead fd _ pos ret => fd_ok s fd /\ transfer_ok s (a_rd s) fd (offset_of pos) (Z.to_N ret)
  | EFread fd _ size pos ret => fd_ok s fd /\ transfer_ok s (a_rd s) fd (offset_of pos) (size * ret)
  | EFgets fd str app n pos => fd_ok s fd /\ transfer_ok s (a_rd s) fd (offset_of pos) n /\ c_string app str n
  | EGetc fd pos _ _ => fd_ok s fd /\ transfer_ok s (a_rd s) fd (offset_of pos) 1
  | EMmap n fd pos _ => fd_ok s fd /\ transfer_ok s (a_rd s) fd (offset_of pos) n
  | EArgv app args => Forall (fun an => c_string app (fst an) (snd an) /\ snd an <= 2 ^ 54) args
  | EWrite fd _ pos ret => fd_ok s fd /\ transfer_ok s (a_wr s) fd (offset_of pos) (Z.to_N ret)
  | EFwrite fd _ size pos ret => fd_ok s fd /\ transfer_ok s (a_wr s) fd (offset_of pos) (size * ret)
  | EPutc ch fd pos ret _ => fd_ok s fd /\ transfer_ok s (a_wr s) fd (offset_of pos) 1 /\ (0 <= ch < 256)%Z /\ (ret = ch \/ ret = -1)%Z
  | EEnter name => name_ok name
  | EExit i => i < 2 ^ 16
  | ECfEnter f | ECfLeave f | ECfTainted f _ => f < 2 ^ 32
  | EMunmap _ _ | ECopy _ _ | ECompute _ _ _ | EConst _ | EBranch _ => True
  end.

(** A setting is switched on by the text "1". *)
Definition switched_on (v : option (list N)) : bool := match v with Some [c] => c =? 49 | _ => false end.
(** The standard streams that the environment asks for are opened first. *)
Definition stream_events (e : env) (fo fe fi : Z) (so se si : option N) : list event :=
  (if switched_on (e_stdout e) then [EOpen dev_stdout fo so] else []) ++
  (if switched_on (e_stderr e) then [EOpen dev_stderr fe se] else []) ++
  (if switched_on (e_stdin e) then [EOpen dev_stdin fi si] else []).
(** POLYTRACKER_TAINT_ARGV starts with '1'. *)
Definition argv_on (e : env) : bool := match e_argv e with Some (c :: _) => c =? 49 | _ => false end.

Definition limits (p : proc) (s : ast) : Prop :=
  within_limits s /\ forall r, p_tdag p = Live r -> room r 0.

(** [boots base e p s]: the process was started with the output mapped at [base] in
    environment [e]; in [s] the standard streams were opened. *)
Inductive boots (base : N) (e : env) : proc -> ast -> Prop :=
| boots_start fo fe fi so se si p :
    cb_start proc_start e base fo fe fi so se si = Ok p ->
    (fo < 2 ^ 31 /\ fe < 2 ^ 31 /\ fi < 2 ^ 31)%Z ->
    (forall n, so = Some n \/ se = Some n \/ si = Some n -> n < 2 ^ 64 - 1) ->
    boots base e p (fold_left (estep (argv_on e)) (stream_events e fo fe fi so se si) a_init).

(** [proc_run base e s0 evs p s]: the process was started, with plain state [s0], the events
    [evs] took place and led to [p], whose plain meaning is [s]. *)
Inductive proc_run (base : N) (e : env) (s0 : ast) : list event -> proc -> ast -> Prop :=
| pr_start p : boots base e p s0 -> proc_run base e s0 [] p s0
| pr_event evs p s v p' :
    proc_run base e s0 evs p s -> event_ok s v -> pstep p v p' -> limits p' (estep (argv_on e) s v) ->
    proc_run base e s0 (evs ++ [v]) p' (estep (argv_on e) s v).

(** The log of an execution that began in plain state [s]. *)
Fixpoint flows (argv : bool) (s : ast) (evs : list event) : list flow :=
  match evs with
  | [] => []
  | v :: rest => flow_of s v ++ flows argv (estep argv s v) rest
  end.

(** [says d f e]: entry [e] of the log, read together with the opened file [d], says [f]. *)
Definition says (d : tdfile) (f : flow) (e : cf_event) : Prop :=
  match f, e with
  | FEnter f, CfEnter f' => f' = f
  | FLeave f, CfLeave f' => f' = f
  | FTainted f bs, CfTainted l f' => f' = f /\ forall b, node_leads_to d l b <-> In b bs
  | _, _ => False
  end.

(** ** Callbacks *)
Inductive callback : Type :=
| KEntry (name : list N) | KExit (i : N) | KUnion (l1 l2 : N) | KBranch (value label : N)
| KTainted (value function_id label old : N) | KEnter (function_id : N) | KLeave (function_id : N)
| KArgv (app : N -> N) (argv : list N).
(** A callback made by the instrumented program. *)
Inductive called (p : proc) : callback -> proc -> Prop :=
| k_entry pad name i p' : cb_func_entry pad p name = Ok (i, p') -> called p (KEntry name) p'
| k_exit pad i p' : cb_func_exit pad p i = Ok p' -> called p (KExit i) p'
| k_union l1 l2 l p' : cb_union p l1 l2 = Ok (l, p') -> called p (KUnion l1 l2) p'
| k_branch fuel junk v l p' : cb_dfsw_cond_branch fuel junk p v l = Ok p' -> called p (KBranch v l) p'
| k_tainted v f l old x p' : cb_tainted_cf p v f l old = Ok (x, p') -> called p (KTainted v f l old) p'
| k_enter f p' : cb_enter p f = Ok p' -> called p (KEnter f) p'
| k_leave f p' : cb_leave p f = Ok p' -> called p (KLeave f) p'
| k_argv fuel app argv p' : taint_argv fuel app p argv = Ok p' -> called p (KArgv app argv) p'.
Inductive all_called : proc -> list callback -> proc -> Prop :=
| kc_nil p : all_called p [] p
| kc_cons p k p1 ks p2 : called p k p1 -> all_called p1 ks p2 -> all_called p (k :: ks) p2.
(** ... and one that has undefined behaviour. *)
Definition undefined (p : proc) (k : callback) : Prop :=
  match k with
  | KEntry name => forall pad, cb_func_entry pad p name = UB
  | KExit i => forall pad, cb_func_exit pad p i = UB
  | KUnion l1 l2 => cb_union p l1 l2 = UB
  | KBranch v l => forall fuel junk, cb_dfsw_cond_branch fuel junk p v l = UB
  | KTainted v f l old => cb_tainted_cf p v f l old = UB
  | KEnter f => cb_enter p f = UB
  | KLeave f => cb_leave p f = UB
  | KArgv app argv => forall fuel, taint_argv fuel app p argv = UB
  end.

(** ** Arguments *)
(** The arguments do not overlap. *)
Definition apart (args : list (N * N)) : Prop :=
  forall i j a n b m, i <> j -> get args i = Some (a, n) -> get args j = Some (b, m) -> a + n <= b \/ b + m <= a.
(** Address [x] is not inside any of them (it may be a terminator). *)
Definition outside (args : list (N * N)) (x : N) : Prop :=
  forall i a n, get args i = Some (a, n) -> x < a \/ a + n <= x.

(** ** Files *)
(** Where the bytes of a write end up in a file of the given size. *)
Definition landing (append : bool) (pos size : N) : N := if append then size else pos.
(** putc writes the low byte of its argument and returns it, or fails with -1. *)
Definition putc_result (ch : Z) (failed : bool) : Z := if failed then (-1)%Z else (ch mod 256)%Z.
