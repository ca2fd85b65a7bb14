(** Execution of instrumented programs (M_DfsanPass) on the runtime (M_Runtime).

    Labels of memory are those of the runtime ([r_shadow]).  The other places where labels
    are kept - shadow registers, the argument and return TLS, label arguments and results -
    are cells of the same store, above the 64-bit address space.
    Simplifications: the code in front of an instruction, the instruction and the code behind
    it are one step (only the code itself can see labels in between); each call has its own
    shadow registers. *)
From Coq Require Import NArith ZArith List Bool.
From Verif Require Import M_Base M_Memory M_Labels M_Dfsan M_Api M_Runtime S_Strings S_Functions S_Api S_Runtime M_Llvm M_DfsanPass.
Import ListNotations.
Open Scope N_scope.

(** ** Cells *)
Definition cell (k j : N) : N := two64 + 2 ^ k * (2 * j + 1).
(** __dfsan_arg_tls, by offset. *)
Definition ARG (off : N) : N := cell 0 off.
(** __dfsan_retval_tls, and the latest combined shadow. *)
Definition RET : N := cell 1 0.
Definition TMP : N := cell 1 1.
(** Temporaries of simultaneous copies. *)
Definition SCRATCH (i : N) : N := cell 2 i.
(** The shadow of register [x] of the [d]th active call. *)
Definition REG (d x : N) : N := cell (3 + d) x.

(** ** Shadow instructions *)
Definition lab (r : rt) (d : N) (v : sval) : N :=
  match v with SZero => 0 | SReg x => r_shadow r (REG d x) | STmp => r_shadow r TMP end.

(** The end of combineShadows, DataFlowSanitizer.cpp:1896-1932: a call of dfsan_union, or a
    comparison and a call of __dfsan_union if the labels differ (the phi takes the first
    label otherwise). *)
Definition union_code (checked flag : bool) (t : table) (a b : N) : Res (N * table) :=
  if checked then dfsan_union flag t a b
  else if a =? b then Ok (a, t) else dfsan_union_ne flag t a b.

(** __dfsan_union_load, dfsan.cpp:233-242, on labels given by [shadow] (M_Dfsan has it on bytes). *)
Fixpoint union_loop (flag : bool) (t : table) (shadow : N -> N) (label a : N) (n : nat) : Res (N * table) :=
  match n with
  | O => Ok (label, t)
  | S k =>
      do q <- (if label =? shadow a then Ok (label, t) else dfsan_union_ne flag t label (shadow a));
      union_loop flag (snd q) shadow (fst q) (a + 1) k
  end.
Definition union_bytes (flag : bool) (t : table) (shadow : N -> N) (a n : N) : Res (N * table) :=
  union_loop flag t shadow (shadow a) (a + 1) (N.to_nat (n - 1)).

(** loadLegacyShadowFast, DataFlowSanitizer.cpp:2113-2195: the labels are read as words of two. *)
Definition wide (shadow : N -> N) (a k : N) : N := shadow (a + 2 * k) + 2 ^ 32 * shadow (a + 2 * k + 1).
Definition rotate (w : N) : N := N.lor (N.shiftl w 32 mod two64) (N.shiftr w 32).
Definition load_fast (flag : bool) (t : table) (shadow : N -> N) (a size : N) : Res (N * table) :=
  let w := wide shadow a 0 in
  if (w =? rotate w) && forallb (fun k => w =? wide shadow a k) (nseq 1 (N.to_nat (size / 2 - 1)))
  then Ok (w mod two32, t)
  else union_bytes flag t shadow a size.

(** The rest of loadShadowOrigin, DataFlowSanitizer.cpp:2249-2299; ShadowSize % 8 = 0 for an even
    size, and ShadowSize is not 4 as the size is at least 3. *)
Definition load_labels (avoid flag : bool) (t : table) (shadow : N -> N) (a size : N) : Res (N * table) :=
  if size =? 1 then Ok (shadow a, t)
  else if size =? 2 then union_code avoid flag t (shadow a) (shadow (a + 1))
  else if negb avoid && ((size * SHADOW_BYTES) mod 8 =? 0) then load_fast flag t shadow a size
  else union_bytes flag t shadow a size.

(** The stores in storePrimitiveShadowOrigin, DataFlowSanitizer.cpp:2518-2541: vectors of 8
    labels, then single ones; in storeZeroPrimitiveShadow (2475-2488) one wide store. *)
Definition store_addrs (a size : N) : list N :=
  flat_map (fun k => nseq (a + 8 * k) 8) (nseq 0 (N.to_nat (size / 8))) ++
  nseq (a + 8 * (size / 8)) (N.to_nat (size mod 8)).
Definition set_labels (r : rt) (l : N) (addrs : list N) : rt := fold_left (fun r a => rt_set_label r a l) addrs r.
Definition copy_labels (r : rt) (ps : list (N * N)) : rt :=
  fold_left (fun r p => rt_set_label r (fst p) (r_shadow r (snd p))) ps r.

(** Labels [f 0], [f 1], .. of [n] cells to other cells, all read before any is written: to
    temporaries first. *)
Definition copy_all (r : rt) (from to : N -> N) (n : nat) : rt :=
  copy_labels (copy_labels r (map (fun i => (SCRATCH i, from i)) (nseq 0 n))) (map (fun i => (to i, SCRATCH i)) (nseq 0 n)).

(** One shadow instruction of the [d]th active call. *)
Definition sx (flag : bool) (d : N) (e : regs) (r : rt) (i : sinstr) : Res rt :=
  match i with
  | TSet x v => Ok (rt_set_label r (REG d x) (lab r d v))
  | TUnion checked a b =>
      do q <- union_code checked flag (r_tab r) (lab r d a) (lab r d b);
      Ok (rt_set_label (set_tab r (snd q)) TMP (fst q))
  | TLoad avoid ptr size =>
      do p <- value e ptr;
      do q <- load_labels avoid flag (r_tab r) (r_shadow r) p size;
      Ok (rt_set_label (set_tab r (snd q)) TMP (fst q))
  | TStore ptr size v =>
      do p <- value e ptr;
      Ok (set_labels r (lab r d v) (if sval_eqb v SZero then nseq p (N.to_nat size) else store_addrs p size))
  | TSelect c a b => do k <- value e c; Ok (rt_set_label r TMP (lab r d (if k =? 0 then b else a)))
  | TSetLabel ptr n v =>
      do p <- value e ptr; do k <- value e n; Ok (set_labels r (lab r d v) (nseq p (N.to_nat k)))
  | TMove dst src n =>
      do q <- value e dst; do p <- value e src; do k <- value e n;
      Ok (copy_all r (fun i => p + i) (fun i => q + i) (N.to_nat k))
  | TArg off v => Ok (rt_set_label r (ARG off) (lab r d v))
  | TArgLoad x off => Ok (rt_set_label r (REG d x) (r_shadow r (ARG off)))
  | TRet v => Ok (rt_set_label r RET (lab r d v))
  | TRetLoad x => Ok (rt_set_label r (REG d x) (r_shadow r RET))
  | TPass v => Ok (rt_set_label r VALUE (lab r d v))
  | TResult x => Ok (rt_set_label r (REG d x) (r_shadow r VALUE))
  end.

Fixpoint run_code (d : N) (e : regs) (p : proc) (c : list sinstr) : Res proc :=
  match c with
  | [] => Ok p
  | i :: rest => do r <- get_tdag p; do r' <- sx (p_flag p) d e r i; run_code d e (set_rt p r') rest
  end.

(** The shadow phis of a block: all incoming shadows are read before any is set. *)
Definition phi_code (d : N) (p : proc) (l : list (N * sval)) : Res proc :=
  match l with
  | [] => Ok p
  | _ =>
      do r <- get_tdag p;
      let ks := nseq 0 (length l) in
      let r1 := fold_left (fun r kv => rt_set_label r (SCRATCH (fst kv)) (lab r d (snd kv))) (combine ks (map snd l)) r in
      let r2 := copy_labels r1 (combine (map (fun x => REG d (fst x)) l) (map SCRATCH ks)) in
      Ok (set_rt p r2)
  end.

(** ** Custom functions *)
(** [wrapped p vals lab v x l p']: the wrapper of the function that event [v] belongs to was called
    with arguments [vals] and label argument [lab] and stored label [l] as that of the result;
    [x] is the value returned, for callbacks that return one. *)
Inductive wrapped (p : proc) (vals : list N) (lab : N) : event -> option N -> N -> proc -> Prop :=
| wr_open path fd size x l p' : w_open p path fd size = Ok (x, l, p') -> wrapped p vals lab (EOpen path fd size) None l p'
| wr_close fd ret x l p' : w_close p fd ret = Ok (x, l, p') -> wrapped p vals lab (EClose fd ret) None l p'
| wr_read fd buff pos ret x l p' : w_read p fd buff pos ret = Ok (x, l, p') -> wrapped p vals lab (ERead fd buff pos ret) None l p'
| wr_fread fd buff size pos ret x l p' : w_fread p fd buff size pos ret = Ok (x, l, p') ->
    wrapped p vals lab (EFread fd buff size pos ret) None l p'
| wr_fgets fuel fd str app n pos x l p' : w_fgets fuel app p fd str pos true lab = Ok (x, l, p') ->
    wrapped p vals lab (EFgets fd str app n pos) None l p'
| wr_fgets_null fuel app fd str pos x l p' : w_fgets fuel app p fd str pos false lab = Ok (x, l, p') ->
    wrapped p vals lab (ERead fd str pos 0) None l p'
| wr_getc fd pos c x l p' : w_getc p fd pos c = Ok (x, l, p') -> wrapped p vals lab (EGetc fd pos c VALUE) None l p'
| wr_mmap n fd pos addr x l p' : w_mmap p n fd pos addr = Ok (x, l, p') -> wrapped p vals lab (EMmap n fd pos addr) None l p'
| wr_munmap addr n x l p' : w_munmap p addr n 0 = Ok (x, l, p') -> wrapped p vals lab (EMunmap addr n) None l p'
| wr_argv fuel app args p' : taint_argv fuel app p (map fst args) = Ok p' -> wrapped p vals lab (EArgv app args) None 0 p'
| wr_branch fuel junk p' : cb_dfsw_cond_branch fuel junk p (arg vals 0) lab = Ok p' -> wrapped p vals lab (EBranch VALUE) None 0 p'
| wr_write pad fd buff pos ret x l p' : (forall i, is_bytes (pad i)) -> w_write pad p fd buff pos ret = Ok (x, l, p') ->
    wrapped p vals lab (EWrite fd buff pos ret) None l p'
| wr_fwrite pad fd buff size pos ret x l p' : (forall i, is_bytes (pad i)) ->
    w_fwrite pad p fd buff size pos ret = Ok (x, l, p') -> wrapped p vals lab (EFwrite fd buff size pos ret) None l p'
| wr_putc pad ch fd pos ret x l p' : (forall i, is_bytes (pad i)) ->
    w_putc pad p ch fd pos ret lab = Ok (x, l, p') -> wrapped p vals lab (EPutc ch fd pos ret VALUE) None l p'
| wr_enter pad name i p' : pad < 256 -> cb_func_entry pad p name = Ok (i, p') -> wrapped p vals lab (EEnter name) (Some i) 0 p'
| wr_exit pad i p' : pad < 256 -> cb_func_exit pad p i = Ok p' -> wrapped p vals lab (EExit i) None 0 p'
| wr_cf_enter f p' : cb_enter p f = Ok p' -> wrapped p vals lab (ECfEnter f) None 0 p'
| wr_cf_leave f p' : cb_leave p f = Ok p' -> wrapped p vals lab (ECfLeave f) None 0 p'
| wr_cf_tainted f old x l p' : cb_tainted_cf p (arg vals 0) f lab old = Ok (x, l, p') ->
    wrapped p vals lab (ECfTainted f VALUE) (Some x) l p'.

(** ** Steps *)
Record tframe := mkTf {
  t_fn : N; t_blk : N; t_rest : list group; t_pre : list sinstr; t_term : term;
  t_regs : regs; t_dst : option N;
  t_after : list sinstr   (* what follows the call this function is waiting for *)
}.
Record tstate := mkT { t_frames : list tframe; t_mem : mem; t_proc : proc }.

Definition goto (fr : tframe) (rest : list group) (e : regs) (after : list sinstr) : tframe :=
  mkTf (t_fn fr) (t_blk fr) rest (t_pre fr) (t_term fr) e (t_dst fr) after.

Definition plain (i : instr) : bool := match i with ICall _ _ _ | ILib _ _ _ => false | _ => true end.

Definition put_result (e : regs) (dst : option N) (v : option N) : Res regs :=
  match dst with
  | None => Ok e
  | Some x => match v with Some _ => Ok (put e x v) | None => UB end
  end.

Definition tenter (fn : N) (f : tfunc) (vals : list N) (dst : option N) : Res tframe :=
  match tf_blocks f with
  | b :: _ =>
      if len vals =? len (tf_params f)
      then Ok (mkTf fn 0 (tb_body b) (tb_pre b) (tb_term b) (assign no_regs (combine (tf_params f) (map Some vals))) dst [])
      else UB
  | [] => UB
  end.

Fixpoint tincoming (from : N) (ps : list tphi) : Res (list (N * operand) * list (N * sval)) :=
  match ps with
  | [] => Ok ([], [])
  | p :: rest =>
      match lookup (tp_in p) from with
      | Some (o, v) => do q <- tincoming from rest; Ok ((tp_dst p, o) :: fst q, (tp_dst p, v) :: snd q)
      | None => UB
      end
  end.

(** [d] is the number of calls below the active one. *)
Inductive tstep (TP : tprog) : tstate -> answer -> tstate -> Prop :=
| t_plain fr below m p a g rest p1 e' m' p2 :
    t_rest fr = g :: rest -> plain (g_ins g) = true ->
    run_code (len below) (t_regs fr) p (g_pre g) = Ok p1 ->
    app_exec (g_ins g) (t_regs fr) m a = Ok (e', m') ->
    run_code (len below) e' p1 (g_post g) = Ok p2 ->
    tstep TP (mkT (fr :: below) m p) a (mkT (goto fr rest e' [] :: below) m' p2)
| t_lib fr below m p a g rest dst k args vals v p1 r1 x l p2 r2 e' p3 :
    t_rest fr = g :: rest -> g_ins g = ILib dst k args ->
    run_code (len below) (t_regs fr) p (g_pre g) = Ok p1 ->
    values (t_regs fr) args = Ok vals -> lib_event k vals m a = Ok v ->
    p_tdag p1 = Live r1 -> wrapped p1 vals (r_shadow r1 VALUE) v x l p2 -> (forall i, x = Some i -> lib_value k vals a = i) ->
    p_tdag p2 = Live r2 ->
    put_result (t_regs fr) dst (Some (lib_value k vals a)) = Ok e' ->
    run_code (len below) e' (set_rt p2 (rt_set_label r2 VALUE l)) (g_post g) = Ok p3 ->
    tstep TP (mkT (fr :: below) m p) a (mkT (goto fr rest e' [] :: below) (lib_mem k m a) p3)
| t_call fr below m p a g rest dst callee args c vals f new p1 p2 :
    t_rest fr = g :: rest -> g_ins g = ICall dst callee args ->
    run_code (len below) (t_regs fr) p (g_pre g) = Ok p1 ->
    value (t_regs fr) callee = Ok c -> values (t_regs fr) args = Ok vals ->
    get TP c = Some f -> tf_native f = false -> tenter c f vals dst = Ok new ->
    run_code (len below + 1) (t_regs new) p1 (tf_entry f) = Ok p2 ->
    tstep TP (mkT (fr :: below) m p) a (mkT (new :: goto fr rest (t_regs fr) (g_post g) :: below) m p2)
| t_ret fr caller below m p a v p1 x e' p2 :
    t_rest fr = [] -> t_term fr = Ret v ->
    run_code (len (caller :: below)) (t_regs fr) p (t_pre fr) = Ok p1 ->
    match v with Some o => do x <- value (t_regs fr) o; Ok (Some x) | None => Ok None end = Ok x ->
    put_result (t_regs caller) (t_dst fr) x = Ok e' ->
    run_code (len below) e' p1 (t_after caller) = Ok p2 ->
    tstep TP (mkT (fr :: caller :: below) m p) a (mkT (goto caller (t_rest caller) e' [] :: below) m p2)
| t_end fr m p a v p1 x :
    t_rest fr = [] -> t_term fr = Ret v ->
    match v with Some o => do x <- value (t_regs fr) o; Ok (Some x) | None => Ok None end = Ok x ->
    run_code 0 (t_regs fr) p (t_pre fr) = Ok p1 ->
    tstep TP (mkT [fr] m p) a (mkT [] m p1)
| t_jump fr below m p a b f blk inc vs p1 p2 :
    t_rest fr = [] -> target (t_regs fr) (t_term fr) = Ok b ->
    run_code (len below) (t_regs fr) p (t_pre fr) = Ok p1 ->
    get TP (t_fn fr) = Some f -> get (tf_blocks f) b = Some blk ->
    tincoming (t_blk fr) (tb_phis blk) = Ok inc ->
    pairs (fun o => do v <- value (t_regs fr) o; Ok (Some v)) (fst inc) = Ok vs ->
    phi_code (len below) p1 (snd inc) = Ok p2 ->
    tstep TP (mkT (fr :: below) m p) a
      (mkT (mkTf (t_fn fr) b (tb_body blk) (tb_pre blk) (tb_term blk) (assign (t_regs fr) vs) (t_dst fr) [] :: below) m p2).

(** main starts: the runtime is up (M_Runtime, cb_start). *)
Inductive tstart (TP : tprog) (main : N) (vals : list N) (m : mem) (p : proc) : tstate -> Prop :=
| t_start f fr p1 : get TP main = Some f -> tenter main f vals None = Ok fr ->
    run_code 0 (t_regs fr) p (tf_entry f) = Ok p1 -> tstart TP main vals m p (mkT [fr] m p1).

(** Executions, while there are labels left (the last 64 are excluded, see C20). *)
Definition roomy (T : tstate) : Prop := forall r, p_tdag (t_proc T) = Live r -> room r 0.
Inductive trun (TP : tprog) (T0 : tstate) : list answer -> tstate -> Prop :=
| tr_nil : roomy T0 -> trun TP T0 [] T0
| tr_snoc as_ T a T' : trun TP T0 as_ T -> tstep TP T a T' -> roomy T' -> trun TP T0 (as_ ++ [a]) T'.
