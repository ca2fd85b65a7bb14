(** The instrumentation passes, polytracker/src/passes.  Modules and their execution are in
    M_Ir. *)
From Coq Require Import NArith List Bool.
From Verif Require Import M_Base M_Functions M_Ir.
Import ListNotations.
Open Scope N_scope.

(** ** std::ofstream, as far as tainted_control_flow.cpp uses it: bytes, position, failbit *)
Record ofile : Type := mkOfile { o_bytes : list N; o_pos : nat; o_fail : bool }.
Definition o_new : ofile := mkOfile [] 0 false.
(** operator<<: nothing happens once a bit is set. *)
Definition o_write (f : ofile) (bs : list N) : ofile :=
  if o_fail f then f
  else mkOfile (firstn (o_pos f) (o_bytes f) ++ bs ++ skipn (o_pos f + length bs) (o_bytes f)) (o_pos f + length bs) false.
(** seekp(-n, std::ios::cur): a position before the start of the file sets failbit. *)
Definition o_back (f : ofile) (n : nat) : ofile :=
  if o_fail f then f
  else if Nat.ltb (o_pos f) n then mkOfile (o_bytes f) (o_pos f) true
  else mkOfile (o_bytes f) (o_pos f - n) false.

(** ** FunctionMappingJSONWriter, tainted_control_flow.cpp:27-49 *)
(** Constructor, 29-32. *)
Definition js_new : ofile := o_write o_new [91].
(** append, 40-45. *)
Definition js_append (f : ofile) (name : list N) : ofile :=
  o_write (o_write (o_write f [34]) name) [34; 44; 10].
(** Destructor, 34-38. *)
Definition js_end (f : ofile) : ofile := o_write (o_back f 2) [10; 93; 10].

(** ** TaintedControlFlowPass *)
(** function_ids_, function_counter_, function_mapping_writer_ (tainted_control_flow.h:60-63). *)
Record tcf : Type := mkTcf { t_ids : list (N * N); t_counter : N; t_js : ofile }.
(** The constructor, tainted_control_flow.cpp:190-193. *)
Definition tcf_new : tcf := mkTcf [] 0 js_new.
Fixpoint id_find (m : list (N * N)) (key : N) : option N :=
  match m with [] => None | (k, i) :: r => if k =? key then Some i else id_find r key end.
(** get_or_add_mapping, tainted_control_flow.cpp:53-63, and get_function_id_const, 76-88; [key] stands for the
    address of the function.  The counter is a uint32_t. *)
Definition get_id (t : tcf) (key : N) (name : list N) : N * tcf :=
  match id_find (t_ids t) key with
  | Some i => (i, t)
  | None => (t_counter t, mkTcf ((key, t_counter t) :: t_ids t) (add32 (t_counter t) 1) (js_append (t_js t) name))
  end.

Section Passes.
  Context {W : Type}.
  Notation instr := (instr W).
  Notation block := (block W).
  Notation func := (func W).
  Notation modul := (modul W).

  (** Results of new instructions get the registers from [fresh] on, which the function does
      not use yet. *)
  Definition o_bound (o : operand) : N := match o with OReg r => r + 1 | _ => 0 end.
  Definition max_of (l : list N) : N := fold_right N.max 0 l.
  Definition rt_bound (c : rtcall operand) : N :=
    match c with RtTainted v _ | RtBranch v | RtExit v => o_bound v | _ => 0 end.
  Definition i_bound (i : instr) : N :=
    match i with
    | IOp dst args _ => N.max (dst + 1) (max_of (map o_bound args))
    | IGep dst b idxs _ => N.max (dst + 1) (N.max (o_bound b) (max_of (map (fun x => o_bound (fst x)) idxs)))
    | ISelect dst c a b _ => N.max (dst + 1) (N.max (o_bound c) (N.max (o_bound a) (o_bound b)))
    | ICast dst v _ _ => N.max (dst + 1) (o_bound v)
    | ICall dst t args => N.max (dst + 1) (N.max (o_bound t) (max_of (map o_bound args)))
    | IRt dst c => N.max (match dst with Some d => d + 1 | None => 0 end) (rt_bound c)
    end.
  Definition t_bound (t : term) : N :=
    match t with TCondBr c _ _ | TSwitch c _ _ _ | TRet c => o_bound c | _ => 0 end.
  Definition b_bound (b : block) : N := N.max (max_of (map i_bound (b_ins b))) (t_bound (b_term b)).
  Definition fresh (f : func) : N := max_of (map b_bound (f_blocks f)).

  (** The three instructions put in front of a use of [o], of width [w]: extension to 64 bits,
      the call, and the way back (tainted_control_flow.cpp:98-102, 114-118, 125-129, 140-144); with the operand
      to be used instead and the next fresh register. *)
  Definition tcf_route (k fid : N) (o : operand) (w : N) : list instr * operand * N :=
    ([ICast k o w 64; IRt (Some (k + 1)) (RtTainted (OReg k) fid); ICast (k + 2) (OReg (k + 1)) 64 w], OReg (k + 2), k + 3).

  (** visitGetElementPtrInst, tainted_control_flow.cpp:90-104. *)
  Fixpoint tcf_idxs (t : tcf) (key : N) (name : list N) (k : N) (idxs : list (operand * N))
    : list instr * list (operand * N) * tcf * N :=
    match idxs with
    | [] => ([], [], t, k)
    | (o, w) :: rest =>
        if is_const o then
          let '(pre, rest', t', k') := tcf_idxs t key name k rest in (pre, (o, w) :: rest', t', k')
        else
          let (fid, t1) := get_id t key name in
          let '(p, o', k1) := tcf_route k fid o w in
          let '(pre, rest', t', k') := tcf_idxs t1 key name k1 rest in
          (p ++ pre, (o', w) :: rest', t', k')
    end.

  (** InstVisitor::visit on one instruction: getelementptr above, select 132-145 (conditions are
      one bit wide), everything else stays. *)
  Definition tcf_instr (t : tcf) (key : N) (name : list N) (k : N) (i : instr) : list instr * tcf * N :=
    match i with
    | IGep dst b idxs f =>
        let '(pre, idxs', t', k') := tcf_idxs t key name k idxs in (pre ++ [IGep dst b idxs' f], t', k')
    | ISelect dst c a b f =>
        let (fid, t1) := get_id t key name in
        let '(p, c', k1) := tcf_route k fid c 1 in (p ++ [ISelect dst c' a b f], t1, k1)
    | _ => ([i], t, k)
    end.
  (** ... and on terminators: visitBranchInst 106-119, visitSwitchInst 121-130, visitReturnInst 173-176. *)
  Definition tcf_term (t : tcf) (key : N) (name : list N) (k : N) (x : term) : list instr * term * tcf * N :=
    match x with
    | TCondBr c yes no =>
        let (fid, t1) := get_id t key name in
        let '(p, c', k1) := tcf_route k fid c 1 in (p, TCondBr c' yes no, t1, k1)
    | TSwitch c w cases d =>
        let (fid, t1) := get_id t key name in
        let '(p, c', k1) := tcf_route k fid c w in (p, TSwitch c' w cases d, t1, k1)
    | TRet v =>
        let (fid, t1) := get_id t key name in ([IRt None (RtLeave fid)], TRet v, t1, k)
    | _ => ([], x, t, k)
    end.
  Fixpoint tcf_instrs (t : tcf) (key : N) (name : list N) (k : N) (is : list instr) : list instr * tcf * N :=
    match is with
    | [] => ([], t, k)
    | i :: r =>
        let '(p, t1, k1) := tcf_instr t key name k i in
        let '(q, t2, k2) := tcf_instrs t1 key name k1 r in (p ++ q, t2, k2)
    end.
  Definition tcf_block (t : tcf) (key : N) (name : list N) (k : N) (b : block) : block * tcf * N :=
    let '(p, t1, k1) := tcf_instrs t key name k (b_ins b) in
    let '(q, x, t2, k2) := tcf_term t1 key name k1 (b_term b) in
    (mkBlock (p ++ q) x, t2, k2).
  Fixpoint tcf_blocks (t : tcf) (key : N) (name : list N) (k : N) (bs : list block) : list block * tcf * N :=
    match bs with
    | [] => ([], t, k)
    | b :: r =>
        let '(b', t1, k1) := tcf_block t key name k b in
        let '(r', t2, k2) := tcf_blocks t1 key name k1 r in (b' :: r', t2, k2)
    end.
  (** An instruction before everything else in the entry block. *)
  Definition at_entry (i : instr) (bs : list block) : list block :=
    match bs with [] => [] | b :: r => mkBlock (i :: b_ins b) (b_term b) :: r end.
  (** instrumentFunctionEnter, tainted_control_flow.cpp:165-171, then visit(fn). *)
  Definition tcf_func (t : tcf) (key : N) (f : func) : func * tcf :=
    match f_blocks f with
    | [] => (f, t)
    | bs =>
        let (fid, t1) := get_id t key (f_name f) in
        let '(bs', t2, _) := tcf_blocks t1 key (f_name f) (fresh f) (at_entry (IRt None (RtEnter fid)) bs) in
        (mkFunc (f_name f) (f_params f) bs', t2)
    end.
  (** run, tainted_control_flow.cpp:178-188. *)
  Fixpoint tcf_funcs (t : tcf) (key : N) (M : modul) : modul * tcf :=
    match M with
    | [] => ([], t)
    | f :: r => let (f', t1) := tcf_func t key f in let (r', t2) := tcf_funcs t1 (key + 1) r in (f' :: r', t2)
    end.
  (** A run of the pass on one module: the module and functionid.json. *)
  Definition tcf_pass (M : modul) : modul * list N :=
    let (M', t) := tcf_funcs tcf_new 0 M in (M', o_bytes (js_end (t_js t))).

  (** ** TaintTrackingPass, taint_tracking.cpp *)
  (** insertCondBrLogCall, 72-80 (scalars): the operand is brought to the width of labels, 32 bits. *)
  Definition tt_log (k : N) (o : operand) (w : N) : list instr * N :=
    ([ICast k o w 32; IRt None (RtBranch (OReg k))], k + 1).
  (** visitGetElementPtrInst, 87-94. *)
  Fixpoint tt_idxs (k : N) (idxs : list (operand * N)) : list instr * N :=
    match idxs with
    | [] => ([], k)
    | (o, w) :: rest =>
        if is_const o then tt_idxs k rest
        else let (p, k1) := tt_log k o w in let (q, k2) := tt_idxs k1 rest in (p ++ q, k2)
    end.
  Definition tt_instr (k : N) (i : instr) : list instr * N :=
    match i with
    | IGep dst b idxs f => let (p, k1) := tt_idxs k idxs in (p ++ [i], k1)
    | _ => ([i], k)
    end.
  (** visitBranchInst, visitSwitchInst, 96-105. *)
  Definition tt_term (k : N) (x : term) : list instr * N :=
    match x with
    | TCondBr c _ _ => tt_log k c 1
    | TSwitch c w _ _ => tt_log k c w
    | _ => ([], k)
    end.
  Fixpoint tt_instrs (k : N) (is : list instr) : list instr * N :=
    match is with
    | [] => ([], k)
    | i :: r => let (p, k1) := tt_instr k i in let (q, k2) := tt_instrs k1 r in (p ++ q, k2)
    end.
  Fixpoint tt_blocks (k : N) (bs : list block) : list block :=
    match bs with
    | [] => []
    | b :: r =>
        let (p, k1) := tt_instrs k (b_ins b) in
        let (q, k2) := tt_term k1 (b_term b) in
        mkBlock (p ++ q) (b_term b) :: tt_blocks k2 r
    end.
  Definition name_main : list N := [109; 97; 105; 110].
  (** emitTaintArgvCall, 32-68: the call goes before all instructions of main; [argv_op] is
      __polytracker_taint_argv, [k] an unused register for its void result.  getArg of a missing parameter and
      getEntryBlock of a declaration are undefined. *)
  Definition tt_argv (argv_op : list val -> W -> option (val * W)) (k : N) (f : func) : Res func :=
    if f_params f <? 2 then UB
    else match f_blocks f with
         | [] => UB
         | bs => Ok (mkFunc (f_name f) (f_params f) (at_entry (IOp k [OReg 0; OReg 1] argv_op) bs))
         end.
  Definition ignored (ignore : list (list N)) (name : list N) : bool := existsb (bytes_eqb name) ignore.
  (** run, 114-131, without the global constructor (main.cpp and polytracker.cpp are modelled in M_Runtime). *)
  Definition tt_func (ignore : list (list N)) (argv_op : list val -> W -> option (val * W)) (f : func) : Res func :=
    if ignored ignore (f_name f) then Ok f
    else
      let k := N.max 2 (fresh f) in
      let f' := mkFunc (f_name f) (f_params f) (tt_blocks (k + 1) (f_blocks f)) in
      if bytes_eqb (f_name f) name_main then tt_argv argv_op k f' else Ok f'.
  Fixpoint tt_pass (ignore : list (list N)) (argv_op : list val -> W -> option (val * W)) (M : modul) : Res modul :=
    match M with
    | [] => Ok []
    | f :: r => do f' <- tt_func ignore argv_op f; do r' <- tt_pass ignore argv_op r; Ok (f' :: r')
    end.

  (** ** FunctionTracingPass, function_tracing.cpp *)
  (** visitReturnInst, 34-37; [k] holds the result of the call at the entry. *)
  Definition ft_block (k : N) (b : block) : block :=
    match b_term b with
    | TRet v => mkBlock (b_ins b ++ [IRt None (RtExit (OReg k))]) (TRet v)
    | _ => b
    end.
  (** run, 39-55; the length is an i16. *)
  Definition ft_func (ignore : list (list N)) (f : func) : func :=
    match f_blocks f with
    | [] => f
    | bs =>
        if ignored ignore (f_name f) then f
        else
          let k := fresh f in
          mkFunc (f_name f) (f_params f)
            (at_entry (IRt (Some k) (RtEntry (f_name f) (len (f_name f) mod two16))) (map (ft_block k) bs))
    end.
  Definition ft_pass (ignore : list (list N)) (M : modul) : modul := map (ft_func ignore) M.
End Passes.

(** ** readIgnoreLists, utils.cpp:20-53 *)
(** std::getline: lines end at newlines; an unfinished last line counts when not empty. *)
Fixpoint get_lines (acc : list N) (bs : list N) : list (list N) :=
  match bs with
  | [] => match acc with [] => [] | _ => [rev acc] end
  | b :: r => if b =? 10 then rev acc :: get_lines [] r else get_lines (b :: acc) r
  end.
(** StringRef::startswith, contains, find. *)
Fixpoint starts_with (p s : list N) : bool :=
  match p, s with
  | [], _ => true
  | a :: p', b :: s' => (a =? b) && starts_with p' s'
  | _ :: _, [] => false
  end.
Fixpoint contains (p s : list N) : bool :=
  starts_with p s || match s with [] => false | _ :: r => contains p r end.
Fixpoint find_char (c : N) (s : list N) : option nat :=
  match s with
  | [] => None
  | b :: r => if b =? c then Some O else option_map S (find_char c r)
  end.
Definition word_discard : list N := [100; 105; 115; 99; 97; 114; 100].
(** The body of the loop, 30-49: the name a line adds. *)
Definition ignore_line (line : list N) : option (list N) :=
  if starts_with [35] line || bytes_eqb line [10] then None
  else if contains name_main line then None
  else if negb (contains word_discard line) then None
  else match find_char 58 line, find_char 61 line with
       | Some s, Some e => if Nat.ltb (s + 1) e then Some (firstn (e - (s + 1)) (skipn (s + 1) line)) else None
       | _, _ => None
       end.
Fixpoint ignore_lines (lines : list (list N)) : list (list N) :=
  match lines with
  | [] => []
  | l :: r => match ignore_line l with Some n => n :: ignore_lines r | None => ignore_lines r end
  end.
(** The whole function; [None] is a file that does not open. *)
Fixpoint read_ignore (files : list (option (list N))) : list (list N) :=
  match files with
  | [] => []
  | None :: r => read_ignore r
  | Some bs :: r => ignore_lines (get_lines [] bs) ++ read_ignore r
  end.
