(** The part of LLVM IR that the instrumentation passes look at
    (polytracker/src/passes/tainted_control_flow.cpp, taint_tracking.cpp, function_tracing.cpp: the instructions with a
    visit function, calls, returns), and how it executes.  This file models no code of /repo
    but the language the passes rewrite.

    Simplifications.  One thread.  Every instruction the passes leave alone is an [IOp] with
    an arbitrary effect, calls of functions without a body included; so are instructions on
    vectors.  Registers can be assigned again: a phi is a copy at the end of each
    predecessor.  A value is an integer together with its taint label; what labels
    instructions give to their results is part of their effect.  Reading a value at width w
    reduces it modulo 2^w.  Frames are left by returning only: no unwinding. *)
From Coq Require Import NArith List Bool.
From Verif Require Import M_Base.
Import ListNotations.
Open Scope N_scope.

(** A value and its label. *)
Definition val : Type := N * N.

(** llvm::ConstantInt, another constant, or the result of an instruction or a parameter. *)
Inductive operand : Type :=
| OInt (v : N)
| OConst (v : N)
| OReg (r : N).

(** Calls of the runtime: __polytracker_log_tainted_control_flow, _enter_function, _leave_function
    (tainted_control_flow.cpp:147-163), __polytracker_log_conditional_branch (taint_tracking.cpp:107-112),
    __polytracker_log_func_entry and _exit (function_tracing.cpp:24-32). *)
Inductive rtcall (A : Type) : Type :=
| RtTainted (v : A) (fid : N)
| RtEnter (fid : N)
| RtLeave (fid : N)
| RtBranch (v : A)
| RtEntry (name : list N) (length : N)
| RtExit (index : A).
Arguments RtTainted {A} v fid.
Arguments RtEnter {A} fid.
Arguments RtLeave {A} fid.
Arguments RtBranch {A} v.
Arguments RtEntry {A} name length.
Arguments RtExit {A} index.
Definition rt_map {A B} (f : A -> B) (c : rtcall A) : rtcall B :=
  match c with
  | RtTainted v i => RtTainted (f v) i
  | RtEnter i => RtEnter i
  | RtLeave i => RtLeave i
  | RtBranch v => RtBranch (f v)
  | RtEntry nm n => RtEntry nm n
  | RtExit v => RtExit (f v)
  end.

(** Why a value decides about control flow or an address. *)
Inductive decision : Type := DIndex | DBranch | DSwitch | DSelect.

Section Ir.
  (** Everything outside the registers: memory, files, ... *)
  Context {W : Type}.

  Inductive instr : Type :=
  | IOp (dst : N) (args : list operand) (f : list val -> W -> option (val * W))
  | IGep (dst : N) (base : operand) (idxs : list (operand * N)) (f : val -> list val -> val)
  | ISelect (dst : N) (cond a b : operand) (f : val -> val -> val -> val)
  | ICast (dst : N) (v : operand) (from to : N)
  | ICall (dst : N) (target : operand) (args : list operand)
  | IRt (dst : option N) (c : rtcall operand).

  Inductive term : Type :=
  | TBr (target : N)
  | TCondBr (cond : operand) (yes no : N)
  | TSwitch (cond : operand) (w : N) (cases : list (N * N)) (default : N)
  | TRet (v : operand)
  | TStop.

  Record block : Type := mkBlock { b_ins : list instr; b_term : term }.
  (** A function without blocks is a declaration.  Functions are called by their position in
      the module, which also stands for their address. *)
  Record func : Type := mkFunc { f_name : list N; f_params : N; f_blocks : list block }.
  Definition modul : Type := list func.

  (** ** Execution *)
  Definition regs : Type := N -> val.
  Definition set (e : regs) (r : N) (v : val) : regs := fun x => if x =? r then v else e x.
  Definition set_opt (e : regs) (r : option N) (v : val) : regs := match r with Some r => set e r v | None => e end.
  Definition eval (e : regs) (o : operand) : val :=
    match o with OInt v | OConst v => (v, 0) | OReg r => e r end.
  Definition at_width (w : N) (v : val) : val := (fst v mod 2 ^ w, snd v).

  (** IRBuilder::CreateSExtOrTrunc: sign extension to a wider type, truncation to a narrower
      one.  (The builder returns the value itself when the types agree.) *)
  Definition sext_or_trunc (from to : N) (v : N) : N :=
    let x := v mod 2 ^ from in
    if to <=? from then x mod 2 ^ to
    else if x <? 2 ^ (from - 1) then x else x + (2 ^ to - 2 ^ from).

  Record frame : Type := mkFrame { fr_fn : N; fr_ins : list instr; fr_term : term; fr_env : regs; fr_dst : N }.
  Record mstate : Type := mkSt { s_stack : list frame; s_world : W; s_hist : list (rtcall val); s_result : option val }.

  (** What can be observed of a step: calls, returns and decisions of the program, and calls
      of the runtime.  A decision comes with the width and value of what it depends on. *)
  Inductive obs : Type :=
  | OEnter (f : N)
  | OLeave (f : N)
  | ODecide (f : N) (k : decision) (vs : list (N * val))
  | ORt (c : rtcall val).

  (** The runtime as the program sees it: the answer to a call, given the calls before it. *)
  Variable answer : list (rtcall val) -> rtcall val -> val.

  Definition args_env (args : list val) : regs := fun r => match get args r with Some v => v | None => (0, 0) end.
  Definition enter (M : modul) (f : N) (args : list val) (dst : N) : option frame :=
    match get M f with
    | Some fn => match f_blocks fn with b :: _ => Some (mkFrame f (b_ins b) (b_term b) (args_env args) dst) | [] => None end
    | None => None
    end.
  Definition is_const (o : operand) : bool := match o with OInt _ => true | _ => false end.
  (** The indices that are not integer constants. *)
  Definition varying (e : regs) (idxs : list (operand * N)) : list (N * val) :=
    map (fun i => (snd i, at_width (snd i) (eval e (fst i)))) (filter (fun i => negb (is_const (fst i))) idxs).

  Definition goto (M : modul) (fr : frame) (t : N) : option frame :=
    match get M (fr_fn fr) with
    | Some fn => match get (f_blocks fn) t with
                 | Some b => Some (mkFrame (fr_fn fr) (b_ins b) (b_term b) (fr_env fr) (fr_dst fr))
                 | None => None
                 end
    | None => None
    end.
  Fixpoint pick (cases : list (N * N)) (default v : N) : N :=
    match cases with [] => default | (c, t) :: r => if c =? v then t else pick r default v end.

  (** One instruction.  [None]: the program ends there. *)
  Definition step_instr (M : modul) (fr : frame) (i : instr) (is : list instr) (rest : list frame) (w : W)
    (h : list (rtcall val)) : option (mstate * list obs) :=
    let e := fr_env fr in
    let next e' w' h' os := Some (mkSt (mkFrame (fr_fn fr) is (fr_term fr) e' (fr_dst fr) :: rest) w' h' None, os) in
    match i with
    | IOp dst args f => match f (map (eval e) args) w with Some (v, w') => next (set e dst v) w' h [] | None => None end
    | IGep dst base idxs f =>
        next (set e dst (f (eval e base) (map (fun i => at_width (snd i) (eval e (fst i))) idxs))) w h
          [ODecide (fr_fn fr) DIndex (varying e idxs)]
    | ISelect dst c a b f =>
        next (set e dst (f (at_width 1 (eval e c)) (eval e a) (eval e b))) w h [ODecide (fr_fn fr) DSelect [(1, at_width 1 (eval e c))]]
    | ICast dst v from to => next (set e dst (sext_or_trunc from to (fst (eval e v)), snd (eval e v))) w h []
    | ICall dst t args =>
        match enter M (fst (eval e t)) (map (eval e) args) dst with
        | Some fr' => Some (mkSt (fr' :: mkFrame (fr_fn fr) is (fr_term fr) e (fr_dst fr) :: rest) w h None, [OEnter (fr_fn fr')])
        | None => None
        end
    | IRt dst c =>
        let c' := rt_map (eval e) c in
        next (set_opt e dst (answer h c')) w (h ++ [c']) [ORt c']
    end.

  Definition step_term (M : modul) (fr : frame) (rest : list frame) (w : W) (h : list (rtcall val)) : option (mstate * list obs) :=
    let e := fr_env fr in
    let jump t os := match goto M fr t with Some fr' => Some (mkSt (fr' :: rest) w h None, os) | None => None end in
    match fr_term fr with
    | TBr t => jump t []
    | TCondBr c yes no =>
        let v := at_width 1 (eval e c) in
        jump (if fst v =? 0 then no else yes) [ODecide (fr_fn fr) DBranch [(1, v)]]
    | TSwitch c n cases default =>
        let v := at_width n (eval e c) in
        jump (pick cases default (fst v)) [ODecide (fr_fn fr) DSwitch [(n, v)]]
    | TRet v =>
        match rest with
        | [] => Some (mkSt [] w h (Some (eval e v)), [OLeave (fr_fn fr)])
        | c :: rest' => Some (mkSt (mkFrame (fr_fn c) (fr_ins c) (fr_term c) (set (fr_env c) (fr_dst fr) (eval e v)) (fr_dst c) :: rest') w h None,
                              [OLeave (fr_fn fr)])
        end
    | TStop => None
    end.

  Definition step (M : modul) (s : mstate) : option (mstate * list obs) :=
    match s_stack s with
    | [] => None
    | fr :: rest => match fr_ins fr with
                    | i :: is => step_instr M fr i is rest (s_world s) (s_hist s)
                    | [] => step_term M fr rest (s_world s) (s_hist s)
                    end
    end.

  (** The first [n] steps. *)
  Fixpoint run (M : modul) (n : nat) (s : mstate) : option (mstate * list obs) :=
    match n with
    | O => Some (s, [])
    | S k => match step M s with
             | Some (s1, os) => match run M k s1 with Some (s2, os') => Some (s2, os ++ os') | None => None end
             | None => None
             end
    end.

  (** The program starts with a call of [f]. *)
  Definition start (M : modul) (f : N) (args : list val) (w : W) : option (mstate * list obs) :=
    match enter M f args 0 with Some fr => Some (mkSt [fr] w [] None, [OEnter f]) | None => None end.
  Definition execution (M : modul) (f : N) (args : list val) (w : W) (n : nat) : option (mstate * list obs) :=
    match start M f args w with
    | Some (s, os) => match run M n s with Some (s', os') => Some (s', os ++ os') | None => None end
    | None => None
    end.
End Ir.
Arguments instr : clear implicits.
Arguments term : clear implicits.
Arguments block : clear implicits.
Arguments func : clear implicits.
Arguments modul : clear implicits.
Arguments frame : clear implicits.
Arguments mstate : clear implicits.
