(** Model of the DFSan instrumentation pass, polytracker/src/passes/DataFlowSanitizer.cpp, in
    the configuration PolyTracker uses: legacy labels of 32 bits, the TLS ABI, no origins, no
    tracking of aggregate fields, pointer labels combined on loads but not on stores, and
    select tracked (the default values of the cl::opt flags at the head of the file).

    Simplifications.  The shadow of an instruction is a register of its own to which the
    combined label is copied; the pass reuses the SSA value, which is the same as long as
    definitions dominate uses.  The caches of combineShadows (ShadowElements, CachedShadows)
    are left out here.
    Not modelled: invoke and landing pads, variadic functions, function pointers passed to
    custom functions (trampolines), aliases, and the debug and event callback options. *)
From Coq Require Import NArith ZArith List Bool.
From Verif Require Import M_Base M_Memory M_Dfsan M_Llvm.
Import ListNotations.
Open Scope N_scope.

(** ** Programs that come out *)
(** A shadow operand: the zero shadow, the shadow of a register, or the latest combined shadow. *)
Inductive sval : Type := SZero | SReg (r : N) | STmp.

Inductive sinstr : Type :=
| TSet (dst : N) (v : sval)                    (* shadow of dst := v *)
| TUnion (checked : bool) (a b : sval)         (* combined shadow := union; checked: by dfsan_union *)
| TLoad (avoid : bool) (ptr : operand) (size : N)  (* combined shadow := union of the labels of the bytes *)
| TStore (ptr : operand) (size : N) (v : sval)
| TSelect (c : operand) (a b : sval)           (* combined shadow := select *)
| TSetLabel (ptr n : operand) (v : sval)       (* __dfsan_set_label *)
| TMove (dst src n : operand)                  (* memmove of the shadow *)
| TArg (off : N) (v : sval)                    (* __dfsan_arg_tls[off] := v *)
| TArgLoad (dst off : N)
| TRet (v : sval)                              (* __dfsan_retval_tls := v *)
| TRetLoad (dst : N)
| TPass (v : sval)                             (* label argument of a custom function *)
| TResult (dst : N).                           (* label returned by a custom function *)

(** An instruction with what the pass put in front of it and behind it. *)
Record group := mkGroup { g_pre : list sinstr; g_ins : instr; g_post : list sinstr }.
(** A phi and its shadow phi. *)
Record tphi := mkTphi { tp_dst : N; tp_in : list (N * (operand * sval)) }.
Record tblock := mkTblock { tb_phis : list tphi; tb_body : list group; tb_pre : list sinstr; tb_term : term }.
Record tfunc := mkTfunc { tf_native : bool; tf_params : list N; tf_entry : list sinstr; tf_blocks : list tblock }.
Definition tprog := list tfunc.

(** ** The pass *)
(** ArgTLSSize, DataFlowSanitizer.cpp:151; a shadow has 4 bytes, and alignTo(4, 2) = 4. *)
Definition ARG_TLS : N := 800.
Definition SHADOW_BYTES : N := 4.

(** getShadow, DataFlowSanitizer.cpp:1763-1791; the shadow of an argument is set up by
    [arg_loads]. *)
Definition sh (o : operand) : sval := match o with OConst _ => SZero | OReg r => SReg r end.

Definition sval_eqb (a b : sval) : bool :=
  match a, b with
  | SZero, SZero | STmp, STmp => true
  | SReg x, SReg y => x =? y
  | _, _ => false
  end.

(** combineShadows, DataFlowSanitizer.cpp:1861-1946, without the caches. *)
Definition combine_shadows (avoid : bool) (a b : sval) : list sinstr * sval :=
  if sval_eqb a SZero then ([], b)
  else if sval_eqb b SZero then ([], a)
  else if sval_eqb a b then ([], a)
  else ([TUnion avoid a b], STmp).

(** combineOperandShadows, DataFlowSanitizer.cpp:1951-1960. *)
Fixpoint combine_rest (avoid : bool) (acc : sval) (ops : list operand) : list sinstr * sval :=
  match ops with
  | [] => ([], acc)
  | o :: rest =>
      let (c1, v1) := combine_shadows avoid acc (sh o) in
      let (c2, v2) := combine_rest avoid v1 rest in (c1 ++ c2, v2)
  end.
Definition combine_ops (avoid : bool) (ops : list operand) : list sinstr * sval :=
  match ops with
  | [] => ([], SZero)
  | o :: rest => combine_rest avoid (sh o) rest
  end.

(** visitLoadInst, DataFlowSanitizer.cpp:2322-2373, with the cases of loadShadowOrigin (2203-2299)
    that do not look at shadow memory. *)
Definition load_code (avoid : bool) (dst : N) (ptr : operand) (size : N) (const : bool) : list sinstr :=
  if size =? 0 then [TSet dst SZero]
  else
    let (c1, v1) := if const then ([], SZero) else ([TLoad avoid ptr size], STmp) in
    let (c2, v2) := combine_shadows avoid v1 (sh ptr) in
    c1 ++ c2 ++ [TSet dst v2].

(** visitStoreInst, DataFlowSanitizer.cpp:2566-2623. *)
Definition store_code (v ptr : operand) (size : N) (atomic : bool) : list sinstr :=
  if size =? 0 then [] else [TStore ptr size (if atomic then SZero else sh v)].

(** visitCASOrRMW, DataFlowSanitizer.cpp:2625-2643. *)
Definition rmw_code (dst : N) (ptr : operand) (size : N) : list sinstr :=
  if size =? 0 then [TSet dst SZero] else [TStore ptr size SZero; TSet dst SZero].

(** visitSelectInst, DataFlowSanitizer.cpp:2748-2799. *)
Definition select_code (avoid : bool) (dst : N) (c a b : operand) : list sinstr :=
  let (c1, v1) := if sval_eqb (sh a) (sh b) then ([], sh a) else ([TSelect c (sh a) (sh b)], STmp) in
  let (c2, v2) := combine_shadows avoid (sh c) v1 in
  c1 ++ c2 ++ [TSet dst v2].

(** The stores to the argument TLS in visitCallBase, DataFlowSanitizer.cpp:3103-3129. *)
Fixpoint arg_stores (off : N) (args : list operand) : list sinstr :=
  match args with
  | [] => []
  | a :: rest =>
      if ARG_TLS <? off + SHADOW_BYTES then []
      else TArg off (sh a) :: arg_stores (off + SHADOW_BYTES) rest
  end.

(** getShadowForTLSArgument for each argument, DataFlowSanitizer.cpp:1730-1761, at the start of
    the function; all arguments are zero under the native ABI (1770-1772).
    Simplification: the pass only loads the shadows of arguments that are used. *)
Fixpoint arg_loads (native : bool) (off : N) (params : list N) : list sinstr :=
  match params with
  | [] => []
  | x :: rest =>
      (if native || (ARG_TLS <? off + SHADOW_BYTES) then TSet x SZero else TArgLoad x off)
      :: arg_loads native (off + SHADOW_BYTES) rest
  end.

(** The operand whose label the wrapper of a custom function looks at; the labels of the
    other operands are passed too, but the wrappers ignore them. *)
Definition label_op (k : libcall) (args : list operand) : option operand :=
  match k with
  | LFgets | LPutc | LBranch | LTainted => hd_error args
  | _ => None
  end.

(** DFSanVisitor, per instruction: visitInstOperands (1962-1966), the functions above,
    visitMemSetInst (2801-2812), visitMemTransferInst (2814-2849), visitAllocaInst (2719-2746),
    visitWrappedCallBase (2962-3080), visitCallBase (3082-3170).  The loads and stores of promoted allocas are the first cases of loadShadowOrigin and
    storePrimitiveShadowOrigin (2209-2221, 2490-2506). *)
Definition visit (avoid : bool) (i : instr) : group :=
  match i with
  | IComp dst ops f => let (c, v) := combine_ops avoid ops in mkGroup (c ++ [TSet dst v]) i []
  | ILoad dst ptr size const => mkGroup (load_code avoid dst ptr size const) i []
  | IStore v ptr size atomic => mkGroup (store_code v ptr size atomic) i []
  | IRmw dst ptr v size f => mkGroup (rmw_code dst ptr size) i []
  | IGet dst x => mkGroup [TSet dst (SReg x)] i []
  | ISet x v atomic => mkGroup [TSet x (if atomic then SZero else sh v)] i []
  | ISelect dst c a b => mkGroup (select_code avoid dst c a b) i []
  | IMemset ptr v n => mkGroup [TSetLabel ptr n (sh v)] i []
  | IMemmove dst src n => mkGroup [TMove dst src n] i []
  | IOpaque dst => mkGroup (match dst with Some x => [TSet x SZero] | None => [] end) i []
  | ICall dst callee args =>
      mkGroup (arg_stores 0 args) i (match dst with Some x => [TRetLoad x] | None => [] end)
  | ILib dst k args =>
      mkGroup (match label_op k args with Some o => [TPass (sh o)] | None => [] end) i
              (match dst with Some x => [TResult x] | None => [] end)
  end.

(** visitPHINode, DataFlowSanitizer.cpp:3236-3260, and the fix-up of the incoming shadows
    after all blocks were visited (1624-1634). *)
Definition visit_phi (p : phi) : tphi :=
  mkTphi (ph_dst p) (map (fun e => (fst e, (snd e, sh (snd e)))) (ph_in p)).

(** visitReturnInst, DataFlowSanitizer.cpp:2851-2889; other terminators are left alone. *)
Definition visit_term (native : bool) (t : term) : list sinstr :=
  match t with
  | Ret (Some v) => if native then [] else [TRet (sh v)]
  | _ => []
  end.

Definition visit_block (avoid native : bool) (b : block) : tblock :=
  mkTblock (map visit_phi (b_phis b)) (map (visit avoid) (b_body b)) (visit_term native (b_term b)) (b_term b).

(** The loop over FnsToInstrument in runImpl, DataFlowSanitizer.cpp:1594-1634, with AvoidNewBlocks
    from the constructor of DFSanFunction (591). *)
Definition visit_func (f : func) : tfunc :=
  let avoid := 1000 <? len (fn_blocks f) in
  mkTfunc (fn_native f) (fn_params f) (arg_loads (fn_native f) 0 (fn_params f))
          (map (visit_block avoid (fn_native f)) (fn_blocks f)).
Definition instrument (P : prog) : tprog := map visit_func P.
