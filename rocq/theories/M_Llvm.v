(** The programs that the DFSan pass instruments: a small LLVM IR, what its instructions do to
    registers and memory, and which events (S_Runtime) calls of libc amount to.  This is what
    polytracker/src/passes/DataFlowSanitizer.cpp takes as given; it models no file of /repo
    except for the names of the custom functions.

    Simplifications: a value of any type is a number; invoke and landing pads, variadic
    functions and function pointers passed to custom functions are left out. *)
From Coq Require Import NArith ZArith List Bool.
From Verif Require Import M_Base M_Memory M_Functions M_Dfsan S_Api S_Runtime.
Import ListNotations.
Open Scope N_scope.

(** ** Programs *)
(** Operands: constants (also undef, addresses of globals, functions), and the results of
    instructions, arguments and promoted allocas, all of which are called registers here. *)
Inductive operand : Type :=
| OConst (v : N)
| OReg (r : N).

(** Calls to functions that the ABI list names as custom: libc functions with a wrapper in
    taint_sources.cpp and write_taints.cpp, and the callbacks put in by the other passes. *)
Inductive libcall : Type :=
| LOpen | LFopen | LClose | LFclose
| LRead | LFread | LFgets | LGetc | LMmap | LMunmap
| LWrite | LFwrite | LPutc
| LArgv
| LBranch                   (* __polytracker_log_conditional_branch *)
| LTainted                  (* __polytracker_log_tainted_control_flow *)
| LEnter (name : list N)    (* __polytracker_log_func_entry; the name is a constant string *)
| LExit                     (* __polytracker_log_func_exit *)
| LCfEnter | LCfLeave.      (* __polytracker_enter_function, __polytracker_leave_function *)

(** What an instruction computes; [c_gep]: it is a getelementptr, whose operands after the
    first are indices. *)
Record comp := mkComp { c_gep : bool; c_fun :> list N -> option N }.
Definition pure : (list N -> option N) -> comp := mkComp false.

Inductive instr : Type :=
| IComp (dst : N) (ops : list operand) (f : comp)
    (* unary, binary, cast, compare, getelementptr, vector and aggregate instructions,
       vector select, intrinsics, calls of functions listed as functional *)
| ILoad (dst : N) (ptr : operand) (size : N) (const : bool)  (* const: from constant globals only *)
| IStore (v ptr : operand) (size : N) (atomic : bool)
| IRmw (dst : N) (ptr v : operand) (size : N) (f : N -> N -> N)  (* atomicrmw, cmpxchg *)
| IGet (dst x : N)                         (* load from a promoted alloca x *)
| ISet (x : N) (v : operand) (atomic : bool)  (* store to a promoted alloca x *)
| ISelect (dst : N) (c a b : operand)      (* scalar condition *)
| IMemset (ptr v n : operand)
| IMemmove (dst src n : operand)           (* memcpy, memmove *)
| IOpaque (dst : option N)                 (* alloca; calls of functions listed as discard *)
| ICall (dst : option N) (callee : operand) (args : list operand)
| ILib (dst : option N) (k : libcall) (args : list operand).

Inductive term : Type :=
| Br (b : N)
| CondBr (c : operand) (b1 b2 : N)
| Switch (c : operand) (cases : list (N * N)) (default : N)
| Ret (v : option operand).

(** A phi: its register and, per predecessor block, the incoming operand. *)
Record phi := mkPhi { ph_dst : N; ph_in : list (N * operand) }.
Record block := mkBlock { b_phis : list phi; b_body : list instr; b_term : term }.
(** [fn_native]: the function keeps the native ABI, such as main. *)
Record func := mkFunc { fn_native : bool; fn_params : list N; fn_blocks : list block }.
Definition prog := list func.

(** ** What an instruction does to registers and memory *)
Definition regs := N -> option N.
Definition put {A} (m : N -> A) (x : N) (v : A) : N -> A := fun y => if y =? x then v else m y.

(** What came back from outside the program: the value returned, memory afterwards, and for
    calls of libc the descriptor concerned (fileno of a stream), the position reported before
    the call, the returned count and a few more. *)
Record answer := mkAnswer {
  an_val : N; an_mem : mem; an_fd : Z; an_pos : Z; an_ret : Z; an_n : N;
  an_path : list N; an_size : option N; an_args : list (N * N)
}.

Definition value (e : regs) (o : operand) : Res N :=
  match o with
  | OConst v => Ok v
  | OReg r => match e r with Some v => Ok v | None => UB end
  end.
Fixpoint values (e : regs) (os : list operand) : Res (list N) :=
  match os with
  | [] => Ok []
  | o :: rest => do v <- value e o; do vs <- values e rest; Ok (v :: vs)
  end.

(** Accesses do not wrap around the end of the address space. *)
Definition span (a n : N) : Res unit := if a + n <=? two64 then Ok tt else UB.

Definition app_exec (i : instr) (e : regs) (m : mem) (a : answer) : Res (regs * mem) :=
  match i with
  | IComp dst ops f => do vs <- values e ops;
      match f vs with Some v => Ok (put e dst (Some v), m) | None => UB end
  | ILoad dst ptr size _ => do p <- value e ptr; do _ <- span p size;
      Ok (put e dst (Some (load_int m p (N.to_nat size))), m)
  | IStore v ptr size _ => do x <- value e v; do p <- value e ptr; do _ <- span p size;
      Ok (e, store_int m p (N.to_nat size) x)
  | IRmw dst ptr v size f => do x <- value e v; do p <- value e ptr; do _ <- span p size;
      let old := load_int m p (N.to_nat size) in
      Ok (put e dst (Some old), store_int m p (N.to_nat size) (f old x))
  | IGet dst x => do v <- value e (OReg x); Ok (put e dst (Some v), m)
  | ISet x v _ => do y <- value e v; Ok (put e x (Some y), m)
  | ISelect dst c x y => do k <- value e c; do v <- value e (if k =? 0 then y else x); Ok (put e dst (Some v), m)
  | IMemset ptr v n => do p <- value e ptr; do x <- value e v; do k <- value e n; do _ <- span p k;
      Ok (e, fill m p k (x mod two8))
  | IMemmove dst src n => do d <- value e dst; do s <- value e src; do k <- value e n;
      do _ <- span d k; do _ <- span s k; Ok (e, move m d s k)
  | IOpaque dst => Ok (match dst with Some x => put e x (Some (an_val a)) | None => e end, an_mem a)
  | ICall _ _ _ | ILib _ _ _ => UB
  end.

(** ** Control flow *)
Definition assign {A} (m : N -> A) (l : list (N * A)) : N -> A := fold_left (fun m p => put m (fst p) (snd p)) l m.

Fixpoint lookup {A} (l : list (N * A)) (k : N) : option A :=
  match l with [] => None | (x, v) :: r => if x =? k then Some v else lookup r k end.

(** The operands that the phis of a block take when it is entered from block [from]. *)
Fixpoint incoming (from : N) (ps : list phi) : Res (list (N * operand)) :=
  match ps with
  | [] => Ok []
  | p :: rest =>
      match lookup (ph_in p) from with
      | Some o => do l <- incoming from rest; Ok ((ph_dst p, o) :: l)
      | None => UB
      end
  end.
Fixpoint pairs {A} (f : operand -> Res A) (l : list (N * operand)) : Res (list (N * A)) :=
  match l with
  | [] => Ok []
  | (x, o) :: r => do v <- f o; do vs <- pairs f r; Ok ((x, v) :: vs)
  end.

(** Where a branch goes. *)
Definition target (e : regs) (t : term) : Res N :=
  match t with
  | Br b => Ok b
  | CondBr c b1 b2 => do v <- value e c; Ok (if v =? 0 then b2 else b1)
  | Switch c cases default => do v <- value e c; Ok (match lookup cases v with Some b => b | None => default end)
  | Ret _ => UB
  end.

(** The registers of a called function: its arguments. *)
Definition no_regs : regs := fun _ => None.

(** ** Calls of libc *)
(** The place of a value that is passed to or returned by a libc function as such; no
    application memory is there. *)
Definition VALUE : N := two64.

Definition int32 (v : N) : Z := let z := Z.of_N (v mod 2 ^ 32) in if (z <? 2 ^ 31)%Z then z else (z - 2 ^ 32)%Z.
Definition unsigned (bits : Z) (z : Z) : N := Z.to_N (z mod 2 ^ bits).
Definition arg (vals : list N) (i : nat) : N := nth i vals 0.
Definition text_at (m : mem) (p : N) (t : list N) : bool :=
  bytes_eqb (load m p (len t)) t && forallb (fun c => negb (c =? 0)) t && (m (p + len t) =? 0).

(** The number of arguments (open may have one more). *)
Definition arity (k : libcall) : N :=
  match k with
  | LEnter _ => 0
  | LClose | LFclose | LGetc | LBranch | LExit | LCfEnter | LCfLeave => 1
  | LOpen | LFopen | LMunmap | LPutc | LArgv | LTainted => 2
  | LRead | LFgets | LWrite => 3
  | LFread | LFwrite => 4
  | LMmap => 6
  end.

(** The event that a call with argument values [vals] amounts to. *)
Definition lib_event (k : libcall) (vals : list N) (m : mem) (a : answer) : Res event :=
  if len vals <? arity k then UB else
  match k with
  | LOpen | LFopen => if text_at m (arg vals 0) (an_path a) then Ok (EOpen (an_path a) (an_fd a) (an_size a)) else UB
  | LClose => Ok (EClose (int32 (arg vals 0)) (an_ret a))
  | LFclose => Ok (EClose (an_fd a) (an_ret a))
  | LRead => Ok (ERead (int32 (arg vals 0)) (arg vals 1) (an_pos a) (an_ret a))
  | LFread => Ok (EFread (an_fd a) (arg vals 0) (arg vals 1) (an_pos a) (an_n a))
  | LFgets => if an_val a =? 0 then Ok (ERead (an_fd a) (arg vals 0) (an_pos a) 0)  (* null: nothing was read *)
              else Ok (EFgets (an_fd a) (arg vals 0) (an_mem a) (an_n a) (an_pos a))
  | LGetc => Ok (EGetc (an_fd a) (an_pos a) (an_ret a) VALUE)
  | LMmap => Ok (EMmap (arg vals 1) (int32 (arg vals 4)) (Z.of_N (arg vals 5))
                       (if an_val a =? two64 - 1 then None else Some (an_val a)))
  | LMunmap => if (an_ret a =? 0)%Z then Ok (EMunmap (arg vals 0) (arg vals 1)) else UB  (* failed calls are left out *)
  | LWrite => Ok (EWrite (int32 (arg vals 0)) (arg vals 1) (an_pos a) (an_ret a))
  | LFwrite => Ok (EFwrite (an_fd a) (arg vals 0) (arg vals 1) (an_pos a) (an_n a))
  | LPutc => Ok (EPutc (int32 (arg vals 0)) (an_fd a) (an_pos a) (an_ret a) VALUE)
  | LArgv => Ok (EArgv m (an_args a))
  | LBranch => Ok (EBranch VALUE)
  | LTainted => Ok (ECfTainted (arg vals 1) VALUE)
  | LEnter name => Ok (EEnter name)
  | LExit => Ok (EExit (arg vals 0))
  | LCfEnter => Ok (ECfEnter (arg vals 0))
  | LCfLeave => Ok (ECfLeave (arg vals 0))
  end.

(** Memory afterwards: callbacks do not write to the memory of the program. *)
Definition callback (k : libcall) : bool :=
  match k with LArgv | LBranch | LTainted | LEnter _ | LExit | LCfEnter | LCfLeave => true | _ => false end.
Definition lib_mem (k : libcall) (m : mem) (a : answer) : mem := if callback k then m else an_mem a.

(** The value returned. *)
Definition lib_value (k : libcall) (vals : list N) (a : answer) : N :=
  match k with
  | LOpen => unsigned 32 (an_fd a)
  | LClose | LFclose | LGetc | LPutc | LMunmap => unsigned 32 (an_ret a)
  | LRead | LWrite => unsigned 64 (an_ret a)
  | LFread | LFwrite => an_n a
  | LFgets => if an_val a =? 0 then 0 else arg vals 0
  | LTainted => arg vals 0
  | LFopen | LMmap | LEnter _ | LArgv | LBranch | LExit | LCfEnter | LCfLeave => an_val a
  end.
