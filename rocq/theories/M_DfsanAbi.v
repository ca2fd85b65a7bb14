(** Model of how the DFSan pass treats functions and calls,
    polytracker/src/passes/DataFlowSanitizer.cpp: the ABI list (278-312, 1123-1146), wrapper
    functions and aliases (1165-1250, 1459-1594), calls (2963-3170), arguments and results in
    thread-local arrays (1733-1761, 2851-2871).

    Simplifications: labels are values of any type with a function that combines two (C58 and
    C78 are about that function).  What the program's functions, native functions and wrappers of
    custom functions compute is given: functions of their arguments, the labels of these, and the
    rest of the state; each leaves anything in the thread-local arrays.  Every shadow has
    4 bytes.  A call has the type of the function called.  The name of a function stands for it.
    Exceptions (the unwind edge of invoke) are left out: an invoke is a call that continues at its
    normal destination. *)
From Coq Require Import NArith List Bool.
From Verif Require Import M_Base M_DfsanPass.
Import ListNotations.
Open Scope N_scope.

(** ** The ABI list *)
Inductive category : Type := Uninstrumented | Functional | Discard | Custom.
(** What the list says of the source file of the module, and of a function name. *)
Record abilist := mkList { l_src : category -> bool; l_fun : N -> category -> bool }.
(** DFSanABIList::isIn, 288-291; for aliases of functions it is the same (297-302). *)
Definition is_in (L : abilist) (n : N) (c : category) : bool := l_src L c || l_fun L n c.
(** isInstrumented, 1123-1131. *)
Definition is_instrumented (L : abilist) (n : N) : bool := negb (is_in L n Uninstrumented).
(** getWrapperKind, 1135-1146. *)
Inductive wkind : Type := WKWarning | WKDiscard | WKFunctional | WKCustom.
Definition wrapper_kind (L : abilist) (n : N) : wkind :=
  if is_in L n Functional then WKFunctional
  else if is_in L n Discard then WKDiscard
  else if is_in L n Custom then WKCustom
  else WKWarning.
Definition wkind_eqb (a b : wkind) : bool :=
  match a, b with WKWarning, WKWarning | WKDiscard, WKDiscard | WKFunctional, WKFunctional | WKCustom, WKCustom => true | _, _ => false end.

(** ** Modules *)
(** A function type: number of parameters, variadic, void. *)
Record ftype := mkType { t_params : nat; t_vararg : bool; t_void : bool }.
Record fdecl := mkFdecl { fd_name : N; fd_type : ftype; fd_defined : bool }.
Record modul := mkModul { m_funs : list fdecl; m_aliases : list (N * N) }.
Fixpoint find_fun (l : list fdecl) (n : N) : option fdecl :=
  match l with [] => None | f :: r => if fd_name f =? n then Some f else find_fun r n end.
Fixpoint find_alias (l : list (N * N)) (n : N) : option N :=
  match l with [] => None | (a, t) :: r => if a =? n then Some t else find_alias r n end.

(** ** What becomes of functions *)
(** IsZeroArgsVoidRet, 1504-1505. *)
Definition zero_args_void (t : ftype) : bool := Nat.eqb (t_params t) 0 && negb (t_vararg t) && t_void t.
(** The code that a use of a name in the module refers to after the pass. *)
Inductive code : Type :=
| XBody (n : N)            (* dfs$n: the function, instrumented *)
| XWrapper (n : N)         (* dfsw$n *)
| XNative (n : N)          (* n, native ABI *)
| XAlias (a t : N)         (* dfs$a: made from an alias of the listed function t, 1480-1489 *).

(** The loop over aliases, 1467-1491: an alias of which the list says something else than of its target becomes a
    function. *)
Definition alias_made (L : abilist) (M : modul) (n : N) : option N :=
  match find_alias (m_aliases M) n with
  | Some t => if eqb (is_instrumented L n) (is_instrumented L t) then None else Some t
  | None => None
  end.
(** The loop that changes the ABI, 1498-1594, for a function named [n]. *)
Definition fun_code (L : abilist) (n : N) (t : ftype) : code :=
  if is_instrumented L n then XBody n
  else if negb (zero_args_void t) || wkind_eqb (wrapper_kind L n) WKCustom then XWrapper n
  else XNative n.
(** A use of the name of a function or alias: F.replaceAllUsesWith, 1568, also changes what an alias
    stands for. *)
Definition pointer (L : abilist) (M : modul) (n : N) : option code :=
  match find_alias (m_aliases M) n with
  | Some t =>
      match find_fun (m_funs M) t with
      | Some f =>
          match alias_made L M n with
          | Some _ => if is_instrumented L n then Some (XAlias n t) else Some (fun_code L n (fd_type f))
          | None => Some (fun_code L t (fd_type f))
          end
      | None => None
      end
  | None => match find_fun (m_funs M) n with Some f => Some (fun_code L n (fd_type f)) | None => None end
  end.
(** UnwrappedFnMap, 1570: keyed by the wrapper functions, so not by aliases that are still aliases. *)
Definition unwrapped (L : abilist) (M : modul) (n : N) : option N :=
  match pointer L M n with
  | Some (XWrapper f) => if f =? n then Some f else None
  | _ => None
  end.
Definition type_of (M : modul) (n : N) : option ftype :=
  match find_fun (m_funs M) (match find_alias (m_aliases M) n with Some t => t | None => n end) with
  | Some f => Some (fd_type f)
  | None => None
  end.

(** ** Execution *)
Section Run.
  Context {Lb W : Type}.
  Variable zero : Lb.
  Variable join : Lb -> Lb -> Lb.
  (** __dfsan_arg_tls by offset, __dfsan_retval_tls. *)
  Record tls := mkTls { tl_args : N -> Lb; tl_ret : Lb }.
  (** A native function: the result and the state afterwards. *)
  Variable native : N -> list N -> W -> N * W * tls.
  (** The body of a function of the program: also the label of the result. *)
  Variable body : N -> list N -> list Lb -> W -> N * Lb * W * tls.
  (** The __dfsw_ function of a custom function. *)
  Variable custom : N -> list N -> list Lb -> W -> N * Lb * W * tls.
  Variable L : abilist.
  Variable M : modul.

  (** Stores of argument shadows, 3102-3129: the fixed parameters. *)
  Fixpoint put_args (a : N -> Lb) (off : N) (ls : list Lb) : N -> Lb :=
    match ls with
    | [] => a
    | l :: r => if ARG_TLS <? off + SHADOW_BYTES then a
                else put_args (fun o => if o =? off then l else a o) (off + SHADOW_BYTES) r
    end.
  (** getShadowForTLSArgument, 1733-1761. *)
  Fixpoint get_args (a : N -> Lb) (off : N) (n : nat) : list Lb :=
    match n with
    | O => []
    | S k => (if ARG_TLS <? off + SHADOW_BYTES then zero else a off) :: get_args a (off + SHADOW_BYTES) k
    end.
  (** combineOperandShadows, 1950-1959. *)
  Definition join_all (ls : list Lb) : Lb := match ls with [] => zero | l :: r => fold_left join r l end.

  (** What calls leave: value, state, arrays. *)
  Definition out : Type := N * W * tls.
  (** The instrumented body of a function, which ends with visitReturnInst, 2851-2871. *)
  Definition run_body (n : N) (t : ftype) (vals : list N) (w : W) (x : tls) : out :=
    let '(v, l, w', x') := body n vals (get_args (tl_args x) 0 (t_params t)) w in
    (v, w', if t_void t then x' else mkTls (tl_args x') l).
  (** A function that keeps the native ABI: one of the program (1573-1588) has zero labels for its
      arguments, as has one that stands for an alias (1480-1489) and calls the target. *)
  Definition run_native (n : N) (t : ftype) (vals : list N) (w : W) (x : tls) : Res out :=
    match alias_made L M n with
    | Some tn =>
        if t_vararg t then Exit
        else Ok (run_body tn t vals w (mkTls (put_args (tl_args x) 0 (repeat zero (t_params t))) (tl_ret x)))
    | None =>
        match find_fun (m_funs M) n with
        | Some f =>
            if fd_defined f then let '(v, _, w', x') := body n vals (repeat zero (t_params t)) w in Ok (v, w', x')
            else Ok (native n vals w)
        | None => Ok (native n vals w)
        end
    end.

  (** visitWrappedCallBase for a call, 2963-3080: value, label, state.  (The report of
      WK_Warning is left out.) *)
  Definition run_wrapped (n : N) (t : ftype) (vals : list N) (labels : list Lb) (w : W) (x : tls) : Res (N * Lb * W * tls) :=
    match wrapper_kind L n with
    | WKWarning | WKDiscard => do r <- run_native n t vals w x; let '(v, w', x') := r in Ok (v, zero, w', x')
    | WKFunctional => do r <- run_native n t vals w x; let '(v, w', x') := r in Ok (v, join_all labels, w', x')
    | WKCustom => Ok (custom n vals labels w)
    end.
  (** An instrumented function that calls [n] with its own arguments and returns the result:
      buildWrapperFunction, 1165-1197, after instrumentation. *)
  Definition run_forward (n : N) (t : ftype) (vals : list N) (w : W) (x : tls) : Res out :=
    if t_vararg t then Exit   (* __dfsan_vararg_wrapper *)
    else
      do r <- run_wrapped n t vals (get_args (tl_args x) 0 (t_params t)) w x;
      let '(v, l, w', x') := r in Ok (v, w', if t_void t then x' else mkTls (tl_args x') l).
  (** A call of a pointer. *)
  Definition run_code (c : code) (t : ftype) (vals : list N) (w : W) (x : tls) : Res out :=
    match c with
    | XBody n => Ok (run_body n t vals w x)
    | XWrapper n => run_forward n t vals w x
    | XNative n => run_native n t vals w x
    | XAlias _ n => run_forward n t vals w x
    end.

  (** A call or invoke in instrumented code: by name, or by a pointer. *)
  Inductive callee : Type := ByName (n : N) | ByPointer (c : code).
  (** The second half of visitCallBase, 3100-3170. *)
  Definition run_plain (c : code) (t : ftype) (vals : list N) (labels : list Lb) (w : W) (x : tls) : Res (N * Lb * W * tls) :=
    do r <- run_code c t vals w (mkTls (put_args (tl_args x) 0 (firstn (t_params t) labels)) (tl_ret x));
    let '(v, w', x') := r in Ok (v, if t_void t then zero else tl_ret x', w', x').
  (** visitCallBase, 3082-3170. *)
  Definition run_call (k : callee) (invoke : bool) (t : ftype) (vals : list N) (labels : list Lb) (w : W) (x : tls) : Res (N * Lb * W * tls) :=
    match k with
    | ByName n =>
        match pointer L M n with
        | None => UB
        | Some c =>
            match unwrapped L M n with
            | Some f => if wkind_eqb (wrapper_kind L f) WKCustom && invoke then run_plain c t vals labels w x
                        else run_wrapped f t vals labels w x
            | None => run_plain c t vals labels w x
            end
        end
    | ByPointer c => run_plain c t vals labels w x
    end.

  (** getOrBuildTrampolineFunction, 1199-1250: how the wrapper of a custom function calls a function
      that was passed to it. *)
  Definition trampoline (c : code) (t : ftype) (vals : list N) (labels : list Lb) (w : W) (x : tls) : Res (N * Lb * W * tls) :=
    run_call (ByPointer c) false t vals labels w x.
End Run.
