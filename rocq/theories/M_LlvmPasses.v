(** The passes pt-tcf, pt-taint and pt-ftrace (polytracker/src/passes) on the programs of
    M_Llvm, which the DFSan pass instruments afterwards.  M_Passes models the same passes on
    the programs of M_Ir, with bit widths, function ids by address and functionid.json;
    here they are composed with the DFSan pass.

    Simplifications: extending a value to 64 bits and truncating it again is the identity
    ([keep]; C45 has it with widths); results of new instructions get register numbers the
    function does not use.  Indices that are constants other than integers are not logged
    (their label is zero, and logging it would do nothing). *)
From Coq Require Import NArith List Bool.
From Verif Require Import M_Base M_Functions M_Llvm.
Import ListNotations.
Open Scope N_scope.

(** ** Unused registers *)
Definition max_of (l : list N) : N := fold_right N.max 0 l.
Definition o_bound (o : operand) : N := match o with OReg r => r + 1 | OConst _ => 0 end.
Definition os_bound (os : list operand) : N := max_of (map o_bound os).
Definition d_bound (d : option N) : N := match d with Some r => r + 1 | None => 0 end.
Definition i_bound (i : instr) : N :=
  match i with
  | IComp dst ops _ => N.max (dst + 1) (os_bound ops)
  | ILoad dst ptr _ _ => N.max (dst + 1) (o_bound ptr)
  | IStore v ptr _ _ => os_bound [v; ptr]
  | IRmw dst ptr v _ _ => N.max (dst + 1) (os_bound [ptr; v])
  | IGet dst x => N.max (dst + 1) (x + 1)
  | ISet x v _ => N.max (x + 1) (o_bound v)
  | ISelect dst c a b => N.max (dst + 1) (os_bound [c; a; b])
  | IMemset ptr v n => os_bound [ptr; v; n]
  | IMemmove dst src n => os_bound [dst; src; n]
  | IOpaque dst => d_bound dst
  | ICall dst callee args => N.max (d_bound dst) (os_bound (callee :: args))
  | ILib dst _ args => N.max (d_bound dst) (os_bound args)
  end.
Definition t_bound (t : term) : N :=
  match t with
  | CondBr c _ _ | Switch c _ _ => o_bound c
  | Ret (Some v) => o_bound v
  | _ => 0
  end.
Definition p_bound (p : phi) : N := N.max (ph_dst p + 1) (os_bound (map snd (ph_in p))).
Definition b_bound (b : block) : N :=
  N.max (max_of (map p_bound (b_phis b))) (N.max (max_of (map i_bound (b_body b))) (t_bound (b_term b))).
Definition fresh (f : func) : N := N.max (max_of (map (fun r => r + 1) (fn_params f))) (max_of (map b_bound (fn_blocks f))).

Definition keep : comp := pure (fun l => match l with [v] => Some v | _ => None end).
Definition is_const (o : operand) : bool := match o with OConst _ => true | OReg _ => false end.

(** An instruction before everything else in the entry block (which has no phis). *)
Definition at_entry (i : instr) (bs : list block) : list block :=
  match bs with [] => [] | b :: r => mkBlock (b_phis b) (i :: b_body b) (b_term b) :: r end.

(** ** pt-tcf, tainted_control_flow.cpp *)
(** The three instructions in front of a use of [o] (98-102, 114-118, 125-129, 140-144), the operand
    used instead and the next unused register. *)
Definition route (k fid : N) (o : operand) : list instr * operand * N :=
  ([IComp k [o] keep; ILib (Some (k + 1)) LTainted [OReg k; OConst fid]; IComp (k + 2) [OReg (k + 1)] keep],
   OReg (k + 2), k + 3).
(** The loop of visitGetElementPtrInst, 90-104. *)
Fixpoint tcf_idxs (k fid : N) (idxs : list operand) : list instr * list operand * N :=
  match idxs with
  | [] => ([], [], k)
  | o :: rest =>
      if is_const o then let '(c, os, k') := tcf_idxs k fid rest in (c, o :: os, k')
      else
        let '(c1, o', k1) := route k fid o in
        let '(c, os, k') := tcf_idxs k1 fid rest in (c1 ++ c, o' :: os, k')
  end.
(** visitGetElementPtrInst, visitSelectInst (132-145; vector selects are IComp here). *)
Definition tcf_instr (k fid : N) (i : instr) : list instr * N :=
  match i with
  | IComp dst (b :: idxs) f =>
      if c_gep f then let '(c, idxs', k') := tcf_idxs k fid idxs in (c ++ [IComp dst (b :: idxs') f], k')
      else ([i], k)
  | ISelect dst c x y => let '(p, c', k') := route k fid c in (p ++ [ISelect dst c' x y], k')
  | _ => ([i], k)
  end.
(** visitBranchInst 106-119, visitSwitchInst 121-130, visitReturnInst 173-176. *)
Definition tcf_term (k fid : N) (t : term) : list instr * term * N :=
  match t with
  | Br b => ([], t, k)
  | CondBr c b1 b2 => let '(p, c', k') := route k fid c in (p, CondBr c' b1 b2, k')
  | Switch c cases d => let '(p, c', k') := route k fid c in (p, Switch c' cases d, k')
  | Ret v => ([ILib None LCfLeave [OConst fid]], t, k)
  end.
Fixpoint tcf_code (k fid : N) (is : list instr) (t : term) : list instr * term * N :=
  match is with
  | [] => tcf_term k fid t
  | i :: r =>
      let (c, k1) := tcf_instr k fid i in
      let '(cs, t', k2) := tcf_code k1 fid r t in (c ++ cs, t', k2)
  end.
Fixpoint tcf_blocks (k fid : N) (bs : list block) : list block :=
  match bs with
  | [] => []
  | b :: r =>
      let '(cs, t', k') := tcf_code k fid (b_body b) (b_term b) in
      mkBlock (b_phis b) cs t' :: tcf_blocks k' fid r
  end.
(** instrumentFunctionEnter, 165-171, then visit(fn). *)
Definition tcf_func (fid : N) (f : func) : func :=
  mkFunc (fn_native f) (fn_params f) (tcf_blocks (fresh f) fid (at_entry (ILib None LCfEnter [OConst fid]) (fn_blocks f))).
(** run, 178-188: functions with a body get the ids 0, 1, .. (a uint32_t). *)
Definition has_body (f : func) : bool := match fn_blocks f with [] => false | _ => true end.
Fixpoint tcf_prog (fid : N) (P : prog) : prog :=
  match P with
  | [] => []
  | f :: r => if has_body f then tcf_func fid f :: tcf_prog (add32 fid 1) r else f :: tcf_prog fid r
  end.

(** ** pt-taint, taint_tracking.cpp *)
(** insertCondBrLogCall, 72-80. *)
Definition tt_log (k : N) (o : operand) : list instr := [IComp k [o] keep; ILib None LBranch [OReg k]].
(** visitGetElementPtrInst, 87-94. *)
Fixpoint tt_idxs (k : N) (idxs : list operand) : list instr * N :=
  match idxs with
  | [] => ([], k)
  | o :: rest =>
      if is_const o then tt_idxs k rest
      else let (c, k') := tt_idxs (k + 1) rest in (tt_log k o ++ c, k')
  end.
Definition tt_instr (k : N) (i : instr) : list instr * N :=
  match i with
  | IComp dst (b :: idxs) f => if c_gep f then tt_idxs k idxs else ([], k)
  | _ => ([], k)
  end.
(** visitBranchInst, visitSwitchInst, 96-105. *)
Definition tt_term (k : N) (t : term) : list instr * N :=
  match t with
  | CondBr c _ _ | Switch c _ _ => (tt_log k c, k + 1)
  | _ => ([], k)
  end.
Fixpoint tt_code (k : N) (is : list instr) (t : term) : list instr * N :=
  match is with
  | [] => tt_term k t
  | i :: r =>
      let (c, k1) := tt_instr k i in
      let (cs, k2) := tt_code k1 r t in (c ++ i :: cs, k2)
  end.
Fixpoint tt_blocks (k : N) (bs : list block) : list block :=
  match bs with
  | [] => []
  | b :: r =>
      let (cs, k') := tt_code k (b_body b) (b_term b) in
      mkBlock (b_phis b) cs (b_term b) :: tt_blocks k' r
  end.
Definition name_main : list N := [109; 97; 105; 110].
Definition ignored (ignore : list (list N)) (name : list N) : bool := existsb (bytes_eqb name) ignore.
(** The loop body of run, 118-128, and emitTaintArgvCall, 32-68; getArg of a missing parameter and
    getEntryBlock of a declaration are undefined. *)
Definition tt_func (ignore : list (list N)) (name : list N) (f : func) : Res func :=
  if ignored ignore name then Ok f
  else
    let bs := tt_blocks (fresh f) (fn_blocks f) in
    if bytes_eqb name name_main then
      match fn_params f, bs with
      | argc :: argv :: _, _ :: _ =>
          Ok (mkFunc (fn_native f) (fn_params f) (at_entry (ILib None LArgv [OReg argc; OReg argv]) bs))
      | _, _ => UB
      end
    else Ok (mkFunc (fn_native f) (fn_params f) bs).
(** [names n] is the name of function [n]. *)
Fixpoint tt_prog (ignore : list (list N)) (names : N -> list N) (n : N) (P : prog) : Res prog :=
  match P with
  | [] => Ok []
  | f :: r =>
      do f' <- tt_func ignore (names n) f;
      do r' <- tt_prog ignore names (n + 1) r; Ok (f' :: r')
  end.

(** ** pt-ftrace, function_tracing.cpp *)
(** visitReturnInst, 34-37; [k] is the result of the call at the entry. *)
Definition ft_block (k : N) (b : block) : block :=
  match b_term b with
  | Ret v => mkBlock (b_phis b) (b_body b ++ [ILib None LExit [OReg k]]) (Ret v)
  | _ => b
  end.
(** The loop body of run, 43-53. *)
Definition ft_func (ignore : list (list N)) (name : list N) (f : func) : func :=
  if negb (has_body f) || ignored ignore name then f
  else
    let k := fresh f in
    mkFunc (fn_native f) (fn_params f)
      (at_entry (ILib (Some k) (LEnter name) []) (map (ft_block k) (fn_blocks f))).
Fixpoint ft_prog (ignore : list (list N)) (names : N -> list N) (n : N) (P : prog) : prog :=
  match P with
  | [] => []
  | f :: r => ft_func ignore (names n) f :: ft_prog ignore names (n + 1) r
  end.

(** ** The passes that run before pt-dfsan: polytracker/build.py:151-240 and 427-450 with --taint;
    the optimisations between pt-tcf and pt-taint are left out. *)
Definition passes (cflog ftrace : bool) (ignore : list (list N)) (names : N -> list N) (P : prog) : Res prog :=
  let P1 := if cflog then tcf_prog 0 P else P in
  do P2 <- tt_prog ignore names 0 P1;
  Ok (if ftrace then ft_prog ignore names 0 P2 else P2).
