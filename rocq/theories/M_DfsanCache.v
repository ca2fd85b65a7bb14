(** Model of how the DFSan pass reuses shadows it has combined before: combineShadows with its
    caches ShadowElements and CachedShadows, polytracker/src/passes/DataFlowSanitizer.cpp:1860-1946,
    and the order in which blocks are visited (1594-1634).  M_DfsanPass has the rest of the pass,
    without these caches.

    Simplifications: a function is reduced to what concerns shadows.  An instruction either has
    a new shadow (loaded from shadow memory, from the argument or result area, chosen by a
    select; arguments are such instructions at the start of the entry) or that of its operands.
    A load whose pointer's shadow is combined (2352) is both, one after the other.
    SplitBlockAndInsertIfThen (1915) divides a block in two; the halves count as one
    block here, since the part before dominates the part behind and LLVM updates its dominators. *)
From Coq Require Import NArith List Bool.
From Verif Require Import M_Base.
Import ListNotations.
Open Scope N_scope.

(** ** Functions that go in *)
Inductive use : Type := UConst | UReg (r : N).
Inductive xinst : Type :=
| XFresh (dst : N)
| XJoin (dst : N) (ops : list use).
Record xblock := mkXblock { x_phis : list (N * list (N * use)); x_body : list xinst; x_succ : list N }.
(** Blocks are numbered; the entry is block 0. *)
Definition xfunc := list xblock.
Definition xblock_at (F : xfunc) (b : N) : xblock := nth (N.to_nat b) F (mkXblock [] [] []).

(** ** What comes out *)
(** A shadow: the zero shadow, the new shadow of an instruction or phi, or a union that was put in. *)
Inductive sv : Type := VZero | VBase (r : N) | VUnion (k : N).
Inductive oinst : Type :=
| OFresh (r : N)
| OUnion (k : N) (a b : sv).
Record outcode := mkOut { o_code : list (N * oinst); o_shadow : N -> option sv }.

Definition sv_eqb (a b : sv) : bool :=
  match a, b with
  | VZero, VZero => true
  | VBase x, VBase y => x =? y
  | VUnion x, VUnion y => x =? y
  | _, _ => false
  end.

(** The fields of DFSanFunction (574-584) and the instructions put in so far, each with its
    block. *)
Record pstate := mkPstate {
  ps_next : N;                               (* unions are numbered *)
  ps_code : list (N * oinst);
  ps_shadow : N -> option sv;                (* ValShadowMap *)
  ps_elems : sv -> option (list sv);         (* ShadowElements *)
  ps_cached : sv -> sv -> option (N * sv) }. (* CachedShadows *)
Definition ps_new : pstate := mkPstate 0 [] (fun _ => None) (fun _ => None) (fun _ _ => None).

Definition in_elems (v : sv) (l : list sv) : bool := existsb (sv_eqb v) l.
(** std::includes *)
Definition includes (a b : list sv) : bool := forallb (fun v => in_elems v a) b.

(** getShadow, 1763-1791: zero for constants and for instructions without a shadow. *)
Definition get_shadow (st : pstate) (u : use) : sv :=
  match u with
  | UConst => VZero
  | UReg r => match ps_shadow st r with Some v => v | None => VZero end
  end.
(** setShadow, 1793-1798. *)
Definition set_shadow (st : pstate) (r : N) (v : sv) : pstate :=
  mkPstate (ps_next st) (ps_code st) (fun x => if x =? r then Some v else ps_shadow st x) (ps_elems st) (ps_cached st).

(** The elements of an operand of the new union, 1931-1941. *)
Definition elems_of (st : pstate) (v : sv) : list sv := match ps_elems st v with Some l => l | None => [v] end.

(** The union that is put in, 1899-1945. *)
Definition new_union (st : pstate) (blk : N) (a b : sv) : sv * pstate :=
  let v := VUnion (ps_next st) in
  (v, mkPstate (ps_next st + 1) (ps_code st ++ [(blk, OUnion (ps_next st) a b)]) (ps_shadow st)
        (fun x => if sv_eqb x v then Some (elems_of st a ++ elems_of st b) else ps_elems st x)
        (fun x y => if (sv_eqb x a && sv_eqb y b) || (sv_eqb x b && sv_eqb y a) then Some (blk, v) else ps_cached st x y)).

(** combineShadows, 1860-1946, at an instruction of block [blk]; [dom] is DT.dominates.  The
    key of the cache is the pair in the order of the pointers, so that it has no order. *)
Definition combine (dom : N -> N -> bool) (st : pstate) (blk : N) (a b : sv) : sv * pstate :=
  if sv_eqb a VZero then (b, st)
  else if sv_eqb b VZero then (a, st)
  else if sv_eqb a b then (a, st)
  else
    let hit :=
      match ps_elems st a, ps_elems st b with
      | Some la, Some lb => if includes la lb then Some a else if includes lb la then Some b else None
      | Some la, None => if in_elems b la then Some a else None
      | None, Some lb => if in_elems a lb then Some b else None
      | None, None => None
      end in
    match hit with
    | Some v => (v, st)
    | None =>
        match ps_cached st a b with
        | Some (d, v) => if dom d blk then (v, st) else new_union st blk a b
        | None => new_union st blk a b
        end
    end.

(** combineOperandShadows, 1948-1960. *)
Fixpoint combine_uses (dom : N -> N -> bool) (st : pstate) (blk : N) (acc : sv) (us : list use) : sv * pstate :=
  match us with
  | [] => (acc, st)
  | u :: r => let (v, st1) := combine dom st blk acc (get_shadow st u) in combine_uses dom st1 blk v r
  end.
Definition combine_operands (dom : N -> N -> bool) (st : pstate) (blk : N) (us : list use) : sv * pstate :=
  match us with
  | [] => (VZero, st)
  | u :: r => combine_uses dom st blk (get_shadow st u) r
  end.

(** visitInstOperands, 1962-1966, and the instructions with shadows of their own. *)
Definition visit_inst (dom : N -> N -> bool) (st : pstate) (blk : N) (i : xinst) : pstate :=
  match i with
  | XFresh d => set_shadow (mkPstate (ps_next st) (ps_code st ++ [(blk, OFresh d)]) (ps_shadow st) (ps_elems st) (ps_cached st)) d (VBase d)
  | XJoin d us => let (v, st1) := combine_operands dom st blk us in set_shadow st1 d v
  end.
(** visitPHINode, 3236-3260, then the other instructions in order. *)
Definition visit_xblock (dom : N -> N -> bool) (F : xfunc) (st : pstate) (b : N) : pstate :=
  let st1 := fold_left (fun s p => set_shadow s (fst p) (VBase (fst p))) (x_phis (xblock_at F b)) st in
  fold_left (fun s i => visit_inst dom s b i) (x_body (xblock_at F b)) st1.

(** depth_first of LLVM (df_iterator): the top of the stack has the successors that are still to
    be tried; the result has the blocks visited, the latest first. *)
Fixpoint depth_first (fuel : nat) (F : xfunc) (seen : list N) (stack : list (list N)) : Res (list N) :=
  match fuel with
  | O => Fuel
  | S f =>
      match stack with
      | [] => Ok seen
      | [] :: st => depth_first f F seen st
      | (c :: cs) :: st =>
          if existsb (N.eqb c) seen then depth_first f F seen (cs :: st)
          else depth_first f F (c :: seen) (x_succ (xblock_at F c) :: cs :: st)
      end
  end.

(** The loop over the blocks of a function, 1602-1622.  The incoming shadows of phis are looked up
    after it (1628-1634), which is why [o_shadow] is the last map. *)
Definition run_pass (fuel : nat) (dom : N -> N -> bool) (F : xfunc) : Res outcode :=
  do seen <- depth_first fuel F [0] [x_succ (xblock_at F 0)];
  let st := fold_left (visit_xblock dom F) (rev seen) ps_new in
  Ok (mkOut (ps_code st) (ps_shadow st)).

(** ** Running what comes out *)
(** The labels of shadows. *)
Definition lenv := sv -> N.
Definition set_sv (e : lenv) (v : sv) (l : N) : lenv := fun x => if sv_eqb x v then l else e x.
Definition shadow_use (o : outcode) (u : use) : sv :=
  match u with
  | UConst => VZero
  | UReg r => match o_shadow o r with Some v => v | None => VZero end
  end.
Definition incoming (p : N) (ins : list (N * use)) : use :=
  match find (fun e => fst e =? p) ins with Some e => snd e | None => UConst end.
(** Shadow phis read the labels at the end of the block control came from. *)
Definition run_phis (o : outcode) (p : N) (phis : list (N * list (N * use))) (e : lenv) : lenv :=
  fold_left (fun e' ph => set_sv e' (VBase (fst ph)) (e (shadow_use o (incoming p (snd ph))))) phis e.
(** The instructions of a block; [fresh] has the labels the new shadows get this time, [unites l a
    b] says that the runtime's union of [a] and [b] may be [l]. *)
Inductive run_body (unites : N -> N -> N -> Prop) (fresh : N -> N) : list oinst -> lenv -> lenv -> Prop :=
| rb_nil : forall e, run_body unites fresh [] e e
| rb_fresh : forall r c e e', run_body unites fresh c (set_sv e (VBase r) (fresh r)) e' ->
    run_body unites fresh (OFresh r :: c) e e'
| rb_same : forall k a b c e e', e a = e b -> run_body unites fresh c (set_sv e (VUnion k) (e a)) e' ->
    run_body unites fresh (OUnion k a b :: c) e e'
| rb_union : forall k a b c e e' l, e a <> e b -> unites l (e a) (e b) -> run_body unites fresh c (set_sv e (VUnion k) l) e' ->
    run_body unites fresh (OUnion k a b :: c) e e'.
Definition code_of (o : outcode) (b : N) : list oinst :=
  map snd (filter (fun q => fst q =? b) (o_code o)).
(** Blocks executed, the latest first, each with the labels of its new shadows. *)
Inductive run_code (unites : N -> N -> N -> Prop) (F : xfunc) (o : outcode) : list (N * (N -> N)) -> lenv -> Prop :=
| rc_entry : forall fresh e e', e VZero = 0 -> run_body unites fresh (code_of o 0) e e' ->
    run_code unites F o [(0, fresh)] e'
| rc_next : forall p fr b fresh t e e', run_code unites F o ((p, fr) :: t) e -> In b (x_succ (xblock_at F p)) ->
    run_body unites fresh (code_of o b) (run_phis o p (x_phis (xblock_at F b)) e) e' ->
    run_code unites F o ((b, fresh) :: (p, fr) :: t) e'.
