(** Model of what polytracker/src/passes/DataFlowSanitizer.cpp makes of memory accesses in programs
    with several threads: the access and the accesses to the shadow cell are separate steps.

    Simplifications: a label is the set of input bytes it means (that unions of labels computed by
    several threads mean the union is C47); a cell has one shadow, an access touches one cell;
    interleavings are sequentially consistent (the pass strengthens the ordering of atomic accesses,
    addAcquireOrdering 2305-2320 and addReleaseOrdering 2549-2564, to that end). *)
From Coq Require Import NArith List Bool.
From Verif Require Import S_Threads.
Import ListNotations.
Open Scope N_scope.

(** Where a thread is within the code of an instruction. *)
Inductive mid : Type :=
| MStart
| MShadowLoaded (l : dset)   (* a load that is not atomic: its shadow is there, the value is not *)
| MValueLoaded (a : N)       (* an atomic load of cell [a]: the value is there, its shadow is not *)
| MShadowStored.             (* a store or an atomic operation: the shadow is written, the value is not *)
Record ithread := mkIt { i_pc : nat; i_reg : N -> N; i_sh : N -> dset; i_mid : mid }.
Record istate := mkIs { i_thr : nat -> ithread; i_mem : N -> N; i_msh : N -> dset; i_lock : N -> option nat }.

Section Run.
  Variable sem : N -> list N -> N.
  Variable P : program.

  Definition istep (s : istate) (t : nat) : option istate :=
    let x := i_thr s t in
    let go x' := Some (mkIs (updt (i_thr s) t x') (i_mem s) (i_msh s) (i_lock s)) in
    match next_instr P t (i_pc x) with
    | None => None
    (* visitInstOperands, 1962-1966 *)
    | Some (IOp r op args) =>
        go (mkIt (S (i_pc x)) (upd (i_reg x) r (sem op (map (i_reg x) args)))
                 (upd (i_sh x) r (dunion (map (i_sh x) args))) MStart)
    (* visitLoadInst, 2322-2373: the shadow is loaded in front of a load (Pos = &LI), and behind an
       atomic one (Pos = LI.getNextNode()); ClCombinePointerLabelsOnLoad is set *)
    | Some (ILoad false r p) =>
        match i_mid x with
        | MStart => go (mkIt (i_pc x) (i_reg x) (i_sh x) (MShadowLoaded (i_msh s (i_reg x p))))
        | MShadowLoaded l =>
            go (mkIt (S (i_pc x)) (upd (i_reg x) r (i_mem s (i_reg x p))) (upd (i_sh x) r (du l (i_sh x p))) MStart)
        | _ => None
        end
    | Some (ILoad true r p) =>
        match i_mid x with
        | MStart =>
            go (mkIt (i_pc x) (upd (i_reg x) r (i_mem s (i_reg x p))) (i_sh x) (MValueLoaded (i_reg x p)))
        | MValueLoaded a => go (mkIt (S (i_pc x)) (i_reg x) (upd (i_sh x) r (du (i_msh s a) (i_sh x p))) MStart)
        | _ => None
        end
    (* visitStoreInst, 2566-2623: the shadow, zero for an atomic store, is stored in front of the
       store *)
    | Some (IStore at_ p v) =>
        let a := i_reg x p in
        match i_mid x with
        | MStart =>
            Some (mkIs (updt (i_thr s) t (mkIt (i_pc x) (i_reg x) (i_sh x) MShadowStored)) (i_mem s)
                       (upd (i_msh s) a (if at_ then d0 else i_sh x v)) (i_lock s))
        | MShadowStored =>
            Some (mkIs (updt (i_thr s) t (mkIt (S (i_pc x)) (i_reg x) (i_sh x) MStart))
                       (upd (i_mem s) a (i_reg x v)) (i_msh s) (i_lock s))
        | _ => None
        end
    (* visitCASOrRMW, 2625-2643: zero shadows, in memory and for the result *)
    | Some (IRmw r p op v) =>
        let a := i_reg x p in
        match i_mid x with
        | MStart =>
            Some (mkIs (updt (i_thr s) t (mkIt (i_pc x) (i_reg x) (i_sh x) MShadowStored)) (i_mem s)
                       (upd (i_msh s) a d0) (i_lock s))
        | MShadowStored =>
            Some (mkIs (updt (i_thr s) t (mkIt (S (i_pc x)) (upd (i_reg x) r (i_mem s a)) (upd (i_sh x) r d0) MStart))
                       (upd (i_mem s) a (sem op [i_mem s a; i_reg x v])) (i_msh s) (i_lock s))
        | _ => None
        end
    | Some (IBr c target) => go (mkIt (if i_reg x c =? 0 then S (i_pc x) else target) (i_reg x) (i_sh x) MStart)
    (* calls of pthread_mutex_lock and pthread_mutex_unlock *)
    | Some (ILock m) =>
        match i_lock s m with
        | None => Some (mkIs (updt (i_thr s) t (mkIt (S (i_pc x)) (i_reg x) (i_sh x) MStart)) (i_mem s) (i_msh s) (upd (i_lock s) m (Some t)))
        | Some _ => None
        end
    | Some (IUnlock m) =>
        match i_lock s m with
        | Some u => if Nat.eqb u t
            then Some (mkIs (updt (i_thr s) t (mkIt (S (i_pc x)) (i_reg x) (i_sh x) MStart)) (i_mem s) (i_msh s) (upd (i_lock s) m None))
            else None
        | None => None
        end
    end.

  Inductive ireach (s0 : istate) : istate -> Prop :=
  | ireach_start : ireach s0 s0
  | ireach_step s t s' : ireach s0 s -> istep s t = Some s' -> ireach s0 s'.

  (** The start: the labels of registers and memory are the inputs they depend on. *)
  Definition istart (o : ostate) : istate :=
    mkIs (fun t => mkIt (o_pc (o_thr o t)) (o_reg (o_thr o t)) (o_dep (o_thr o t)) MStart) (o_mem o) (o_mdep o) (o_lock o).
End Run.
