(** Programs with several threads, without instrumentation: sequentially consistent
    interleavings, with the inputs each value depends on.

    Memory is an array of cells; every access touches one cell.  Synchronisation is by mutexes and
    by atomic accesses. *)
From Coq Require Import NArith List Bool.
Import ListNotations.
Open Scope N_scope.

(** Sets of input bytes. *)
Definition dset := N -> bool.
Definition d0 : dset := fun _ => false.
Definition du (x y : dset) : dset := fun b => x b || y b.
Definition dunion (l : list dset) : dset := fold_right du d0 l.
Definition within (x y : dset) : Prop := forall b, x b = true -> y b = true.
Definition same (x y : dset) : Prop := forall b, x b = y b.

(** Registers and operations are numbered. *)
Inductive minstr : Type :=
| IOp (r op : N) (args : list N)          (* r := op(args) *)
| ILoad (atomic : bool) (r p : N)         (* r := *p *)
| IStore (atomic : bool) (p v : N)        (* *p := v *)
| IRmw (r p op v : N)                     (* atomically: r := *p; *p := op(r, v) *)
| IBr (c : N) (target : nat)              (* if c != 0 goto target *)
| ILock (m : N)
| IUnlock (m : N).
Definition program := nat -> list minstr.  (* per thread *)

Definition upd {V} (f : N -> V) (k : N) (v : V) : N -> V := fun x => if x =? k then v else f x.
Definition updt {V} (f : nat -> V) (k : nat) (v : V) : nat -> V := fun x => if Nat.eqb x k then v else f x.

Record othread := mkOt { o_pc : nat; o_reg : N -> N; o_dep : N -> dset }.
Record ostate := mkOs { o_thr : nat -> othread; o_mem : N -> N; o_mdep : N -> dset; o_lock : N -> option nat }.

Section Run.
  Variable sem : N -> list N -> N.   (* what operations compute *)
  Variable P : program.

  Definition next_instr (t : nat) (pc : nat) : option minstr := nth_error (P t) pc.

  (** One step of thread [t]; None: it has ended, or waits for a mutex (or unlocks one it does not
      hold, which is an error). *)
  Definition ostep (s : ostate) (t : nat) : option ostate :=
    let x := o_thr s t in
    let go x' := Some (mkOs (updt (o_thr s) t x') (o_mem s) (o_mdep s) (o_lock s)) in
    match next_instr t (o_pc x) with
    | None => None
    | Some (IOp r op args) =>
        go (mkOt (S (o_pc x)) (upd (o_reg x) r (sem op (map (o_reg x) args)))
                 (upd (o_dep x) r (dunion (map (o_dep x) args))))
    | Some (ILoad _ r p) =>
        let a := o_reg x p in
        go (mkOt (S (o_pc x)) (upd (o_reg x) r (o_mem s a)) (upd (o_dep x) r (du (o_mdep s a) (o_dep x p))))
    | Some (IStore _ p v) =>
        let a := o_reg x p in
        Some (mkOs (updt (o_thr s) t (mkOt (S (o_pc x)) (o_reg x) (o_dep x)))
                   (upd (o_mem s) a (o_reg x v)) (upd (o_mdep s) a (o_dep x v)) (o_lock s))
    | Some (IRmw r p op v) =>
        let a := o_reg x p in
        Some (mkOs (updt (o_thr s) t (mkOt (S (o_pc x)) (upd (o_reg x) r (o_mem s a))
                                           (upd (o_dep x) r (du (o_mdep s a) (o_dep x p)))))
                   (upd (o_mem s) a (sem op [o_mem s a; o_reg x v])) (upd (o_mdep s) a (du (o_mdep s a) (o_dep x v))) (o_lock s))
    | Some (IBr c target) =>
        go (mkOt (if o_reg x c =? 0 then S (o_pc x) else target) (o_reg x) (o_dep x))
    | Some (ILock m) =>
        match o_lock s m with
        | None => Some (mkOs (updt (o_thr s) t (mkOt (S (o_pc x)) (o_reg x) (o_dep x))) (o_mem s) (o_mdep s) (upd (o_lock s) m (Some t)))
        | Some _ => None
        end
    | Some (IUnlock m) =>
        match o_lock s m with
        | Some u => if Nat.eqb u t
            then Some (mkOs (updt (o_thr s) t (mkOt (S (o_pc x)) (o_reg x) (o_dep x))) (o_mem s) (o_mdep s) (upd (o_lock s) m None))
            else None
        | None => None
        end
    end.

  (** Executions: any schedule. *)
  Inductive oreach (s0 : ostate) : ostate -> Prop :=
  | oreach_start : oreach s0 s0
  | oreach_step s t s' : oreach s0 s -> ostep s t = Some s' -> oreach s0 s'.

  (** The access that thread [t] makes next: the cell, whether it writes, whether it is atomic. *)
  Definition access (s : ostate) (t : nat) : option (N * bool * bool) :=
    let x := o_thr s t in
    match next_instr t (o_pc x) with
    | Some (ILoad at_ _ p) => Some (o_reg x p, false, at_)
    | Some (IStore at_ p _) => Some (o_reg x p, true, at_)
    | Some (IRmw _ p _ _) => Some (o_reg x p, true, true)
    | _ => None
    end.
  (** A data race: two threads are about to access the same cell, one of them to write it, and not
      both atomically. *)
  Definition race (s : ostate) : Prop :=
    exists t u a w1 w2 at1 at2, t <> u /\ access s t = Some (a, w1, at1) /\ access s u = Some (a, w2, at2) /\
      w1 || w2 = true /\ at1 && at2 = false.
  Definition race_free (s0 : ostate) : Prop := forall s, oreach s0 s -> ~ race s.

  (** Atomic writes never carry inputs. *)
  Definition untainted_atomics (s0 : ostate) : Prop := forall s t, oreach s0 s ->
    let x := o_thr s t in
    match next_instr t (o_pc x) with
    | Some (IStore true p v) => same (o_mdep s (o_reg x p)) d0 /\ same (o_dep x v) d0
    | Some (IRmw _ p _ v) => same (o_mdep s (o_reg x p)) d0 /\ same (o_dep x v) d0 /\ same (o_dep x p) d0
    | _ => True
    end.
End Run.
