(** What the shadows of a function should be, without any reuse: the label of a new shadow stands
    for the bytes it means, and an instruction depends on the bytes of all its operands. *)
From Coq Require Import NArith List Bool.
From Verif Require Import M_DfsanCache.
Import ListNotations.
Open Scope N_scope.

(** ** The control-flow graph *)
(** Paths from the entry, the latest block first. *)
Inductive path (F : xfunc) : list N -> Prop :=
| path_entry : path F [0]
| path_next : forall a b p, path F (a :: p) -> In b (x_succ (xblock_at F a)) -> path F (b :: a :: p).
Definition dominates (F : xfunc) (d b : N) : Prop := forall p, path F (b :: p) -> In d (b :: p).

(** ** Single assignment *)
Definition inst_dst (i : xinst) : N := match i with XFresh d => d | XJoin d _ => d end.
Definition block_defs (B : xblock) : list N := map fst (x_phis B) ++ map inst_dst (x_body B).
Definition defines (F : xfunc) (b r : N) : Prop := In r (block_defs (xblock_at F b)).
Definition inst_uses (i : xinst) : list use := match i with XFresh _ => [] | XJoin _ us => us end.

Record ssa (F : xfunc) : Prop := mkSsa {
  (* every register has one definition *)
  ssa_once : forall a b r, defines F a r -> defines F b r -> a = b;
  ssa_nodup : forall b, NoDup (block_defs (xblock_at F b));
  (* which comes before its uses: in the same block, or in one that dominates it *)
  ssa_uses : forall b before i after r, (exists p, path F (b :: p)) ->
    x_body (xblock_at F b) = before ++ i :: after -> In (UReg r) (inst_uses i) ->
    In r (map fst (x_phis (xblock_at F b)) ++ map inst_dst before) \/
    (exists a, a <> b /\ dominates F a b /\ defines F a r);
  (* phis have an operand for every predecessor, available at its end *)
  ssa_phis : forall a b p r ins, path F (a :: p) -> In b (x_succ (xblock_at F a)) ->
    In (r, ins) (x_phis (xblock_at F b)) ->
    exists u, incoming a ins = u /\ (forall s, u = UReg s -> exists d, dominates F d a /\ defines F d s);
  ssa_entry : x_phis (xblock_at F 0) = [] }.

(** ** The bytes registers depend on *)
Definition bytes := N -> Prop.
Definition regs := N -> bytes.
Definition set_reg (s : regs) (r : N) (v : bytes) : regs := fun x => if x =? r then v else s x.
Definition use_bytes (s : regs) (u : use) : bytes := match u with UConst => fun _ => False | UReg r => s r end.
Definition spec_inst (means : N -> bytes) (fresh : N -> N) (s : regs) (i : xinst) : regs :=
  match i with
  | XFresh d => set_reg s d (means (fresh d))
  | XJoin d us => set_reg s d (fun x => exists u, In u us /\ use_bytes s u x)
  end.
Definition spec_body (means : N -> bytes) (fresh : N -> N) (s : regs) (l : list xinst) : regs :=
  fold_left (spec_inst means fresh) l s.
Definition spec_phis (p : N) (phis : list (N * list (N * use))) (s : regs) : regs :=
  fold_left (fun s' ph => set_reg s' (fst ph) (use_bytes s (incoming p (snd ph)))) phis s.
(** The same executions as [run_code]. *)
Inductive spec_run (means : N -> bytes) (F : xfunc) : list (N * (N -> N)) -> regs -> Prop :=
| sr_entry : forall fresh s, spec_run means F [(0, fresh)] (spec_body means fresh s (x_body (xblock_at F 0)))
| sr_next : forall p fr b fresh t s, spec_run means F ((p, fr) :: t) s -> In b (x_succ (xblock_at F p)) ->
    spec_run means F ((b, fresh) :: (p, fr) :: t)
      (spec_body means fresh (spec_phis p (x_phis (xblock_at F b)) s) (x_body (xblock_at F b))).

(** [l] is a label for the bytes of [a] and of [b]. *)
Definition unites (means : N -> bytes) (l a b : N) : Prop := forall x, means l x <-> means a x \/ means b x.
