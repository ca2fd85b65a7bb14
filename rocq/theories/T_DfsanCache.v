(** C78: shadows that are reused mean the same as shadows computed afresh. *)
From Coq Require Import NArith List Bool Lia.
From Verif Require Import M_Base P_Base M_DfsanCache S_Shadow P_DfsanCache.
Import ListNotations.
Open Scope N_scope.

(** For every function in single-assignment form, every execution of the instrumented function
    and every register whose definition dominates the block executed last: the label in the
    register's shadow means exactly the bytes the register depends on.  [dom] is LLVM's
    dominator analysis, which is taken to be right; [means] says which bytes a label stands
    for, and the labels of new shadows are arbitrary. *)
Theorem C78_reuse : forall F dom fuel o means,
  ssa F ->
  (forall a b, (exists p, path F (b :: p)) -> dom a b = true -> dominates F a b) ->
  (forall x, ~ means 0 x) ->
  run_pass fuel dom F = Ok o ->
  forall b fresh past e s,
  run_code (unites means) F o ((b, fresh) :: past) e ->
  spec_run means F ((b, fresh) :: past) s ->
  forall r d, defines F d r -> dominates F d b ->
  exists v, o_shadow o r = Some v /\ forall x, means (e v) x <-> s r x.
Proof.
  intros F dom fuel o means SSA D Z E b fresh past e s R Sp r d Df Dm.
  unfold run_pass in E. destruct (bind_ok _ _ _ E) as (seen & Eseen & E'). injection E' as <-.
  pose proof (depth_first_visits F fuel seen Eseen) as V.
  set (fin := fold_left (visit_xblock dom F) (rev seen) ps_new) in *.
  destruct (run_right F dom SSA D means Z (rev seen) fin V eq_refl _ _ R s Sp b fresh past eq_refl) as [Cu Ri].
  pose proof (fin_known F dom SSA D means Z (rev seen) fin V eq_refl) as K.
  pose proof (trace_path F means fin ((b, fresh) :: past) ltac:(discriminate) e R) as P. cbn in P.
  destruct (k_regs _ _ _ _ K r) as (v & Ev).
  { apply regs_of_in. exists d. split; [|exact Df]. pose proof (Dm _ P) as Id.
    destruct (in_split _ _ Id) as (l1 & l2 & El). rewrite El in P.
    apply (visited_all F (rev seen) V l2). apply (path_cut F l1); [exact P|discriminate]. }
  exists v. split; [exact Ev|]. exact (Ri r v d Ev Df Dm).
Qed.

(** The pass ends on every function whose blocks lead to blocks of the function. *)
Theorem C78_ends : forall F, (forall b c, In c (x_succ (xblock_at F b)) -> c < len F) ->
  exists fuel, forall dom, exists o, run_pass fuel dom F = Ok o.
Proof.
  intros F W. exists (S (left_over F [0] [x_succ (xblock_at F 0)])). intros dom.
  destruct (depth_first_ends F W (S (left_over F [0] [x_succ (xblock_at F 0)])) [0] [x_succ (xblock_at F 0)]) as (out & E).
  - lia.
  - intros l c [<-|[]] I. eapply W; eauto.
  - unfold run_pass. rewrite E. cbn [bind]. eauto.
Qed.

(** A loop: registers 0 and 1 are new, 2 depends on both, 3 is a phi, 4 depends on 1, 0 and 3, and
    5 (behind the loop) on 4 and 0.  Two unions are put in: the second use of 0 and 1 takes the
    union of the first, and 5 takes the shadow of 4, which has 0 among its elements. *)
Definition loop : xfunc :=
  [ mkXblock [] [XFresh 0; XFresh 1; XJoin 2 [UReg 0; UReg 1]] [1];
    mkXblock [(3, [(0, UReg 2); (1, UReg 4)])] [XJoin 4 [UReg 1; UReg 0; UReg 3]] [1; 2];
    mkXblock [] [XJoin 5 [UReg 4; UReg 0]] [] ].
Definition loop_dom (a b : N) : bool := (a <=? b) && (b <=? 2).

Lemma loop_paths : forall p, path loop p -> exists q, p = q ++ [0].
Proof. intros p P. induction P as [|a b p P [q E] _]; [now exists []|]. exists (b :: q). cbn. now rewrite E. Qed.
Lemma loop_succ : forall a b, In b (x_succ (xblock_at loop a)) -> (a = 0 /\ b = 1) \/ (a = 1 /\ (b = 1 \/ b = 2)).
Proof.
  intros a b I. unfold xblock_at in I. destruct (N.to_nat a) as [|[|[|n]]] eqn:E; cbn in I; try (destruct n; contradiction).
  - left. split; [lia|]. destruct I as [<-|[]]. reflexivity.
  - right. split; [lia|]. destruct I as [<-|[<-|[]]]; auto.
  - contradiction.
Qed.
Lemma loop_dominates : forall a b, a <= b -> b <= 2 -> dominates loop a b.
Proof.
  intros a b L1 L2 p P. destruct (N.eq_dec a b) as [->|Ne]; [now left|]. destruct (N.eq_dec a 0) as [->|Na].
  - destruct (loop_paths _ P) as (q & ->). apply in_or_app. right. now left.
  - assert (a = 1) by lia. assert (b = 2) by lia. subst. inversion P as [|x y q P' I]; subst.
    destruct (loop_succ _ _ I) as [[_ X]|[-> _]]; [discriminate|]. right. now left.
Qed.

Example C78_loop_ssa : ssa loop /\
  (forall a b, (exists p, path loop (b :: p)) -> loop_dom a b = true -> dominates loop a b) /\
  (forall b c, In c (x_succ (xblock_at loop b)) -> c < len loop).
Proof.
  assert (Df : forall b r, defines loop b r -> (b = 0 /\ r <= 2) \/ (b = 1 /\ (r = 3 \/ r = 4)) \/ (b = 2 /\ r = 5)).
  { intros b r I. unfold defines, xblock_at in I. destruct (N.to_nat b) as [|[|[|n]]] eqn:E; cbn in I.
    - left. split; [lia|]. destruct I as [<-|[<-|[<-|[]]]]; lia.
    - right. left. split; [lia|]. destruct I as [<-|[<-|[]]]; auto.
    - right. right. split; [lia|]. destruct I as [<-|[]]; auto.
    - destruct n; contradiction. }
  split; [constructor|split].
  - intros a b r A B. apply Df in A, B. lia.
  - intros b. unfold xblock_at. destruct (N.to_nat b) as [|[|[|n]]]; cbn;
      [| | |destruct n; constructor]; repeat (constructor; [cbn; intuition discriminate|]); constructor.
  - intros b before i after r _ E I. unfold xblock_at in *. destruct (N.to_nat b) as [|[|[|n]]] eqn:Eb; cbn in E.
    + destruct before as [|x0 [|x1 [|x2 [|]]]]; cbn in E; try discriminate; injection E; intros; subst; cbn in I.
      * destruct I.
      * destruct I.
      * left. destruct I as [[= <-]|[[= <-]|[]]]; cbn; auto.
    + destruct before as [|x0 [|]]; cbn in E; try discriminate; injection E; intros; subst; cbn in I.
      assert (b = 1) by lia. subst b.
      destruct I as [[= <-]|[[= <-]|[[= <-]|[]]]]; [right|right|left; cbn; auto];
        exists 0; (split; [discriminate|split; [apply loop_dominates; lia|vm_compute; auto]]).
    + destruct before as [|x0 [|]]; cbn in E; try discriminate; injection E; intros; subst; cbn in I.
      assert (b = 2) by lia. subst b.
      destruct I as [[= <-]|[[= <-]|[]]]; right.
      * exists 1. split; [discriminate|split; [apply loop_dominates; lia|vm_compute; auto]].
      * exists 0. split; [discriminate|split; [apply loop_dominates; lia|vm_compute; auto]].
    + destruct n, before; discriminate.
  - intros a b p r ins P Ed I. destruct (loop_succ _ _ Ed) as [[-> ->]|[-> [-> | ->]]]; cbn in I.
    + destruct I as [[= <- <-]|[]]. eexists. split; [reflexivity|]. intros s [= <-]. exists 0. split; [apply dom_refl|vm_compute; auto].
    + destruct I as [[= <- <-]|[]]. eexists. split; [reflexivity|]. intros s [= <-]. exists 1. split; [apply dom_refl|vm_compute; auto].
    + destruct I.
  - reflexivity.
  - intros a b _ X. unfold loop_dom in X. apply andb_true_iff in X. destruct X as [X1 X2]. apply N.leb_le in X1, X2. now apply loop_dominates.
  - intros b c I. destruct (loop_succ _ _ I) as [[-> ->]|[-> [-> | ->]]]; vm_compute; reflexivity.
Qed.

Example C78_loop : match run_pass 100 loop_dom loop with
  | Ok o => o_code o = [(0, OFresh 0); (0, OFresh 1); (0, OUnion 0 (VBase 0) (VBase 1)); (1, OUnion 1 (VUnion 0) (VBase 3))] /\
            map (o_shadow o) [2; 3; 4; 5] = [Some (VUnion 0); Some (VBase 3); Some (VUnion 1); Some (VUnion 1)]
  | _ => False
  end.
Proof. vm_compute. auto. Qed.

(** Its executions exist: labels are sets of bytes as bits, new shadows have the labels 1 and 2,
    and the loop runs twice. *)
Example C78_loop_runs : let means := fun l x => N.testbit l x = true in
  (forall x, ~ means 0 x) /\
  exists o e s, run_pass 100 loop_dom loop = Ok o /\
  let t := [(2, fun _ => 0); (1, fun _ => 0); (1, fun _ => 0); (0, fun r => r + 1)] in
  run_code (unites means) loop o t e /\ spec_run means loop t s /\ o_shadow o 5 = Some (VUnion 1) /\ e (VUnion 1) = 3.
Proof.
  cbn zeta. split; [intros x; rewrite N.bits_0; discriminate|].
  assert (U : forall a b, unites (fun l x => N.testbit l x = true) (N.lor a b) a b).
  { intros a b x. rewrite N.lor_spec, orb_true_iff. reflexivity. }
  eexists. eexists. eexists. split; [vm_compute; reflexivity|]. split; [|split; [|split; [reflexivity|]]].
  - eapply rc_next.
    { eapply rc_next.
      { eapply rc_next.
        { apply (rc_entry _ _ _ (fun r => r + 1) (fun _ => 0)); [reflexivity|].
          match goal with |- run_body _ _ ?c _ _ => let c' := eval vm_compute in c in change c with c' end.
          constructor. constructor. eapply rb_union with (l := 3); [vm_compute; discriminate|apply (U 1 2)|constructor]. }
        { vm_compute. auto. }
        { match goal with |- run_body _ _ ?c _ _ => let c' := eval vm_compute in c in change c with c' end.
          eapply rb_same; [vm_compute; reflexivity|constructor]. } }
      { vm_compute. auto. }
      { match goal with |- run_body _ _ ?c _ _ => let c' := eval vm_compute in c in change c with c' end.
        eapply rb_same; [vm_compute; reflexivity|constructor]. } }
    { vm_compute. auto. }
    { match goal with |- run_body _ _ ?c _ _ => let c' := eval vm_compute in c in change c with c' end. constructor. }
  - eapply sr_next; [|vm_compute; auto]. eapply sr_next; [|vm_compute; auto]. eapply sr_next; [|vm_compute; auto].
    apply (sr_entry _ _ _ (fun _ _ => False)).
  - vm_compute. reflexivity.
Qed.

Print Assumptions C78_reuse.
Print Assumptions C78_ends.
