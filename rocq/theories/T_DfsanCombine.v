(** C135: the origin of a computed value. *)
From Coq Require Import NArith List Bool Lia.
From Verif Require Import M_Base M_DfsanCombine.
Import ListNotations.
Open Scope N_scope.

Definition tainted (op : operand) : Prop := op_label op <> 0.
(** Operands as the pass makes them: a null constant as origin is 0, and only values without a
    label have one. *)
Definition proper (op : operand) : Prop := op_null op = true -> op_origin op = 0 /\ op_label op = 0.

Lemma loop_app l1 l2 acc : combine_loop (l1 ++ l2) acc = combine_loop l2 (combine_loop l1 acc).
Proof.
  revert acc. induction l1 as [|op l IH]; intros acc; cbn [app combine_loop]; [reflexivity|].
  destruct (op_null op); [apply IH|]. destruct acc; apply IH.
Qed.
Lemma loop_clean l o : Forall (fun op => ~ tainted op) l -> combine_loop l (Some o) = Some o.
Proof.
  induction 1 as [|op l T F IH]; cbn [combine_loop]; [reflexivity|]. destruct (op_null op); [exact IH|].
  destruct (N.eqb_spec (op_label op) 0) as [_|E]; [exact IH|]. now destruct T.
Qed.
Lemma loop_from l acc o : combine_loop l acc = Some o -> acc = Some o \/ exists op, In op l /\ op_origin op = o.
Proof.
  revert acc. induction l as [|op l IH]; intros acc E; cbn [combine_loop] in E; [now left|].
  destruct (op_null op); [destruct (IH _ E) as [K|(x & I & K)]; [now left|right; exists x; split; [now right|exact K]]|].
  destruct acc as [a|].
  - destruct (IH _ E) as [K|(x & I & K)]; [|right; exists x; split; [now right|exact K]].
    destruct (negb _); [right; exists op; split; [now left|congruence]|left; congruence].
  - destruct (IH _ E) as [K|(x & I & K)]; [right; exists op; split; [now left|congruence]|right; exists x; split; [now right|exact K]].
Qed.

(** A value computed from operands, some of which are tainted, has the origin of the last one
    that is. *)
Theorem C135_last : forall before op after, proper op -> tainted op -> Forall (fun x => ~ tainted x) after ->
  combine_origins (before ++ op :: after) = op_origin op.
Proof.
  intros before op after P T F. unfold combine_origins. rewrite loop_app. cbn [combine_loop].
  destruct (op_null op) eqn:N; [destruct (P N); now destruct T|].
  pose proof T as T'. apply N.eqb_neq in T'. rewrite T'. cbn [negb].
  destruct (combine_loop before None); now rewrite loop_clean.
Qed.
Print Assumptions C135_last.

(** So if tainted operands have origins, every tainted result has the origin of a tainted
    operand, and it is not 0. *)
Theorem C135_traced : forall ops, Forall proper ops -> (forall op, In op ops -> tainted op -> op_origin op <> 0) ->
  (exists op, In op ops /\ tainted op) ->
  exists op, In op ops /\ tainted op /\ combine_origins ops = op_origin op /\ combine_origins ops <> 0.
Proof.
  intros ops P O (x & I & T).
  assert (S : exists before op after, ops = before ++ op :: after /\ tainted op /\ Forall (fun y => ~ tainted y) after).
  { clear P O. induction ops as [|y ops IH]; [destruct I|].
    destruct (Forall_Exists_dec (fun z => ~ tainted z) (fun z => match N.eq_dec (op_label z) 0 with left e => left (fun k => k e) | right n => right (fun k => k n) end) ops) as [F|E].
    - destruct I as [->|I]; [exists [], x, ops; auto|]. rewrite Forall_forall in F. destruct (F x I T).
    - apply Exists_exists in E. destruct E as (z & Iz & Tz).
      destruct (N.eq_dec (op_label x) 0) as [Q|_]; [now destruct T|].
      destruct (N.eq_dec (op_label z) 0) as [Q|Q]; [destruct Tz; intros K; now apply K|].
      destruct I as [->|I].
      + clear IH. assert (G : forall l w, In w l -> tainted w -> exists b o a, l = b ++ o :: a /\ tainted o /\ Forall (fun y => ~ tainted y) a).
        { induction l as [|v l IHl]; intros w Iw Tw; [destruct Iw|].
          destruct (Forall_Exists_dec (fun z => ~ tainted z) (fun z => match N.eq_dec (op_label z) 0 with left e => left (fun k => k e) | right n => right (fun k => k n) end) l) as [F|E].
          - destruct Iw as [->|Iw]; [exists [], w, l; auto|]. rewrite Forall_forall in F. destruct (F w Iw Tw).
          - apply Exists_exists in E. destruct E as (u & Iu & Tu). destruct (N.eq_dec (op_label u) 0) as [Qu|Qu]; [destruct Tu; intros K; now apply K|].
            destruct (IHl u Iu Qu) as (b & o & a & -> & To & Fo). exists (v :: b), o, a. auto. }
        destruct (G ops z Iz Q) as (b & o & a & -> & To & Fo). exists (x :: b), o, a. auto.
      + destruct (IH I) as (b & o & a & -> & To & Fo). exists (y :: b), o, a. auto. }
  destruct S as (b & o & a & -> & To & Fo). exists o.
  assert (Io : In o (b ++ o :: a)) by (apply in_app_iff; right; now left).
  rewrite (C135_last b o a); [auto| |exact To|exact Fo]. rewrite Forall_forall in P. now apply P.
Qed.
Print Assumptions C135_traced.

(** The origin is always that of some operand, or 0. *)
Theorem C135_some : forall ops, combine_origins ops = 0 \/ exists op, In op ops /\ combine_origins ops = op_origin op.
Proof.
  intros ops. unfold combine_origins. destruct (combine_loop ops None) as [o|] eqn:E; [|now left].
  destruct (loop_from _ _ _ E) as [K|(op & I & <-)]; [discriminate|]. right. now exists op.
Qed.
Print Assumptions C135_some.

Example C135_case : let ops := [mkOperand 0 5 false; mkOperand 3 7 false; mkOperand 4 8 false; mkOperand 0 9 false; mkOperand 0 0 true] in
  Forall proper ops /\ combine_origins ops = 8.
Proof. split; [|reflexivity]. repeat constructor; discriminate. Qed.
