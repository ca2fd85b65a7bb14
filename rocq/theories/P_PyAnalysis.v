(** The graph walks of the Python analyses. *)
From Coq Require Import NArith ZArith List Bool Lia Sorted.
From Verif Require Import M_Base M_Encoding M_Labels M_Sources M_PyNode M_PySections M_PyFile M_PyAnalysis S_Provenance S_Labels
  P_Base P_Encoding P_Labels P_PyNode P_ControlFlow P_History.
Import ListNotations.
Open Scope N_scope.

Lemma set_mem_spec x l : set_mem x l = true <-> In x l.
Proof.
  unfold set_mem. rewrite existsb_exists. split.
  - intros (y & H & E). apply N.eqb_eq in E. now subst.
  - intros H. exists x. split; [exact H|apply N.eqb_refl].
Qed.
Lemma set_mem_false x l : set_mem x l = false <-> ~ In x l.
Proof. rewrite <- set_mem_spec. destruct (set_mem x l); split; congruence. Qed.

Lemma in_py_range a b x : In x (py_range a b) <-> a <= x < b.
Proof. unfold py_range. rewrite in_nseq. lia. Qed.

(** What a visited node pushes. *)
Definition push (tn : taint) : list N :=
  match tn with
  | TSource _ _ _ => []
  | TUnion _ lo hi => [lo; hi]
  | TRange _ f l => rev (py_range f (l + 1))
  end.
Lemma push_component t l tn : view t l = Some tn -> forall m, In m (push tn) <-> component (view t) l m.
Proof.
  intros V m. rewrite <- (visit_order_component t l tn V). destruct tn; cbn [push visit_order]; [tauto| |tauto].
  rewrite <- in_rev, in_py_range, in_nseq. lia.
Qed.

Section Walk.
  Context {A : Type} (d : tdfile) (t : table) (visit : A -> list N -> N -> py_node -> Res (A * list N)).
  Hypothesis W : wf_table t.
  Hypothesis Dec : forall l tn, view t l = Some tn -> td_decode_node d l = Ok (node_of tn).

  (** Labels not yet seen. *)
  Definition unseen (seen : list N) : list N := filter (fun x => negb (set_mem x seen)) (nseq 0 (N.to_nat (len t))).
  Lemma in_unseen seen x : In x (unseen seen) <-> x < len t /\ ~ In x seen.
  Proof. unfold unseen. rewrite filter_In, in_nseq, negb_true_iff, set_mem_false. intuition lia. Qed.
  Lemma unseen_less seen seen' l : incl (l :: seen) seen' -> l < len t -> ~ In l seen ->
    (length (unseen seen') < length (unseen seen))%nat.
  Proof.
    intros I L N. assert (ND : NoDup (l :: unseen seen')).
    { constructor.
      - rewrite in_unseen. intros [_ X]. apply X, I. now left.
      - unfold unseen. apply NoDup_filter, NoDup_nseq. }
    apply (NoDup_incl_length ND). intros x [<-|H]; apply in_unseen; [tauto|].
    apply in_unseen in H as [H1 H2]. split; [exact H1|]. intros H. apply H2, I. now right.
  Qed.

  Variable Inv : list N -> list N -> A -> Prop.
  Hypothesis Skip : forall l rest seen acc, Inv (l :: rest) seen acc -> In l seen -> Inv rest seen acc.
  Hypothesis Step : forall l rest seen acc, Inv (l :: rest) seen acc -> ~ In l seen ->
    exists tn acc' seen', view t l = Some tn /\ visit acc (l :: seen) l (node_of tn) = Ok (acc', seen') /\
      incl (l :: seen) seen' /\ Inv (push tn ++ rest) seen' acc'.

  Lemma dfs_total stack seen acc : Inv stack seen acc ->
    exists F acc' seen', Inv [] seen' acc' /\
      forall fuel, (F <= fuel)%nat -> dfs_loop d visit fuel stack seen acc = Ok (acc', seen').
  Proof.
    remember (length (unseen seen)) as n eqn:Hn. revert stack seen acc Hn.
    induction n as [n IHn] using (well_founded_induction Wf_nat.lt_wf). intros stack.
    induction stack as [|l rest IHs]; intros seen acc Hn I.
    - exists O, acc, seen. split; [exact I|]. intros [|f] _; reflexivity.
    - destruct (set_mem l seen) eqn:E.
      + destruct (IHs seen acc Hn) as (F & acc' & seen' & I' & R).
        { eapply Skip; [exact I|]. now apply set_mem_spec. }
        exists (S F), acc', seen'. split; [exact I'|]. intros [|f] Hf; [lia|]. cbn [dfs_loop]. rewrite E. apply R. lia.
      + apply set_mem_false in E. destruct (Step _ _ _ _ I E) as (tn & a1 & s1 & V & Vi & In1 & I1).
        assert (U := view_in_use _ _ _ W V). destruct U as [_ U].
        assert (Ls := unseen_less _ _ _ In1 U E).
        destruct (IHn (length (unseen s1)) ltac:(lia) (push tn ++ rest) s1 a1 eq_refl I1) as (F & acc' & seen' & I' & R).
        exists (S F), acc', seen'. split; [exact I'|]. intros [|f] Hf; [lia|]. cbn [dfs_loop].
        apply set_mem_false in E. rewrite E, (Dec _ _ V). cbn [bind]. rewrite Vi. cbn [bind].
        destruct tn; cbn [node_of push app] in *; apply R; lia.
  Qed.
End Walk.

(** ** mapping *)
Section Mapping.
  Context (d : tdfile) (t : table).
  Hypothesis W : wf_table t.
  Hypothesis Dec : forall l tn, view t l = Some tn -> td_decode_node d l = Ok (node_of tn).
  Hypothesis Fds : forall l cf i o, view t l = Some (TSource cf i o) -> exists h, td_fd_header d i = Ok h.

  Definition pair_for (s : py_sink) (sp : py_path * py_fdhdr) (e : file_offset_in * file_offset_out) (i o : N) : Prop :=
    exists np, td_fd_header d i = Ok np /\ e = ((fst np, o), (fst sp, sk_offset s)).

  Record map_inv (s : py_sink) (sp : py_path * py_fdhdr) (root : N) (acc0 : io_map)
      (stack seen : list N) (acc : io_map) : Prop := {
    mv_use : forall x, In x stack \/ In x seen -> in_use t x /\ built_from (view t) root x;
    mv_root : In root stack \/ In root seen;
    mv_closed : forall x m, In x seen -> component (view t) x m -> In m stack \/ In m seen;
    mv_acc : forall e, In e acc <-> In e acc0 \/
      exists x cf i o, In x seen /\ view t x = Some (TSource cf i o) /\ pair_for s sp e i o }.

  Lemma map_walk s sp root acc0 : in_use t root -> td_fd_header d (sk_fdidx s) = Ok sp ->
    exists F acc' seen', (forall e, In e acc' <-> In e acc0 \/
        exists i o, derives (view t) root (i, o) /\ pair_for s sp e i o) /\
      forall fuel, (F <= fuel)%nat -> dfs_walk d (mapping_visit d s) fuel root [] acc0 = Ok (acc', seen').
  Proof.
    intros U Sp.
    destruct (dfs_total d t (mapping_visit d s) W Dec (map_inv s sp root acc0)) with (stack := [root]) (seen := @nil N) (acc := acc0)
      as (F & acc' & seen' & I & R).
    - intros l rest seen acc [I1 I2 I3 I4] Hl. constructor.
      + intros x Hx. apply I1. destruct Hx; [left; now right|now right].
      + destruct I2 as [[<-|H]|H]; auto.
      + intros x m Hx Hc. destruct (I3 x m Hx Hc) as [[<-|H]|H]; auto.
      + exact I4.
    - intros l rest seen acc [I1 I2 I3 I4] Hl.
      destruct (I1 l) as [Ul Bl]; [left; now left|]. destruct (wf_view t l W Ul) as (tn & _ & V & Wt & _).
      assert (P := push_component t l tn V).
      assert (Use : forall x, In x (push tn ++ rest) \/ In x (l :: seen) -> in_use t x /\ built_from (view t) root x).
      { intros x [H|[<-|H]].
        - apply in_app_or in H as [H|H]; [|apply I1; left; now right]. apply P in H. split.
          + apply component_lt in H; auto. destruct Ul. split; lia.
          + eapply built_from_trans; [exact Bl|]. econstructor; [exact H|constructor].
        - apply I1. left. now left.
        - apply I1. now right. }
      assert (Cl : forall x m, In x (l :: seen) -> component (view t) x m -> In m (push tn ++ rest) \/ In m (l :: seen)).
      { intros x m [<-|Hx] Hc.
        - left. apply in_or_app. left. now apply P.
        - destruct (I3 x m Hx Hc) as [[<-|H]|H].
          + right. now left.
          + left. apply in_or_app. now right.
          + right. now right. }
      assert (Rt : In root (push tn ++ rest) \/ In root (l :: seen)).
      { destruct I2 as [[<-|H]|H].
        - right. now left.
        - left. apply in_or_app. now right.
        - right. now right. }
      assert (Same : forall acc1, (forall e, In e acc1 <-> In e acc \/ exists cf i o, tn = TSource cf i o /\ pair_for s sp e i o) ->
        map_inv s sp root acc0 (push tn ++ rest) (l :: seen) acc1).
      { intros acc1 E. constructor; auto. intros e. rewrite E, I4. split.
        - intros [[H|(x & cf & i & o & H1 & H2 & H3)]|(cf & i & o & -> & H)].
          + now left.
          + right. exists x, cf, i, o. split; [now right|]. tauto.
          + right. exists l, cf, i, o. split; [now left|]. tauto.
        - intros [H|(x & cf & i & o & [<-|H1] & H2 & H3)].
          + left. now left.
          + right. exists cf, i, o. split; [congruence|exact H3].
          + left. right. exists x, cf, i, o. tauto. }
      destruct tn as [cf i o|cf f la|cf lo hi].
      + destruct (Fds l cf i o V) as (np & Hnp). eexists _, _, _. split; [exact V|].
        split; [cbn [node_of mapping_visit]; rewrite Sp; cbn [bind]; rewrite Hnp; cbn [bind]; reflexivity|].
        split; [apply incl_refl|]. apply Same. intros e. rewrite in_app_iff. cbn [In]. split.
        * intros [H|[<-|[]]]; [now left|]. right. exists cf, i, o. split; [reflexivity|]. exists np. auto.
        * intros [H|(cf' & i' & o' & E & np' & H1 & H2)]; [now left|]. right. left. inversion E; subst. congruence.
      + eexists _, acc, _. split; [exact V|]. split; [reflexivity|]. split; [apply incl_refl|]. apply Same.
        intros e. split; [now left|]. intros [H|(? & ? & ? & E & _)]; [exact H|discriminate].
      + eexists _, acc, _. split; [exact V|]. split; [reflexivity|]. split; [apply incl_refl|]. apply Same.
        intros e. split; [now left|]. intros [H|(? & ? & ? & E & _)]; [exact H|discriminate].
    - constructor.
      + intros x [[<-|[]]|[]]. split; [exact U|constructor].
      + left. now left.
      + intros x m [].
      + intros e. split; [now left|]. intros [H|(x & _ & _ & _ & [] & _)]; exact H.
    - exists F, acc', seen'. split; [|exact R]. destruct I as [I1 I2 I3 I4].
      assert (All : forall x, built_from (view t) root x -> In x seen').
      { assert (G : forall a x, built_from (view t) a x -> In a seen' -> In x seen').
        { induction 1 as [a|a m x Hc Hb IH]; [auto|]. intros Ha. apply IH. destruct (I3 a m Ha Hc) as [[]|H]; exact H. }
        intros x H. apply (G root x H). destruct I2 as [[]|H2]; exact H2. }
      intros e. rewrite I4. split.
      + intros [H|(x & cf & i & o & H1 & H2 & H3)]; [now left|]. right. exists i, o. split; [|exact H3].
        exists x, cf. split; [apply I1; now right|exact H2].
      + intros [H|(i & o & (x & cf & H1 & H2) & H3)]; [now left|]. right. exists x, cf, i, o. split; [now apply All|]. split; [exact H2|exact H3].
  Qed.

  Lemma mapping_loop_spec sinks : Forall (fun s => in_use t (sk_label s) /\ exists sp, td_fd_header d (sk_fdidx s) = Ok sp) sinks ->
    forall acc0, exists F acc', (forall e, In e acc' <-> In e acc0 \/
        exists s sp i o, In s sinks /\ td_fd_header d (sk_fdidx s) = Ok sp /\ derives (view t) (sk_label s) (i, o) /\ pair_for s sp e i o) /\
      forall fuel, (F <= fuel)%nat -> mapping_loop fuel d sinks acc0 = Ok acc'.
  Proof.
    induction 1 as [|s sinks (U & sp & Sp) H IH]; intros acc0.
    - exists O, acc0. split; [|reflexivity]. intros e. split; [now left|]. intros [H|(s & _ & _ & _ & [] & _)]; exact H.
    - destruct (map_walk s sp (sk_label s) acc0 U Sp) as (F1 & a1 & seen1 & E1 & R1).
      destruct (IH a1) as (F2 & a2 & E2 & R2). exists (Nat.max F1 F2), a2. split.
      + intros e. rewrite E2, E1. split.
        * intros [[H1|(i & o & H1 & H2)]|(s' & sp' & i & o & H1 & H2 & H3 & H4)].
          -- now left.
          -- right. exists s, sp, i, o. split; [now left|]. auto.
          -- right. exists s', sp', i, o. split; [now right|]. auto.
        * intros [H1|(s' & sp' & i & o & [<-|H1] & H2 & H3 & H4)].
          -- left. now left.
          -- left. right. exists i, o. split; [exact H3|]. congruence.
          -- right. exists s', sp', i, o. auto.
      + intros fuel Hf. cbn [mapping_loop]. rewrite R1 by lia. cbn [bind fst]. apply R2. lia.
  Qed.
End Mapping.
