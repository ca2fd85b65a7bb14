(** C110: programs that fork. *)
From Coq Require Import NArith List Bool Lia.
From Verif Require Import M_Base M_Encoding M_Union M_LabelDeq M_Labels M_Fork
  S_Provenance S_Labels S_Fork P_Base P_Encoding P_Labels P_History P_Fork.
Import ListNotations.
Open Scope N_scope.

(** As long as only one process at a time goes on making labels, every label means, in
    every process that has it, exactly the bytes that the calls say.  Missing for the
    full claim: processes that make labels side by side, see below. *)
Theorem C110_one_writer_partial : forall h w p t l b,
  phist_alone h w -> table_of w p = Some t -> in_use t l ->
  (derives (view t) l b <-> stands (calls h) l b).
Proof.
  intros h w p t l b T E U. assert (I := phist_winv _ _ (alone_phist _ _ T)).
  destruct (table_of_wf _ _ _ I E) as (_ & c & G & -> & L). destruct I as (W & _ & P).
  destruct (P p c G) as [C1 C2].
  rewrite (firstn_derives _ _ _ b W C1 U). apply derives_stands_iff; [now apply alone_trace|].
  destruct U as [U1 U2]. split; [exact U1|]. rewrite L in U2. lia.
Qed.
Print Assumptions C110_one_writer_partial.

(** When the process that has all labels is the last one to exit, a reader of the file
    gets every label of every process with exactly its bytes. *)
Theorem C110_last_exit_partial : forall h w p w',
  phist_alone h w -> knows_all w p -> do_exit w p = Some w' ->
  (forall q t l, table_of w q = Some t -> in_use t l -> in_use (reader_table w') l) /\
  (forall l b, in_use (reader_table w') l ->
     (derives (view (reader_table w')) l b <-> stands (calls h) l b)).
Proof.
  intros h w p w' T (t & E & L) X. assert (I := phist_winv _ _ (alone_phist _ _ T)).
  destruct (table_of_wf _ _ _ I E) as (_ & c & G & Et & Lc).
  unfold do_exit in X. rewrite G in X. inversion X; subst w'.
  assert (R : reader_table (World (file w) (upd (procs w) p None) c) = file w).
  { unfold reader_table. cbn [file fsize]. apply firstn_all2. unfold len in *. lia. }
  rewrite R. split.
  - intros q t' l E' [U1 U2]. destruct (table_of_wf _ _ _ I E') as (_ & d & G' & _ & L').
    destruct I as (_ & _ & P). destruct (P q d G'). split; [exact U1|lia].
  - intros l b U. apply derives_stands_iff; [now apply alone_trace|exact U].
Qed.
Print Assumptions C110_last_exit_partial.

(** Whatever the processes do, the file stays a graph without cycles that can be read:
    every label is a byte of a source or is built from smaller labels. *)
Theorem C110_file_stays_readable : forall h w l, phist h w -> in_use (file w) l ->
  exists tn, read_label (file w) l = Ok tn /\
  match tn with
  | TSource _ index offset => index <= 255 /\ offset < 2 ^ 54
  | TRange _ first last => 1 <= first /\ first < last /\ last < l
  | TUnion _ lower higher => 1 <= lower /\ lower + 1 < higher /\ higher < l
  end.
Proof.
  intros h w l H U. destruct (wf_view _ l (proj1 (phist_winv _ _ H)) U) as (tn & _ & V & Wt & _).
  exists tn. split; [|exact Wt]. unfold view in V. destruct (read_label (file w) l); congruence.
Qed.
Print Assumptions C110_file_stays_readable.

(** No process gets into undefined behaviour by a union of its labels, and it ends only
    when the table is full. *)
Theorem C110_union_total : forall h w p t l r, phist h w -> table_of w p = Some t ->
  in_use t l -> in_use t r ->
  (exists x t', union_taint t l r = Ok (x, t')) \/
  (union_taint t l r = Exit /\ len t = 2 ^ 31).
Proof.
  intros h w p t l r H E Ul Ur. destruct (table_of_wf _ _ _ (phist_winv _ _ H) E) as (W & _).
  destruct (union_taint_total t l r W Ul Ur) as [X|[X Y]]; [left; exact X|right; split; [exact X|]].
  rewrite Y. reflexivity.
Qed.
Print Assumptions C110_union_total.

(** A fork, then a read of each process. *)
Definition side_by_side : list (N * pop * N) :=
  [(0, PFork, 1); (0, PLabels (LSource 1 0 1), 1); (1, PLabels (LSource 2 7 1), 1)].

(** Two processes that go on side by side give out the same labels: a label that a
    process got for one byte of its input stands, in that same process, for a byte that
    only the other process has read. *)
Theorem C110_two_writers_refuted : exists h w p t l b b',
  phist h w /\ table_of w p = Some t /\ in_use t l /\
  stands (calls_of p h) l b /\ ~ derives (view t) l b /\
  derives (view t) l b' /\ ~ stands (calls_of p h) l b'.
Proof.
  exists side_by_side. eexists. exists 0. eexists. exists 1, (1, 0), (2, 7).
  split.
  { unfold side_by_side.
    eapply (ph_snoc [(0, PFork, 1); (0, PLabels (LSource 1 0 1), 1)]).
    - eapply (ph_snoc [(0, PFork, 1)]).
      + eapply (ph_snoc []); [constructor|]. apply ps_fork. reflexivity.
      + eapply ps_labels; [reflexivity|cbn; lia|]. eapply st_source. vm_compute. reflexivity.
    - eapply ps_labels; [vm_compute; reflexivity|cbn; lia|]. eapply st_source. vm_compute. reflexivity. }
  split; [vm_compute; reflexivity|].
  match goal with |- in_use ?t _ /\ _ => set (tb := t) end.
  assert (V : view tb 1 = Some (TSource false 2 7)) by (vm_compute; reflexivity).
  assert (U : in_use tb 1) by (unfold tb; vm_compute; intuition congruence).
  split; [exact U|].
  assert (D : forall b, derives (view tb) 1 b <-> b = (2, 7)).
  { intros b. rewrite (derives_den (view tb) 1 _ b V). reflexivity. }
  split.
  { apply (sd_source _ 1 0 1 1 0); [left; reflexivity|lia]. }
  split; [rewrite D; discriminate|]. split; [now apply D|].
  intros S. inversion S; subst; cbn in *; intuition congruence.
Qed.
Print Assumptions C110_two_writers_refuted.

(** One process makes all labels, but a process that made none exits after it: its size
    goes to the header and the labels made after the fork are gone for the reader. *)
Theorem C110_late_exit_refuted : exists h w p t l,
  phist_alone h w /\ table_of w p = Some t /\ in_use t l /\
  exists h' w', phist_alone (h ++ h') w' /\ calls h' = [] /\
    (forall q, table_of w' q = None) /\ 0 < fsize w' /\ ~ in_use (reader_table w') l.
Proof.
  exists [(0, PFork, 1); (0, PLabels (LSource 1 0 3), 1)]. eexists. exists 0. eexists. exists 2.
  assert (H : phist_alone [(0, PFork, 1); (0, PLabels (LSource 1 0 3), 1)]
     (World [0; encode (TSource false 1 0); encode (TSource false 1 1); encode (TSource false 1 2)]
        [Some 4; Some 1] 0)).
  { apply (pa_snoc [(0, PFork, 1)] (World labels_new [Some 1; Some 1] 0)).
    - apply (pa_snoc [] world_new); [constructor|apply ps_fork; reflexivity|discriminate].
    - apply (ps_labels (World labels_new [Some 1; Some 1] 0) 0 labels_new (LSource 1 0 3) 1
        [0; encode (TSource false 1 0); encode (TSource false 1 1); encode (TSource false 1 2)]);
        [reflexivity|cbn; lia|]. eapply st_source. vm_compute. reflexivity.
    - intros l _. exists labels_new. split; reflexivity. }
  split; [exact H|]. split; [reflexivity|]. split; [vm_compute; intuition congruence|].
  exists [(0, PExit, 0); (1, PExit, 0)]. eexists. split.
  { eapply (pa_snoc ([(0, PFork, 1); (0, PLabels (LSource 1 0 3), 1)] ++ [(0, PExit, 0)])).
    - eapply pa_snoc; [exact H|apply ps_exit; reflexivity|discriminate].
    - apply ps_exit. reflexivity.
    - discriminate. }
  split; [reflexivity|]. split.
  { intros q. unfold table_of. cbn [procs].
    destruct (get (upd (upd [Some 4; Some 1] 0 None) 1 None) q) as [[c|]|] eqn:G; try reflexivity.
    exfalso. assert (L := get_some _ _ _ G). rewrite !len_upd in L. change (q < 2) in L.
    assert (K : q = 0 \/ q = 1) by lia. destruct K as [-> | ->]; discriminate G. }
  split; [reflexivity|]. vm_compute. intuition congruence.
Qed.
Print Assumptions C110_late_exit_refuted.

(** The hypotheses of the partial theorems: the old process reads, forks and ends, the
    new one goes on, unites labels of both and exits last. *)
Example C110_case : exists h w t x, phist_alone h w /\ table_of w 1 = Some t /\ knows_all w 1 /\
  table_of w 0 = None /\ In (1, PLabels (LUnion 1 3), x) h /\
  view t x = Some (TUnion false 1 3).
Proof.
  eexists _, _, _, _. split.
  { eapply pa_snoc; [eapply pa_snoc; [eapply pa_snoc; [eapply pa_snoc; [eapply pa_snoc; [apply pa_nil| | ]| | ]| | ]| | ]| | ].
    - eapply (ps_labels _ 0 _ (LSource 1 0 2)); [reflexivity|cbn; lia|]. eapply st_source. vm_compute. reflexivity.
    - intros l _. eexists. split; reflexivity.
    - apply (ps_fork _ 0). vm_compute. reflexivity.
    - discriminate.
    - apply (ps_quit _ 0). vm_compute. reflexivity.
    - discriminate.
    - eapply (ps_labels _ 1 _ (LSource 2 9 1)); [vm_compute; reflexivity|cbn; lia|]. eapply st_source. vm_compute. reflexivity.
    - intros l _. eexists. split; vm_compute; reflexivity.
    - eapply (ps_labels _ 1 _ (LUnion 1 3)); [vm_compute; reflexivity|split; vm_compute; intuition congruence|].
      eapply st_union. vm_compute. reflexivity.
    - intros l _. eexists. split; vm_compute; reflexivity. }
  split; [vm_compute; reflexivity|]. split; [eexists; split; vm_compute; reflexivity|].
  split; [vm_compute; reflexivity|]. split; [cbn; tauto|vm_compute; reflexivity].
Qed.
