(** C47, C48: the label table used by several threads at once, under every schedule. *)
From Coq Require Import NArith List Bool Lia.
From Verif Require Import M_Base M_Encoding M_Union M_Labels M_Conc M_ConcLabels S_Provenance S_Labels S_ConcLabels
  P_Base P_Labels P_ControlFlow P_Conc P_ConcLabels.
Import ListNotations.
Open Scope N_scope.

(** C47: whatever the interleaving, a label handed out to some thread stands for exactly the
    input bytes the finished calls say: the byte it was created for, or the bytes of both
    operands of a union that returned it. *)
Theorem C47_provenance : forall k schedule l b, legal (lstart k) schedule ->
  let s := fst (after k schedule) in
  handed (ls_log s) l -> (derives (view (ls_tab s)) l b <-> stands (history s) l b).
Proof.
  intros k schedule l b L s H. destruct (ginv_after k schedule L) as (ct & fl & G). fold s in G.
  destruct (handed_in_use _ _ _ (gi_log _ _ _ _ G) H) as [U1 U2]. rewrite (derives_tab _ _ _ _ _ _ G U2). split.
  - intros D. apply (derives_stands _ _ _ _ b G (ls_log s) [] l); auto. now rewrite app_nil_r.
  - apply (stands_derives _ _ _ _ _ _ G).
Qed.
Print Assumptions C47_provenance.

(** C47: what a handed-out label is built from are smaller labels, so walks terminate. *)
Theorem C47_acyclic : forall k schedule l m, legal (lstart k) schedule ->
  let s := fst (after k schedule) in
  handed (ls_log s) l -> component (view (ls_tab s)) l m -> 1 <= m /\ m < l.
Proof.
  intros k schedule l m L s H C. destruct (ginv_after k schedule L) as (ct & fl & G). fold s in G.
  destruct (handed_in_use _ _ _ (gi_log _ _ _ _ G) H) as [U1 U2]. apply (component_tab _ _ _ _ _ _ G U2) in C.
  destruct (component_lt _ _ _ (gi_wf _ _ _ _ G) C) as (A & B & _). auto.
Qed.
Print Assumptions C47_acyclic.

(** C47: two source requests never share labels; later ones get larger labels. *)
Theorem C47_sources_disjoint : forall k schedule i j src off n f src' off' n' f', legal (lstart k) schedule ->
  let s := fst (after k schedule) in i < j ->
  get (ls_log s) i = Some (KSource src off n, f) -> get (ls_log s) j = Some (KSource src' off' n', f') ->
  f + n <= f'.
Proof.
  intros k schedule i j src off n f src' off' n' f' L s Hij Gi Gj.
  destruct (ginv_after k schedule L) as (ct & fl & G). fold s in G.
  exact (lg_disj _ _ (gi_log _ _ _ _ G) _ _ _ _ _ _ _ _ _ _ Hij Gi Gj).
Qed.
Print Assumptions C47_sources_disjoint.

(** C47: as long as the labels asked for fit, no interleaving makes the process exit or
    reach undefined behaviour. *)
Theorem C47_never_stops : forall k schedule, legal (lstart k) schedule ->
  1 + demands (lstart k) schedule <= label_capacity -> ls_status (fst (after k schedule)) = Running.
Proof.
  intros k schedule L D. apply (room_run schedule _ _ _ _ (ginv_start k) L); [reflexivity|].
  assert (R0 : reserves (snd (lstart k)) = 0) by (clear; induction k; [reflexivity|exact IHk]).
  rewrite R0. change (ls_tab (fst (lstart k))) with labels_new. change (len labels_new) with 1.
  rewrite <- surjective_pairing. lia.
Qed.
Print Assumptions C47_never_stops.

(** Three threads: two create sources, form unions of them at the same time and mark the
    result while a third one forms another union. *)
Definition demo : list (N * lcall) :=
  let again i c n := repeat (i, c) n in
  again 0 (KSource 0 10 3) 6%nat ++ again 1 (KSource 1 7 2) 5%nat ++
  [(0, KUnion 1 3); (1, KUnion 1 3); (0, KUnion 1 3); (1, KUnion 1 3); (0, KUnion 1 3); (1, KUnion 1 3); (0, KUnion 1 3); (1, KUnion 1 3)] ++
  again 0 (KUnion 1 3) 7%nat ++ again 1 (KUnion 1 3) 7%nat.

(** C47: unlike the sequential table, two threads forming the same union at the same time may
    be given two different labels, although nothing was appended between them. *)
Theorem C47_same_union_same_label_refuted : exists k schedule a c x,
  legal (lstart k) schedule /\ all_idle (snd (after k schedule)) /\
  In (KUnion a c, x) (ls_log (fst (after k schedule))) /\ In (KUnion a c, x + 1) (ls_log (fst (after k schedule))).
Proof.
  exists 2%nat, (firstn 40 demo), 1, 3, 6. split; [apply legalb_ok; vm_compute; reflexivity|]. split; [|split].
  - unfold all_idle. match goal with |- Forall _ ?l => assert (E : l = [TIdle; TIdle]) by (vm_compute; reflexivity); rewrite E end.
    repeat constructor.
  - vm_compute. auto.
  - vm_compute. auto.
Qed.
Print Assumptions C47_same_union_same_label_refuted.

Example C47_case : legal (lstart 3) demo /\ 1 + demands (lstart 3) demo <= label_capacity /\
  handed (ls_log (fst (after 3 demo))) 6 /\ handed (ls_log (fst (after 3 demo))) 7.
Proof.
  split; [apply legalb_ok; vm_compute; reflexivity|]. split; [vm_compute; discriminate|].
  split; apply handedb_ok; vm_compute; reflexivity.
Qed.

(** C48: marking changes nothing but flags, and never clears one: between any moment and any
    later one, a label handed out by the first keeps its kind and contents, and its flag if set. *)
Theorem C48_only_flags : forall k before later l, legal (lstart k) (before ++ later) ->
  let s := fst (after k before) in let s' := fst (after k (before ++ later)) in
  handed (ls_log s) l ->
  option_map erase_cf (view (ls_tab s) l) = option_map erase_cf (view (ls_tab s') l) /\
  (flagged (view (ls_tab s)) l -> flagged (view (ls_tab s')) l).
Proof.
  intros k before later l L s s' H. destruct (ginv_later k before later L) as (ct & fl & ct' & fl' & G & G' & [X1 X2]).
  fold s in G. fold s' in G'. destruct (handed_in_use _ _ _ (gi_log _ _ _ _ G) H) as [U1 U2]. assert (U3 : l < len ct') by lia.
  rewrite (view_tab _ _ _ _ _ G U2), (view_tab _ _ _ _ _ G' U3). destruct (X2 l U2) as [E F]. split; [exact E|].
  rewrite !flagged_flg. unfold flg in *. rewrite (view_tab _ _ _ _ _ G U2), (view_tab _ _ _ _ _ G' U3). exact F.
Qed.
Print Assumptions C48_only_flags.

(** C48: at every moment, a flagged label handed out is one that some label marked, or being
    marked, is built from. *)
Theorem C48_never_spurious : forall k schedule l, legal (lstart k) schedule ->
  let s := fst (after k schedule) in
  handed (ls_log s) l -> flagged (view (ls_tab s)) l ->
  exists root, (marked (ls_log s) root \/ being_marked (snd (after k schedule)) root) /\ built_from (view (ls_tab s)) root l.
Proof.
  intros k schedule l L s H F. destruct (ginv_after k schedule L) as (ct & fl & G). fold s in G.
  destruct (handed_in_use _ _ _ (gi_log _ _ _ _ G) H) as [U1 U2].
  apply flagged_flg in F. assert (F' : flg ct l) by (unfold flg in *; now rewrite (view_tab _ _ _ _ _ G U2) in F).
  destruct (gi_just _ _ _ _ G l (or_introl F')) as (r & R & B). exists r. split; [exact R|].
  destruct (gi_roots _ _ _ _ G r R) as [[_ Ur] _]. now apply (built_tab _ _ _ _ _ _ G Ur).
Qed.
Print Assumptions C48_never_spurious.

(** C48: once no call is in progress, the flagged labels are exactly those that some marked
    label is built from, as if the marks had been made one after the other. *)
Theorem C48_all_marked : forall k schedule l, legal (lstart k) schedule -> all_idle (snd (after k schedule)) ->
  let s := fst (after k schedule) in
  flagged (view (ls_tab s)) l <-> exists root, marked (ls_log s) root /\ built_from (view (ls_tab s)) root l.
Proof.
  intros k schedule l L A s. destruct (ginv_after k schedule L) as (ct & fl & G). fold s in G.
  assert (Ef : ls_tab s = ct).
  { rewrite (gi_tab _ _ _ _ G). assert (FL : fl = []); [|now rewrite FL, app_nil_r].
    apply (gi_free _ _ _ _ G). exact (idle_unlocked k schedule A). }
  rewrite Ef, flagged_flg. split.
  - intros F. destruct (gi_just _ _ _ _ G l (or_introl F)) as (r & [R|(j & t & Gj & R)] & B); [eauto|].
    rewrite (idle_nothing _ A _ _ Gj) in R. discriminate.
  - intros (r & R & B). destruct (gi_roots _ _ _ _ G r (or_introl R)) as [U [F|(j & t & Gj & I)]].
    + eapply quiet_closed; eauto.
    + rewrite (idle_nothing _ A _ _ Gj) in I. destruct I.
Qed.
Print Assumptions C48_all_marked.

(** Two threads mark overlapping unions at the same time. *)
Definition demo_mark : list (N * lcall) :=
  let again i c n := repeat (i, c) n in
  again 0 (KSource 0 10 6) 9%nat ++ again 0 (KUnion 1 3) 12%nat ++ again 0 (KUnion 3 6) 10%nat ++
  [(0, KMark 7); (1, KMark 8); (0, KMark 7); (1, KMark 8); (0, KMark 7); (1, KMark 8)] ++
  again 0 (KMark 7) 9%nat ++ again 1 (KMark 8) 7%nat.

Example C48_case : legal (lstart 2) demo_mark /\ all_idle (snd (after 2 demo_mark)) /\
  handed (ls_log (fst (after 2 demo_mark))) 6 /\ flagged (view (ls_tab (fst (after 2 demo_mark)))) 6 /\
  marked (ls_log (fst (after 2 demo_mark))) 8 /\ ~ flagged (view (ls_tab (fst (after 2 demo_mark)))) 5.
Proof.
  split; [apply legalb_ok; vm_compute; reflexivity|]. split; [|split; [|split; [|split]]].
  - unfold all_idle. match goal with |- Forall _ ?l => assert (E : l = [TIdle; TIdle]) by (vm_compute; reflexivity); rewrite E end.
    repeat constructor.
  - apply handedb_ok; vm_compute; reflexivity.
  - left. exists 0, 15. vm_compute. reflexivity.
  - unfold marked. match goal with |- In _ ?l => assert (E : l = [(KSource 0 10 6, 1); (KUnion 1 3, 7); (KUnion 3 6, 8); (KMark 7, 0); (KMark 8, 0)])
      by (vm_compute; reflexivity); rewrite E end. auto 10 using in_eq, in_cons.
  - intros F. apply flagged_flg in F. destruct F as (tn & V & C).
    assert (E : view (ls_tab (fst (after 2 demo_mark))) 5 = Some (TSource false 0 14)) by (vm_compute; reflexivity).
    rewrite E in V. injection V as <-. discriminate C.
Qed.

(** C48: a marking call that returns while another thread is still marking may leave labels
    unflagged that its argument is built from: the other thread will flag them. *)
Theorem C48_complete_on_return_refuted : exists k schedule root l,
  legal (lstart k) schedule /\ marked (ls_log (fst (after k schedule))) root /\
  built_from (view (ls_tab (fst (after k schedule)))) root l /\ ~ flagged (view (ls_tab (fst (after k schedule)))) l.
Proof.
  pose (again := fun (i : N) (c : lcall) n => repeat (i, c) n).
  pose (sch := again 0 (KSource 0 10 3) 6%nat ++ again 0 (KUnion 1 3) 9%nat ++ again 0 (KMark 4) 5%nat ++ again 1 (KMark 4) 3%nat).
  exists 2%nat, sch, 4, 1.
  split; [apply legalb_ok; vm_compute; reflexivity|]. split; [|split].
  - unfold marked. match goal with |- In _ ?l => assert (E : l = [(KSource 0 10 3, 1); (KUnion 1 3, 4); (KMark 4, 0)])
      by (vm_compute; reflexivity); rewrite E end. auto 10 using in_eq, in_cons.
  - assert (E : view (ls_tab (fst (after 2 sch))) 4 = Some (TUnion true 1 3)) by (vm_compute; reflexivity).
    apply bf_step with 1; [|apply bf_refl]. now apply (visit_order_component _ _ _ E), in_eq.
  - intros F. apply flagged_flg in F. destruct F as (tn & V & C).
    assert (E : view (ls_tab (fst (after 2 sch))) 1 = Some (TSource false 0 10)) by (vm_compute; reflexivity).
    rewrite E in V. injection V as <-. discriminate C.
Qed.
Print Assumptions C48_complete_on_return_refuted.
