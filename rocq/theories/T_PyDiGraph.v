(** C106: questions to graphs. *)
From Coq Require Import NArith ZArith List Bool Lia Arith.
From Verif Require Import M_Base M_PyGraph M_PyDiGraph S_Graph S_Dominators S_DiGraph P_Base P_PyGraph P_PyDiGraph P_Dominators P_PyDiGraph2.
Import ListNotations.
Local Open Scope Z_scope.

(** Whatever nodes and edges were added, in whatever order, all answers to all questions asked
    then are right: lengths of shortest paths, roots and depths. *)
Theorem C106_answers_partial es qs : Forall2 (right es) qs (asks (build es) qs).
Proof.
  destruct (build_ok es) as (W & E & N & A & B & _). apply asks_ok; [|exact W|exact E|exact N].
  split; [intros r H; rewrite A in H; discriminate H|intros d H; rewrite B in H; discriminate H].
Qed.
Print Assumptions C106_answers_partial.
Example C106_case_answers :
  asks (build [AddEdge 1 2; AddEdge 2 3; AddEdge 1 3; AddNode 4]) [QLength 1 3; QLength 3 1; QRoots; QDepth 2; QLength 4 4; QLength 5 5; QDepth 9]
  = [ALength (Some 1%nat); ALength None; ARoots [1; 4]; ADepth (Some (Some 1%nat)); ALength (Some 0%nat); ALength None; ADepth (Some None)].
Proof. vm_compute. reflexivity. Qed.
Example C106_case_no_root : asks (build [AddEdge 1 2; AddEdge 2 1]) [QDepth 1; QRoots] = [ADepth None; ARoots []].
Proof. vm_compute. reflexivity. Qed.

(** Roots that were set replace those of the graph: they are the answer to the question for
    roots, and depths are distances from the closest of them. *)
Theorem C106_set_roots es rs n : (forall r, In r rs -> named es r) ->
  fst (ask (set_roots (build es) rs) QRoots) = ARoots rs /\
  match fst (ask (set_roots (build es) rs) (QDepth n)) with
  | ADepth (Some (Some k)) =>
      (exists r, In r rs /\ distance (joined es) r n k) /\ (forall r j, In r rs -> distance (joined es) r n j -> (k <= j)%nat)
  | ADepth (Some None) => rs <> [] /\ forall r, In r rs -> ~ reaches (joined es) r n
  | ADepth None => rs = []
  | _ => False
  end.
Proof.
  intros I. destruct (build_ok es) as (W & E & N & A & B & _). split; [reflexivity|].
  assert (K : kept_ok (build es)) by (split; [intros r H; rewrite A in H; discriminate H|intros d H; rewrite B in H; discriminate H]).
  cbn [ask]. unfold depth. cbn [roots set_roots dg_roots]. destruct rs as [|r rs]; [reflexivity|].
  change (mkDG (dg_graph (set_roots (build es) (r :: rs))) (Some (r :: rs)) (dg_lengths (set_roots (build es) (r :: rs))) (dg_forest (set_roots (build es) (r :: rs))))
    with (set_roots (build es) (r :: rs)).
  pose proof (depth_loop_set (r :: rs) n (r :: rs) (build es)) as D.
  destruct (depth_loop (set_roots (build es) (r :: rs)) (r :: rs) n) as [v o'].
  destruct (depth_loop (build es) (r :: rs) n) as [v' o''] eqn:L. cbn [fst] in D. subst v'. cbn [fst].
  apply depth_loop_ok in L; [|exact K|exact W|intros x Hx; apply N, I, Hx]. destruct L as [_ L]. destruct v as [k|].
  - destruct L as [(s & Is & Ds) M]. split; [exists s; split; [exact Is|now rewrite <- (distance_same _ _ E)]|].
    intros t j It Dt. apply (M t j It). now rewrite (distance_same _ _ E).
  - split; [discriminate|]. intros t It Rt. apply (L t It). now rewrite (reaches_same _ _ E).
Qed.
Print Assumptions C106_set_roots.
Example C106_case_set_roots : fst (ask (set_roots (build [AddEdge 1 2; AddEdge 2 3; AddEdge 3 1; AddEdge 3 4]) [2; 3]) (QDepth 4)) = ADepth (Some (Some 1%nat)).
Proof. reflexivity. Qed.

(** Missing: answers after further edits.  What was computed for the first question is kept,
    so that an edge added afterwards is never seen. *)
Theorem C106_edits_after_questions_refuted : exists es q e,
  let (_, o) := ask (build es) q in ~ right (es ++ [e]) q (fst (ask (apply_edit o e) q)).
Proof.
  exists [AddNode 1; AddNode 2], (QLength 1 2), (AddEdge 1 2). vm_compute. intros H. apply H.
  split; [left; now left|]. exists [1; 2]. econstructor; [now left|constructor].
Qed.
Print Assumptions C106_edits_after_questions_refuted.
Theorem C106_roots_after_edits_refuted : exists es e,
  let (_, o) := ask (build es) QRoots in ~ right (es ++ [e]) QRoots (fst (ask (apply_edit o e) QRoots)).
Proof.
  exists [AddNode 1; AddNode 2], (AddEdge 1 2). vm_compute. intros [_ H]. assert (I : is_root [AddNode 1; AddNode 2; AddEdge 1 2] 2) by (apply H; right; now left).
  destruct I as [_ I]. apply (I 1). now left.
Qed.
Print Assumptions C106_roots_after_edits_refuted.

(** The ancestors of a node, for nodes that can be compared: exactly the other nodes from which
    it can be reached, once each, the closest first, the smaller one first among those at the
    same distance. *)
Theorem C106_ancestors es n : named es n -> exists l, ancestors true (dg_graph (build es)) n = Ok l /\
  lists (fun x => x <> n /\ reaches (joined es) x n) l /\
  in_order (fun x y => exists i j, distance (joined es) x n i /\ distance (joined es) y n j /\ ((i < j)%nat \/ i = j /\ x <= y)) l.
Proof.
  intros N. destruct (build_ok es) as (W & E & V & _). apply V in N. eexists. split; [apply (ancestors_eq _ n N true)|]. split.
  - destruct (anc_lists _ n W N) as [A B]. split; [exact A|]. intros x. rewrite B, (reaches_same _ _ E). reflexivity.
  - apply (anc_order _ n W N). intros x y i j A B L. exists i, j. repeat split; [apply (distance_same _ _ E), A|apply (distance_same _ _ E), A|apply (distance_same _ _ E), B|apply (distance_same _ _ E), B|exact L].
Qed.
Print Assumptions C106_ancestors.
(** ... and an error for what is not a node. *)
Theorem C106_ancestors_of_none ordered es n : ~ named es n -> ancestors ordered (dg_graph (build es)) n = Exit.
Proof.
  intros N. destruct (build_ok es) as (_ & _ & V & _). unfold ancestors. destruct (zmem n _) eqn:Z; [|reflexivity]. apply zmem_iff, V in Z. contradiction.
Qed.
Print Assumptions C106_ancestors_of_none.
Example C106_case_ancestors : ancestors true (dg_graph (build [AddEdge 5 7; AddEdge 3 7; AddEdge 1 3; AddEdge 7 5; AddEdge 8 9])) 7 = Ok [3; 5; 1].
Proof. vm_compute. reflexivity. Qed.
(** Functions and basic blocks cannot be compared: two of them at the same distance are an
    error. *)
Theorem C106_ancestors_incomparable_refuted : exists es n, named es n /\ ancestors false (dg_graph (build es)) n = Exit.
Proof. exists [AddEdge 1 3; AddEdge 2 3], 3. split; [right; exists 1; left; now left|vm_compute; reflexivity]. Qed.
Print Assumptions C106_ancestors_incomparable_refuted.

(** Exactly one predecessor. *)
Theorem C106_one_predecessor es n : has_one_predecessor (dg_graph (build es)) n = true <-> exists p, forall x, In (x, n) (joined es) <-> x = p.
Proof.
  destruct (build_ok es) as (W & E & _). unfold has_one_predecessor. setoid_rewrite <- E. setoid_rewrite <- in_preds.
  assert (ND : NoDup (preds (dg_graph (build es)) n)).
  { unfold preds. destruct W as (_ & W & _). clear E. induction (g_edges (dg_graph (build es))) as [|[a b] l IH]; cbn; [constructor|]. inversion W; subst.
    destruct (Z.eqb_spec b n) as [->|]; [|apply IH; assumption]. cbn. constructor; [|apply IH; assumption]. intros I. apply in_map_iff in I.
    destruct I as ([x y] & Ex & I). cbn in Ex. subst x. apply filter_In in I. destruct I as [I F]. cbn in F. apply Z.eqb_eq in F. subst y. contradiction. }
  destruct (preds _ n) as [|p [|q l]].
  - split; [discriminate|]. intros (p & H). destruct (proj2 (H p) eq_refl).
  - split; [|reflexivity]. intros _. exists p. intros x. cbn. split; [intros [->|[]]; reflexivity|now left].
  - split; [discriminate|]. intros (x & H). assert (p = x) by (apply H; now left). assert (q = x) by (apply H; right; now left). subst. inversion ND; subst. exfalso. apply H2. now left.
Qed.
Print Assumptions C106_one_predecessor.
Example C106_case_one_predecessor : map (has_one_predecessor (dg_graph (build [AddEdge 1 3; AddEdge 1 3; AddEdge 2 3; AddEdge 3 4]))) [1; 3; 4] = [false; false; true].
Proof. vm_compute. reflexivity. Qed.

(** The union of graphs has the edges of all of them, and no other. *)
Theorem C106_union es ess u v : In (u, v) (g_edges (union_all (dg_graph (build es)) (map (fun e => dg_graph (build e)) ess))) <->
  exists e, In e (es :: ess) /\ In (u, v) (joined e).
Proof.
  unfold union_all. rewrite add_edges_in, in_app_iff, (proj1 (proj2 (build_ok es))), in_flat_map. split.
  - intros [[]|[H|(g & I & H)]]; [exists es; split; [now left|exact H]|]. apply in_map_iff in I. destruct I as (e & <- & I).
    exists e. split; [now right|]. apply (build_ok e), H.
  - intros (e & [<-|I] & H); [right; now left|]. right. right. exists (dg_graph (build e)). split; [apply (in_map (fun e => dg_graph (build e))), I|]. apply (build_ok e), H.
Qed.
Print Assumptions C106_union.
Example C106_case_union : g_edges (union_all (dg_graph (build [AddEdge 1 2])) [dg_graph (build [AddEdge 2 3; AddEdge 1 2]); dg_graph (build [AddEdge 3 1])]) = [(1, 2); (2, 3); (3, 1)].
Proof. vm_compute. reflexivity. Qed.
(** Nodes without edges are lost. *)
Theorem C106_union_nodes_refuted : exists es v, named es v /\ ~ In v (g_nodes (union_all (dg_graph (build es)) [])).
Proof. exists [AddNode 1], 1. split; [left; now left|vm_compute; easy]. Qed.
Print Assumptions C106_union_nodes_refuted.

(** Merging nodes into their only predecessor connects nothing that was not connected,
    whatever the order in which the nodes are taken... *)
Theorem C106_contract_partial es order u v : In (u, v) (g_edges (contract (dg_graph (build es)) order)) -> reaches (joined es) u v.
Proof.
  intros H. destruct (build_ok es) as (W & E & _). apply (reaches_same _ _ E). unfold contract in H.
  eapply contract_sound; [exact W| |exact H]. intros x y I. rewrite add_edges_in in I. destruct I as [[]|I]. exists [x; y]. econstructor; [exact I|constructor].
Qed.
Print Assumptions C106_contract_partial.
Example C106_case_contract : contract (dg_graph (build [AddEdge 1 2; AddEdge 2 3; AddEdge 2 4; AddEdge 3 5; AddEdge 4 5])) [1; 5; 2] = mkGraph [3; 4; 5; 1] [(3, 5); (4, 5); (1, 3); (1, 4)].
Proof. vm_compute. reflexivity. Qed.
(** ... but the result depends on that order, and connections between nodes that remain are
    lost: the other successors of the predecessor are cut off. *)
Theorem C106_contract_order_refuted : exists es o1 o2,
  lists (named es) o1 /\ lists (named es) o2 /\ g_edges (contract (dg_graph (build es)) o1) <> g_edges (contract (dg_graph (build es)) o2) /\
  (exists u v, In (u, v) (g_edges (contract (dg_graph (build es)) o1)) /\ ~ In (u, v) (g_edges (contract (dg_graph (build es)) o2))).
Proof.
  exists [AddEdge 1 2; AddEdge 2 3], [1; 2; 3], [1; 3; 2].
  assert (L : forall l, NoDup l -> (forall x, In x l <-> x = 1 \/ x = 2 \/ x = 3) -> lists (named [AddEdge 1 2; AddEdge 2 3]) l).
  { intros l ND H. split; [exact ND|]. intros x. rewrite H. unfold named. cbn. split.
    - intros [->|[->| ->]]; right; [exists 2|exists 1|exists 2]; tauto.
    - intros [[H1|[H1|[]]]|(u & [[H1|[H1|[]]]|[H1|[H1|[]]]])]; inversion H1; tauto. }
  split; [apply L; [repeat constructor; cbn; lia|cbn; intros; intuition congruence]|]. split; [apply L; [repeat constructor; cbn; lia|cbn; intros; intuition congruence]|].
  vm_compute. split; [discriminate|]. exists 1, 2. split; [now left|]. intros [[=]|[]].
Qed.
Print Assumptions C106_contract_order_refuted.
Theorem C106_contract_loses_refuted : exists es order u v, lists (named es) order /\
  In u (g_nodes (contract (dg_graph (build es)) order)) /\ In v (g_nodes (contract (dg_graph (build es)) order)) /\
  reaches (joined es) u v /\ ~ reaches (g_edges (contract (dg_graph (build es)) order)) u v.
Proof.
  exists [AddEdge 1 2; AddEdge 1 3; AddEdge 2 4; AddEdge 5 4; AddEdge 3 6; AddEdge 5 6], [1; 2; 3; 4; 5; 6], 1, 4. split; [|split; [|split; [|split]]].
  - split; [repeat constructor; cbn; lia|]. intros x. unfold named. cbn. split.
    + intros [<-|[<-|[<-|[<-|[<-|[<-|[]]]]]]]; right; [exists 2|exists 1|exists 1|exists 2|exists 4|exists 3]; tauto.
    + intros [H|(u & [H|H])]; repeat (destruct H as [H|H]; [inversion H; tauto|]); destruct H.
  - vm_compute. tauto.
  - vm_compute. tauto.
  - exists [1; 2; 4]. econstructor; [vm_compute; tauto|econstructor; [vm_compute; tauto|constructor]].
  - vm_compute. intros (l & W). inversion W as [|a b c l' E W']; subst. destruct E as [E|[E|[E|[]]]]; inversion E; subst.
    inversion W' as [|a b c l'' E' W'']; subst. destruct E' as [E'|[E'|[E'|[]]]]; inversion E'.
Qed.
Print Assumptions C106_contract_loses_refuted.

(** The descendants, for sufficient fuel: every node reported can be reached... *)
Theorem C106_descendants_partial es n : named es n -> exists fuel0, forall fuel, (fuel0 <= fuel)%nat -> exists l, descendants fuel (dg_graph (build es)) n = Ok l /\
  forall x, In x l -> reaches (joined es) n x /\ exists y, In (x, y) (joined es).
Proof.
  intros N. destruct (build_ok es) as (W & E & V & _). set (g := dg_graph (build es)) in *.
  exists (S (weight g [n] [(n, succs g n)])). intros fuel L. unfold descendants.
  destruct (dfs_ends g W fuel [n] [(n, succs g n)] []) as (l & D); [lia| |].
  - intros s x [<-|[]] I. cbn in I. apply in_succs in I. apply (wf_edges g n x W I).
  - exists l. split; [exact D|]. intros x Ix. setoid_rewrite <- E. rewrite <- (reaches_same _ _ E).
    refine (dfs_sound g n fuel _ _ _ l D _ _ x Ix).
    + intros s [<-|[]]. split; [exists [n]; constructor|]. intros y I. apply in_succs, I.
    + intros y [].
Qed.
Print Assumptions C106_descendants_partial.
(** ... but a node is reported as its own descendant, and nodes without successors are not
    reported. *)
Theorem C106_descendants_refuted : exists es n fuel l, named es n /\ descendants fuel (dg_graph (build es)) n = Ok l /\
  In n l /\ exists x, x <> n /\ reaches (joined es) n x /\ ~ In x l.
Proof.
  exists [AddEdge 1 2], 1, 9%nat, [1]. split; [right; exists 2; right; now left|]. split; [vm_compute; reflexivity|]. split; [now left|].
  exists 2. split; [discriminate|]. split; [exists [1; 2]; econstructor; [now left|constructor]|]. intros [H|[]]. discriminate H.
Qed.
Print Assumptions C106_descendants_refuted.
Example C106_case_descendants : descendants 20 (dg_graph (build [AddEdge 1 2; AddEdge 2 3; AddEdge 3 4; AddEdge 2 1; AddEdge 4 2])) 1 = Ok [1; 2; 3].
Proof. vm_compute. reflexivity. Qed.
