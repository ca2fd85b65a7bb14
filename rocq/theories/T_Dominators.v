(** C107: the dominator forest, loop entries and conditionals. *)
From Coq Require Import NArith ZArith List Bool Lia Arith.
From Verif Require Import M_Base M_PyGraph M_PyDiGraph S_Graph S_Dominators S_DiGraph P_Base P_PyGraph P_PyDiGraph P_Dominators P_PyDiGraph2 P_Blocks.
Import ListNotations.
Local Open Scope Z_scope.

Definition the_forest_of (es : list edit) : digraph := fst (dominator_forest (build es)).

(** In the dominator forest of any graph, an edge leads from [d] to [n] if and only if, seen
    from some root, [d] is the immediate dominator of [n]. *)
Theorem C107_edges es d n : In (d, n) (g_edges (the_forest_of es)) <->
  exists r, is_root es r /\ reaches (joined es) r n /\ immediately_dominates (joined es) r d n.
Proof.
  unfold the_forest_of. destruct (build_ok es) as (W & E & N & A & B & C). unfold dominator_forest. rewrite C. unfold roots. rewrite A. cbn [fst dg_graph].
  rewrite add_edges_in, in_flat_map. cbn [graph_new g_edges In].
  assert (X : forall r, In r (graph_roots (dg_graph (build es))) -> (In (d, n) (forest_edges (dg_graph (build es)) r) <-> reaches (joined es) r n /\ immediately_dominates (joined es) r d n)).
  { intros r I. apply roots_in in I. rewrite (in_forest_edges _ r W (proj1 I)), (reaches_same _ _ E).
    unfold immediately_dominates, strictly_dominates. setoid_rewrite (dominates_same _ _ E). reflexivity. }
  assert (Y : forall r, In r (graph_roots (dg_graph (build es))) <-> is_root es r).
  { intros r. rewrite roots_in. unfold is_root. rewrite N, (no_incoming_same _ _ E). reflexivity. }
  split.
  - intros [[]|(r & I & H)]. exists r. split; [apply Y, I|apply (X r I), H].
  - intros (r & I & H). right. exists r. apply Y in I. split; [exact I|apply (X r I), H].
Qed.
Print Assumptions C107_edges.

(** If the graph has one root, the ancestors in the forest of a node that can be reached are
    exactly its strict dominators, once each, the closest first: each one is dominated by
    those that follow.  This holds for nodes that can be compared and for those that cannot. *)
Theorem C107_ancestors_partial ordered es r n : (forall v, is_root es v <-> v = r) -> reaches (joined es) r n -> n <> r ->
  exists l, ancestors ordered (the_forest_of es) n = Ok l /\
    lists (fun d => strictly_dominates (joined es) r d n) l /\ in_order (fun x y => dominates (joined es) r y x) l.
Proof.
  intros O Rn NR. unfold the_forest_of. rewrite (forest_one es r O). cbn [fst].
  destruct (build_ok es) as (W & E & _). pose proof (root_node es r O) as Rr. set (g := dg_graph (build es)) in *.
  apply (reaches_same _ _ E) in Rn. pose proof (f_node g r W Rr n Rn NR) as IN. pose proof (f_wf g r) as Wf.
  rewrite (ancestors_eq _ n IN ordered).
  assert (ND : has_dup (map fst (anc_pairs (forest_of g r) n)) = false).
  { apply has_dup_iff. pose proof (anc_nodup _ n Wf IN) as ND.
    assert (J : forall d x y, In (d, x) (anc_pairs (forest_of g r) n) -> In (d, y) (anc_pairs (forest_of g r) n) -> x = y).
    { intros d x y A B. apply (anc_in _ n Wf IN) in A. apply (anc_in _ n Wf IN) in B. exact (f_dist_inj g r W Rr n x y d (proj2 A) (proj2 B)). }
    induction (anc_pairs (forest_of g r) n) as [|[d x] l IH]; [constructor|]. cbn in ND |- *. inversion ND; subst. constructor.
    - intros I. apply in_map_iff in I. destruct I as ([d' y] & Ed & I). cbn in Ed. subst d'. apply H1.
      rewrite (J d x y (or_introl eq_refl) (or_intror I)). apply (in_map snd _ _ I).
    - apply IH; [assumption|]. intros d' a b A B. apply (J d' a b); right; assumption. }
  rewrite ND, andb_false_r. eexists. split; [reflexivity|]. split.
  - destruct (anc_lists _ n Wf IN) as [A B]. split; [exact A|]. intros x. rewrite B. unfold strictly_dominates. rewrite <- (dominates_same _ _ E). split.
    + intros [NE (l & Wl)]. split; [exact (f_walk_dom g r W Rr x l n Wl)|exact NE].
    + intros [D NE]. split; [exact NE|]. exact (f_walk_ex g r W Rr n Rn x D).
  - apply (anc_order _ n Wf IN). intros x y i j A B L. apply (dominates_same _ _ E), (f_order g r W Rr n x y i j A B). lia.
Qed.
Print Assumptions C107_ancestors_partial.
Example C107_case_forest :
  let es := [AddEdge 1 2; AddEdge 2 3; AddEdge 2 4; AddEdge 3 5; AddEdge 4 5; AddEdge 5 2; AddEdge 5 6] in
  g_edges (the_forest_of es) = [(1, 2); (2, 3); (2, 4); (2, 5); (5, 6)] /\ ancestors false (the_forest_of es) 6 = Ok [5; 2; 1].
Proof. vm_compute. split; reflexivity. Qed.

(** Missing: graphs with more roots.  The edges for different roots are put into one graph,
    which can have a cycle; it is not a forest. *)
Theorem C107_forest_has_cycle_refuted : exists es n, path (g_edges (the_forest_of es)) n n.
Proof.
  exists [AddEdge 1 3; AddEdge 3 4; AddEdge 2 4; AddEdge 4 3], 3. vm_compute.
  eapply (pa_more _ 3 4 3); [cbn; tauto|]. apply pa_edge. cbn. tauto.
Qed.
Print Assumptions C107_forest_has_cycle_refuted.
(** Asking for the ancestors of a function in it can be an error. *)
Theorem C107_ancestors_error_refuted : exists es n, (exists r, is_root es r /\ r <> n /\ reaches (joined es) r n) /\ ancestors false (the_forest_of es) n = Exit.
Proof.
  exists [AddEdge 1 3; AddEdge 2 3], 3. split; [|vm_compute; reflexivity]. exists 1. split; [split; [right; exists 3; right; now left|]|].
  - intros a [[= _ H]|[[= _ H]|[]]]; discriminate H.
  - split; [discriminate|]. exists [1; 3]. econstructor; [now left|constructor].
Qed.
Print Assumptions C107_ancestors_error_refuted.
(** A root that has no successor, and every node of a graph without roots, is not in the forest:
    asking for its ancestors is an error. *)
Theorem C107_alone_refuted : exists es n, is_root es n /\ ancestors true (the_forest_of es) n = Exit.
Proof. exists [AddNode 1], 1. split; [split; [left; now left|intros a []]|vm_compute; reflexivity]. Qed.
Print Assumptions C107_alone_refuted.

(** Loop entries.  If the blocks have one root and the block can be reached, it is called a loop
    entry if and only if, among the blocks of its function that can jump to it, one strictly
    dominates it and another one does not. *)
Theorem C107_loop_entry bs r b : consistent bs -> only_root bs r -> In b bs -> reaches (jumps bs) r (bb_id b) ->
  exists v, is_loop_entry bs b = Ok v /\
    (v = true <-> exists p q, local_pred bs b p /\ local_pred bs b q /\ strictly_dominates (jumps bs) r p (bb_id b) /\ ~ strictly_dominates (jumps bs) r q (bb_id b)).
Proof. intros C O. apply loop_entry_ok; assumption. Qed.
Print Assumptions C107_loop_entry.

(** Loops that are entered from one block only are found: there is one block [p] that is not part
    of the loop and jumps to [b], every other block that jumps to it is dominated by it, and one
    of these is of the same function, as [p] is. *)
Theorem C107_loops_found_partial bs r b p q : consistent bs -> only_root bs r -> In b bs -> reaches (jumps bs) r (bb_id b) ->
  local_pred bs b p -> local_pred bs b q -> q <> p -> p <> bb_id b ->
  (forall x, In (x, bb_id b) (jumps bs) -> x <> p -> dominates (jumps bs) r (bb_id b) x) ->
  is_loop_entry bs b = Ok true.
Proof.
  intros C O I Rb Lp Lq NE NP A. destruct (loop_entry_ok bs r C O b I Rb) as (v & -> & V). f_equal. apply V. exists p, q.
  assert (NR : bb_id b <> r).
  { intros Er. destruct (proj2 (O r) eq_refl) as [_ NI]. apply (NI p). rewrite <- Er. apply Lp. }
  split; [exact Lp|]. split; [exact Lq|]. split; [split; [apply (only_entry bs r (bb_id b) p); assumption|exact NP]|].
  intros [D N]. apply N.
  assert (G : forall e, In e (g_edges (g bs)) <-> In e (jumps bs)) by (intros e; apply g_jumps).
  apply (dom_antisym (g bs) r).
  - apply (dom_reach (g bs) r q (bb_id b)); [apply (reaches_same _ _ G), Rb|apply (dominates_same _ _ G), D].
  - apply (dominates_same _ _ G), D.
  - apply (dominates_same _ _ G), A; [apply Lq|exact NE].
Qed.
Print Assumptions C107_loops_found_partial.
(** while (1) { if (2) 3 else 4; 5 } 6, preceded by 0, all of function 9. *)
Definition a_loop : list bblock :=
  [mkBB 0 9 [1] []; mkBB 1 9 [2; 6] [0; 5]; mkBB 2 9 [3; 4] [1]; mkBB 3 9 [5] [2]; mkBB 4 9 [5] [2]; mkBB 5 9 [1] [3; 4]; mkBB 6 9 [] [1]].
Example C107_case_loop : map (is_loop_entry a_loop) a_loop = map Ok [false; true; false; false; false; false; false]
  /\ map (is_conditional a_loop) a_loop = map Ok [false; false; true; false; false; false; false].
Proof. vm_compute. split; reflexivity. Qed.
Example C107_case_loop_hyps : consistent a_loop /\ only_root a_loop 0 /\ reaches (jumps a_loop) 0 1 /\
  local_pred a_loop (mkBB 1 9 [2; 6] [0; 5]) 0 /\ local_pred a_loop (mkBB 1 9 [2; 6] [0; 5]) 5 /\
  (forall x, In (x, 1) (jumps a_loop) -> x <> 0 -> dominates (jumps a_loop) 0 1 x).
Proof.
  split; [|split; [|split; [|split; [|split]]]].
  - split; [repeat constructor; cbn; lia|]. split.
    + intros x y H. cbn in H |- *. repeat (destruct H as [H|H]; [inversion H; lia|]). destruct H.
    + intros b p H. cbn in H. repeat (destruct H as [<-|H]; [cbn; split; intros K; repeat (destruct K as [K|K]; [try subst p; try (inversion K; subst p); tauto|]); destruct K|]). destruct H.
  - intros x. cbn. split.
    + intros [I N]. unfold no_incoming in N. cbn in N. repeat (destruct I as [<-|I]; [first [reflexivity|exfalso; first [apply (N 0); tauto|apply (N 1); tauto|apply (N 2); tauto|apply (N 3); tauto]]|]). destruct I.
    + intros ->. split; [now left|]. intros a H. repeat (destruct H as [H|H]; [inversion H|]). destruct H.
  - exists [0; 1]. econstructor; [now left|constructor].
  - split; [now left|]. exists (mkBB 0 9 [1] []). repeat split. now left.
  - split; [cbn; tauto|]. exists (mkBB 5 9 [1] [3; 4]). repeat split. cbn. tauto.
  - intros x H NE l W. cbn in H. assert (x = 5) by (repeat (destruct H as [H|H]; [inversion H; congruence|]); destruct H). subst x.
    inversion W as [|a b c l' E W']; subst. cbn in E. right. repeat (destruct E as [E|E]; [inversion E; subst; try (exact (walk_in_l _ _ _ _ W'))|]). destruct E.
Qed.

(** What is missing.  The block behind an if without else is called a loop entry although no loop
    exists... *)
Definition an_if : list bblock := [mkBB 0 9 [1; 2] []; mkBB 1 9 [2] [0]; mkBB 2 9 [3; 4] [0; 1]; mkBB 3 9 [] [2]; mkBB 4 9 [] [2]].
Theorem C107_loop_entry_without_loop_refuted : exists bs b, In b bs /\ is_loop_entry bs b = Ok true /\ forall x, ~ path (jumps bs) x x.
Proof.
  exists an_if, (mkBB 2 9 [3; 4] [0; 1]). split; [cbn; tauto|]. split; [vm_compute; reflexivity|].
  assert (L : forall x y, path (jumps an_if) x y -> x < y).
  { intros x y P. induction P as [a b H|a b c H _ IH].
    - cbn in H. repeat (destruct H as [H|H]; [inversion H; lia|]). destruct H.
    - enough (a < b) by lia. cbn in H. repeat (destruct H as [H|H]; [inversion H; lia|]). destruct H. }
  intros x P. specialize (L x x P). lia.
Qed.
Print Assumptions C107_loop_entry_without_loop_refuted.
(** ... so that a second if behind it is not called a conditional. *)
Theorem C107_conditional_refuted : exists bs b x y, In b bs /\ local_child bs b x /\ local_child bs b y /\ x <> y /\
  (forall z, ~ path (jumps bs) z z) /\ is_conditional bs b = Ok false.
Proof.
  exists an_if, (mkBB 2 9 [3; 4] [0; 1]), 3, 4. split; [cbn; tauto|]. split; [split; [cbn; tauto|exists (mkBB 3 9 [] [2]); cbn; tauto]|].
  split; [split; [cbn; tauto|exists (mkBB 4 9 [] [2]); cbn; tauto]|]. split; [discriminate|]. split; [|vm_compute; reflexivity].
  assert (L : forall x y, path (jumps an_if) x y -> x < y).
  { intros x y P. induction P as [a b H|a b c H _ IH].
    - cbn in H. repeat (destruct H as [H|H]; [inversion H; lia|]). destruct H.
    - enough (a < b) by lia. cbn in H. repeat (destruct H as [H|H]; [inversion H; lia|]). destruct H. }
  intros z P. specialize (L z z P). lia.
Qed.
Print Assumptions C107_conditional_refuted.
(** A loop entered from both branches of an if is not found. *)
Theorem C107_loop_missed_refuted : exists bs b, In b bs /\ path (jumps bs) (bb_id b) (bb_id b) /\ only_root bs 0 /\
  (exists q, local_pred bs b q /\ dominates (jumps bs) 0 (bb_id b) q) /\ is_loop_entry bs b = Ok false.
Proof.
  exists [mkBB 0 9 [1; 2] []; mkBB 1 9 [3] [0]; mkBB 2 9 [3] [0]; mkBB 3 9 [4] [1; 2; 4]; mkBB 4 9 [3] [3]], (mkBB 3 9 [4] [1; 2; 4]).
  split; [cbn; tauto|]. split; [eapply (pa_more _ 3 4 3); [cbn; tauto|apply pa_edge; cbn; tauto]|]. split; [|split; [|vm_compute; reflexivity]].
  - intros x. cbn. split.
    + intros [I N]. unfold no_incoming in N. cbn in N. repeat (destruct I as [<-|I]; [first [reflexivity|exfalso; first [apply (N 0); tauto|apply (N 1); tauto|apply (N 3); tauto]]|]). destruct I.
    + intros ->. split; [now left|]. intros a H. repeat (destruct H as [H|H]; [inversion H|]). destruct H.
  - exists 4. split; [split; [cbn; tauto|exists (mkBB 4 9 [3] [3]); cbn; tauto]|]. intros l W.
    destruct (walk_unsnoc _ _ _ _ W) as [[_ H]|(q & l0 & -> & Wq & Eq)]; [discriminate H|]. cbn in Eq. apply in_app_iff. left.
    repeat (destruct Eq as [Eq|Eq]; [inversion Eq; subst; try (exact (walk_in_r _ _ _ _ Wq))|]). destruct Eq.
Qed.
Print Assumptions C107_loop_missed_refuted.
(** A graph whose first block is the entry of a loop has no root: the question is an error. *)
Theorem C107_no_root_refuted : exists bs b, consistent bs /\ In b bs /\ is_loop_entry bs b = Exit.
Proof.
  exists [mkBB 0 9 [1; 2] [1; 2]; mkBB 1 9 [0] [0]; mkBB 2 9 [0] [0]], (mkBB 0 9 [1; 2] [1; 2]). split; [|split; [now left|vm_compute; reflexivity]].
  split; [repeat constructor; cbn; lia|]. split.
  - intros x y H. cbn in H |- *. repeat (destruct H as [H|H]; [inversion H; lia|]). destruct H.
  - intros b p H. cbn in H. repeat (destruct H as [<-|H]; [cbn; split; intros K; repeat (destruct K as [K|K]; [try subst p; try (inversion K; subst p); tauto|]); destruct K|]). destruct H.
Qed.
Print Assumptions C107_no_root_refuted.

(** Conditionals: two children in the function, and not called a loop entry. *)
Theorem C107_conditional bs r b : consistent bs -> only_root bs r -> In b bs -> reaches (jumps bs) r (bb_id b) ->
  exists v, is_conditional bs b = Ok v /\
    (v = true <-> (exists x y, local_child bs b x /\ local_child bs b y /\ x <> y) /\
      ~ exists p q, local_pred bs b p /\ local_pred bs b q /\ strictly_dominates (jumps bs) r p (bb_id b) /\ ~ strictly_dominates (jumps bs) r q (bb_id b)).
Proof.
  intros C O I Rb. unfold is_conditional. destruct (loop_entry_ok bs r C O b I Rb) as (v & -> & V).
  set (cs := nodup Z.eq_dec (filter (same_func bs (bb_func b)) (bb_children b))).
  assert (P : forall c, In c cs <-> local_child bs b c).
  { intros c. unfold cs. rewrite nodup_In, filter_In, (same_func_iff bs C). unfold local_child, jumps. rewrite in_flat_map. split.
    - intros [A B]. split; [|exact B]. exists b. split; [exact I|]. apply in_map, A.
    - intros [(b' & I' & J) B]. split; [|exact B]. apply in_map_iff in J. destruct J as (c' & [= E ->] & J).
      assert (b' = b); [|subst b'; exact J]. destruct C as [ND _]. clear - ND I I' E. induction bs as [|a l IH]; [destruct I|]. cbn in ND. inversion ND; subst.
      destruct I as [->|I], I' as [->|I']; [reflexivity| | |apply IH; assumption]; exfalso; apply H1; [rewrite <- E|rewrite E]; apply in_map; assumption. }
  assert (ND : NoDup cs) by apply NoDup_nodup. clearbody cs. destruct (Nat.ltb_spec (length cs) 2) as [L|L].
  - exists false. split; [reflexivity|]. split; [discriminate|]. intros [(x & y & A & B & N) _]. exfalso. apply P in A. apply P in B. pose proof (two_of cs x y A B N). lia.
  - cbn. exists (negb v). split; [reflexivity|]. destruct (of_two cs ND L) as (x & y & A & B & N). apply P in A. apply P in B. rewrite negb_true_iff. split.
    + intros ->. split; [exists x, y; auto|]. intros H. apply V in H. discriminate H.
    + intros [_ H]. destruct v; [|reflexivity]. exfalso. apply H, V. reflexivity.
Qed.
Print Assumptions C107_conditional.
