(** More proofs about questions to graphs. *)
From Coq Require Import NArith ZArith List Bool Lia Arith Permutation.
From Verif Require Import M_Base M_PyGraph M_PyDiGraph S_Graph S_Dominators S_DiGraph P_Base P_PyGraph P_PyDiGraph P_Dominators.
Import ListNotations.
Local Open Scope nat_scope.

(** ** Walks depend on the set of edges *)
Lemma walk_same es fs : (forall e, In e es <-> In e fs) -> forall a l b, walk es a l b <-> walk fs a l b.
Proof.
  assert (H : forall es fs, (forall e : Z * Z, In e es <-> In e fs) -> forall a l b, walk es a l b -> walk fs a l b).
  { intros e1 e2 E a l b. induction 1; econstructor; [apply E; eassumption|assumption]. }
  intros E a l b. split; apply H; [exact E|intros e; symmetry; apply E].
Qed.
Lemma reaches_same es fs : (forall e, In e es <-> In e fs) -> forall a b, reaches es a b <-> reaches fs a b.
Proof. intros E a b. unfold reaches. split; intros (l & W); exists l; apply (walk_same es fs E), W. Qed.
Lemma distance_same es fs : (forall e, In e es <-> In e fs) -> forall a b n, distance es a b n <-> distance fs a b n.
Proof.
  intros E a b n. unfold distance. split; intros [(l & W & L) M]; (split; [exists l; split; [apply (walk_same es fs E), W|exact L]|]);
  intros l' W'; apply M; apply (walk_same es fs E), W'.
Qed.
Lemma dominates_same es fs : (forall e, In e es <-> In e fs) -> forall r a b, dominates es r a b <-> dominates fs r a b.
Proof. intros E r a b. unfold dominates. split; intros H l W; apply H; apply (walk_same es fs E), W. Qed.

(** ** What was built *)
Lemma build_snoc es e : build (es ++ [e]) = apply_edit (build es) e.
Proof. unfold build. rewrite fold_left_app. reflexivity. Qed.
Lemma build_ok es : wf_graph (dg_graph (build es)) /\ (forall e, In e (g_edges (dg_graph (build es))) <-> In e (joined es)) /\
  (forall v, In v (g_nodes (dg_graph (build es))) <-> named es v) /\
  dg_roots (build es) = None /\ dg_lengths (build es) = None /\ dg_forest (build es) = None.
Proof.
  induction es as [|x es IH] using rev_ind.
  - cbn. split; [apply graph_new_wf|]. split; [easy|]. split; [|auto]. intros v. split; [easy|]. intros [[]|(u & [[]|[]])].
  - rewrite build_snoc. destruct IH as (A & B & C & D & E & F). unfold joined in *. setoid_rewrite flat_map_app. setoid_rewrite in_app_iff.
    destruct x as [v|u v]; cbn [apply_edit dg_graph dg_roots dg_lengths dg_forest dg_add_node dg_add_edge].
    + split; [apply add_node_wf, A|]. split; [|split; [|repeat split; assumption]].
      * intros e. rewrite add_node_edges, B. cbn. tauto.
      * intros w. rewrite add_node_in, C. unfold named. setoid_rewrite in_app_iff. cbn. split.
        -- intros [[H|(u & [H|H])]| ->]; [tauto|right; exists u; tauto|right; exists u; tauto|left; right; now left].
        -- intros [[H|[[= ->]|[]]]|(u & [[H|[[=]|[]]]|[H|[[=]|[]]]])]; [tauto|tauto| |]; left; right; exists u; tauto.
    + split; [apply add_edge_wf, A|]. split; [|split; [|repeat split; assumption]].
      * intros e. rewrite add_edge_in, B. cbn. intuition congruence.
      * intros w. rewrite add_edge_nodes, C. unfold named. setoid_rewrite in_app_iff. cbn. split.
        -- intros [[H|(x & [H|H])]|[-> | ->]]; [tauto|right; exists x; tauto|right; exists x; tauto|right; exists v; tauto|right; exists u; tauto].
        -- intros [[H|[[=]|[]]]|(x & [[H|[[= -> ->]|[]]]|[H|[[= -> ->]|[]]]])]; [tauto| |tauto| |tauto]; left; right; exists x; tauto.
Qed.

(** ** Answers *)
(** What is kept is right for the graph. *)
Definition kept_ok (o : dgraph) : Prop :=
  (forall r, dg_roots o = Some r -> r = graph_roots (dg_graph o)) /\ (forall d, dg_lengths o = Some d -> d = all_pairs (dg_graph o)).
Definition same_graph (o o' : dgraph) : Prop := dg_graph o' = dg_graph o /\ kept_ok o'.

Lemma path_length_kept o a b v o' : kept_ok o -> path_length o a b = (v, o') -> same_graph o o' /\
  v = match find (fun p => Z.eqb (fst p) a) (all_pairs (dg_graph o)) with None => None | Some p => look (snd p) b end.
Proof.
  intros [K1 K2] E. unfold path_length in E.
  assert (D : match dg_lengths o with Some d => d | None => all_pairs (dg_graph o) end = all_pairs (dg_graph o)).
  { destruct (dg_lengths o) as [d|]; [apply K2; reflexivity|reflexivity]. }
  rewrite D in E. injection E as <- <-. repeat split; cbn; [exact K1|intros d [= <-]; reflexivity].
Qed.
Lemma roots_kept o l o' : kept_ok o -> roots o = (l, o') -> same_graph o o' /\ l = graph_roots (dg_graph o).
Proof.
  intros [K1 K2] E. unfold roots in E.
  assert (D : match dg_roots o with Some d => d | None => graph_roots (dg_graph o) end = graph_roots (dg_graph o)).
  { destruct (dg_roots o) as [d|]; [apply K1; reflexivity|reflexivity]. }
  rewrite D in E. injection E as <- <-. repeat split; cbn; [intros d [= <-]; reflexivity|exact K2].
Qed.
Lemma find_all_pairs g l a : find (fun p => Z.eqb (fst p) a) (map (fun s => (s, lengths g (succs g) s)) l) =
  if zmem a l then Some (a, lengths g (succs g) a) else None.
Proof.
  induction l as [|x l IH]; [reflexivity|]. cbn [map find fst zmem existsb]. unfold zmem in *. rewrite Z.eqb_sym. destruct (Z.eqb_spec a x) as [->|NE]; [reflexivity|exact IH].
Qed.
Lemma length_right g a b : wf_graph g ->
  match (match find (fun p => Z.eqb (fst p) a) (all_pairs g) with None => None | Some p => look (snd p) b end) with
  | Some n => In a (g_nodes g) /\ distance (g_edges g) a b n
  | None => ~ (In a (g_nodes g) /\ reaches (g_edges g) a b)
  end.
Proof.
  intros W. unfold all_pairs. rewrite find_all_pairs. destruct (zmem a (g_nodes g)) eqn:E.
  - apply zmem_iff in E. cbn [snd]. destruct (lengths_succs g a W E) as [ND B]. destruct (look _ b) as [n|] eqn:L.
    + split; [exact E|]. apply B, look_in; assumption.
    + intros [_ Rb]. apply look_none in L. apply L. apply (reached g a b W E), Rb.
  - intros [I _]. apply zmem_iff in I. congruence.
Qed.

Lemma depth_loop_ok n : forall rs o v o', kept_ok o -> wf_graph (dg_graph o) -> incl rs (g_nodes (dg_graph o)) -> depth_loop o rs n = (v, o') ->
  same_graph o o' /\ match v with
  | Some k => (exists r, In r rs /\ distance (g_edges (dg_graph o)) r n k) /\ forall r j, In r rs -> distance (g_edges (dg_graph o)) r n j -> k <= j
  | None => forall r, In r rs -> ~ reaches (g_edges (dg_graph o)) r n
  end.
Proof.
  induction rs as [|r rs IH]; intros o v o' K W I E; cbn [depth_loop] in E.
  - injection E as <- <-. repeat split; try apply K. intros r [].
  - destruct (path_length o r n) as [a o1] eqn:P. destruct (depth_loop o1 rs n) as [b o2] eqn:D. injection E as <- <-.
    destruct (path_length_kept _ _ _ _ _ K P) as [[G1 K1] V]. pose proof (length_right (dg_graph o) r n W) as LR. rewrite <- V in LR. clear V P.
    assert (W1 : wf_graph (dg_graph o1)) by (rewrite G1; exact W).
    destruct (IH o1 b o2 K1 W1) as [[G2 K2] V2]; [rewrite G1; intros x Hx; apply I; right; exact Hx|exact D|]. rewrite G1 in *.
    split; [split; [rewrite G2; reflexivity|exact K2]|]. assert (Ir : In r (g_nodes (dg_graph o))) by (apply I; now left).
    destruct a as [x|], b as [y|]; cbn [min_len].
    + destruct LR as [_ LR]. destruct V2 as [(s & Is & Ds) M]. split.
      * destruct (Nat.le_ge_cases x y); [rewrite Nat.min_l by assumption; exists r; split; [now left|exact LR]|rewrite Nat.min_r by assumption; exists s; split; [now right|exact Ds]].
      * intros t j [<-|It] Dt; [rewrite <- (distance_fun _ _ _ _ _ LR Dt); lia|specialize (M t j It Dt); lia].
    + destruct LR as [_ LR]. split; [exists r; split; [now left|exact LR]|]. intros t j [<-|It] Dt; [rewrite (distance_fun _ _ _ _ _ LR Dt); lia|].
      exfalso. apply (V2 t It). destruct Dt as [(l & Wl & _) _]. exists l. exact Wl.
    + destruct V2 as [(s & Is & Ds) M]. split; [exists s; split; [now right|exact Ds]|]. intros t j [<-|It] Dt; [|exact (M t j It Dt)].
      exfalso. apply LR. split; [exact Ir|]. destruct Dt as [(l & Wl & _) _]. exists l. exact Wl.
    + intros t [<-|It]; [intros Rt; apply LR; split; assumption|exact (V2 t It)].
Qed.

Lemma path_length_set o x a b : fst (path_length (set_roots o x) a b) = fst (path_length o a b) /\
  snd (path_length (set_roots o x) a b) = set_roots (snd (path_length o a b)) x.
Proof. split; reflexivity. Qed.
Lemma depth_loop_set x n : forall rs o, fst (depth_loop (set_roots o x) rs n) = fst (depth_loop o rs n).
Proof.
  induction rs as [|r rs IH]; intros o; [reflexivity|]. cbn [depth_loop].
  destruct (path_length_set o x r n) as [A B].
  destruct (path_length (set_roots o x) r n) as [a o1], (path_length o r n) as [a' o1']. cbn [fst snd] in A, B. subst a o1.
  specialize (IH o1'). destruct (depth_loop (set_roots o1' x) rs n), (depth_loop o1' rs n). cbn [fst] in *. now subst.
Qed.

Lemma roots_iff g : wf_graph g -> lists (fun v => In v (g_nodes g) /\ no_incoming (g_edges g) v) (graph_roots g).
Proof.
  intros W. split; [apply nodup_filter, W|]. intros x. apply roots_in.
Qed.
Lemma no_incoming_same es fs : (forall e, In e es <-> In e fs) -> forall v, no_incoming es v <-> no_incoming fs v.
Proof. intros E v. unfold no_incoming. split; intros H a; specialize (H a); rewrite (E (a, v)) in *; exact H. Qed.

Lemma ask_ok es o q a o' : kept_ok o -> wf_graph (dg_graph o) ->
  (forall e, In e (g_edges (dg_graph o)) <-> In e (joined es)) -> (forall v, In v (g_nodes (dg_graph o)) <-> named es v) ->
  ask o q = (a, o') -> right es q a /\ same_graph o o'.
Proof.
  intros K W E N A. destruct q as [x y| |n]; cbn [ask] in A.
  - destruct (path_length o x y) as [v o1] eqn:P. injection A as <- <-. destruct (path_length_kept _ _ _ _ _ K P) as [S V]. split; [|exact S].
    pose proof (length_right (dg_graph o) x y W) as LR. rewrite <- V in LR. cbn [right]. destruct v as [k|].
    + rewrite <- N, <- (distance_same _ _ E). exact LR.
    + rewrite <- N, <- (reaches_same _ _ E). exact LR.
  - destruct (roots o) as [l o1] eqn:P. injection A as <- <-. destruct (roots_kept _ _ _ K P) as [S ->]. split; [|exact S]. cbn [right].
    destruct (roots_iff _ W) as [ND I]. split; [exact ND|]. intros v. rewrite I. unfold is_root. rewrite N, (no_incoming_same _ _ E). reflexivity.
  - assert (IR : forall v, In v (graph_roots (dg_graph o)) <-> is_root es v).
    { intros v. rewrite roots_in. unfold is_root. rewrite N, (no_incoming_same _ _ E). reflexivity. }
    unfold depth in A. destruct (roots o) as [l o1] eqn:P. destruct (roots_kept _ _ _ K P) as [[G1 K1] ->].
    destruct (graph_roots (dg_graph o)) as [|r rs] eqn:RS.
    + injection A as <- <-. split; [|split; [reflexivity|exact K]]. cbn [right]. intros r H. apply (IR r) in H. destruct H.
    + destruct (depth_loop o1 (r :: rs) n) as [v o2] eqn:D. injection A as <- <-.
      destruct (depth_loop_ok n (r :: rs) o1 v o2 K1) as [[G2 K2] V]; [rewrite G1; exact W| |exact D|].
      { rewrite G1, <- RS. intros z Hz. apply (proj1 (roots_in _ _) Hz). }
      split; [|split; [rewrite G2, G1; reflexivity|exact K2]]. rewrite G1 in V. cbn [right]. destruct v as [k|].
      * destruct V as [(s & Is & Ds) M]. split; [exists s; split; [apply IR, Is|apply (distance_same _ _ E), Ds]|].
        intros t j It Dt. apply (M t j); [apply IR, It|apply (distance_same _ _ E), Dt].
      * split; [exists r; apply IR; now left|]. intros t It Rt. apply (V t); [apply IR, It|apply (reaches_same _ _ E), Rt].
Qed.
Lemma asks_ok es qs : forall o, kept_ok o -> wf_graph (dg_graph o) ->
  (forall e, In e (g_edges (dg_graph o)) <-> In e (joined es)) -> (forall v, In v (g_nodes (dg_graph o)) <-> named es v) ->
  Forall2 (right es) qs (asks o qs).
Proof.
  induction qs as [|q qs IH]; intros o K W E N; cbn [asks]; [constructor|]. destruct (ask o q) as [a o'] eqn:A.
  destruct (ask_ok es o q a o' K W E N A) as [Rt [G K']]. constructor; [exact Rt|]. apply IH; [exact K'|rewrite G; exact W|rewrite G; exact E|rewrite G; exact N].
Qed.

(** ** Merging *)
Lemma contract_sound self (W : wf_graph self) order : forall ret,
  (forall u v, In (u, v) (g_edges ret) -> reaches (g_edges self) u v) ->
  forall u v, In (u, v) (g_edges (contract_loop self ret order)) -> reaches (g_edges self) u v.
Proof.
  induction order as [|n order IH]; intros ret H u v; cbn [contract_loop]; [apply H|]. apply IH. clear u v IH.
  destruct (has_one_predecessor self n); [|exact H]. destruct (preds self n) as [|p ps] eqn:P; [exact H|].
  intros u v. rewrite add_edges_in, in_app_iff, !in_map_iff. intros [I|[(i & [= <- <-] & J)|(x & [= <- <-] & J)]].
  - cbn [remove_nodes g_edges] in I. apply filter_In in I. apply H, I.
  - apply in_preds in J. exists [i; p]. econstructor; [exact J|constructor].
  - assert (Q : In (p, n) (g_edges self)) by (apply in_preds; rewrite P; now left). apply in_succs in J.
    exists [p; n; x]. econstructor; [exact Q|econstructor; [exact J|constructor]].
Qed.

(** ** Descendants *)
Definition left_over (g : digraph) (visited : list Z) : list Z := filter (fun u => negb (zmem u visited)) (g_nodes g).
Definition weight (g : digraph) (visited : list Z) (stack : list (Z * list Z)) : nat :=
  list_sum (map (fun u => 2 + length (succs g u)) (left_over g visited)) + list_sum (map (fun s => 1 + length (snd s)) stack).
Lemma left_over_visit g c visited : In c (g_nodes g) -> NoDup (g_nodes g) -> ~ In c visited ->
  Permutation (left_over g visited) (c :: left_over g (c :: visited)).
Proof.
  unfold left_over. intros I ND N. induction (g_nodes g) as [|x l IH]; [destruct I|]. inversion ND; subst. cbn [filter].
  assert (T : forall y, zmem y (c :: visited) = Z.eqb y c || zmem y visited) by reflexivity.
  destruct (Z.eq_dec x c) as [->|NE].
  - destruct (zmem c visited) eqn:Z; [apply zmem_iff in Z; contradiction|]. rewrite T, Z.eqb_refl. cbn [negb orb]. constructor.
    clear IH I ND. induction l as [|y l IHl]; [constructor|]. cbn [filter]. rewrite T. destruct (Z.eqb_spec y c) as [->|]; [exfalso; apply H1; now left|]. cbn [orb].
    inversion H2; subst. destruct (negb (zmem y visited)); [constructor|]; (apply IHl; [intros J; apply H1; now right|assumption]).
  - destruct I as [->|I]; [congruence|]. rewrite T. destruct (Z.eqb_spec x c); [congruence|]. cbn [orb]. specialize (IH I H2).
    destruct (negb (zmem x visited)); [|exact IH]. rewrite IH. apply perm_swap.
Qed.
Lemma list_sum_perm l l' : Permutation l l' -> list_sum l = list_sum l'.
Proof. unfold list_sum. induction 1; cbn; lia. Qed.
Lemma dfs_ends g (W : wf_graph g) : forall fuel visited stack keys, weight g visited stack < fuel ->
  (forall s x, In s stack -> In x (snd s) -> In x (g_nodes g)) -> exists l, dfs fuel g visited stack keys = Ok l.
Proof.
  induction fuel as [|f IH]; intros visited stack keys L C; [lia|]. cbn [dfs]. destruct stack as [|[p [|c cs]] st].
  - eauto.
  - apply IH; [unfold weight, list_sum in *; cbn in *; lia|]. intros s x I. apply C. now right.
  - destruct (zmem c visited) eqn:Z.
    + apply IH; [unfold weight, list_sum in *; cbn in *; lia|]. intros s x [<-|I] J; [apply (C (p, c :: cs) x); [now left|now right]|apply (C s x); [now right|exact J]].
    + assert (Ic : In c (g_nodes g)) by (apply (C (p, c :: cs) c); now left).
      assert (Nc : ~ In c visited) by (intros I; apply zmem_iff in I; congruence).
      apply IH.
      * unfold weight, list_sum in *. pose proof (list_sum_perm _ _ (Permutation_map (fun u => 2 + length (succs g u)) (left_over_visit g c visited Ic (proj1 W) Nc))) as E.
        unfold list_sum in E. rewrite E in L. cbn in *. lia.
      * intros s x [<-|[<-|I]] J.
        -- cbn in J. apply in_succs in J. apply (wf_edges g c x W J).
        -- apply (C (p, c :: cs) x); [now left|now right].
        -- apply (C s x); [now right|exact J].
Qed.
Lemma dfs_sound g n : forall fuel visited stack keys l, dfs fuel g visited stack keys = Ok l ->
  (forall s, In s stack -> reaches (g_edges g) n (fst s) /\ forall x, In x (snd s) -> In (fst s, x) (g_edges g)) ->
  (forall x, In x keys -> reaches (g_edges g) n x /\ exists y, In (x, y) (g_edges g)) ->
  forall x, In x l -> reaches (g_edges g) n x /\ exists y, In (x, y) (g_edges g).
Proof.
  induction fuel as [|f IH]; intros visited stack keys l E S K; [discriminate E|]. cbn [dfs] in E. destruct stack as [|[p [|c cs]] st].
  - injection E as <-. exact K.
  - eapply IH; [exact E| |exact K]. intros s I. apply S. now right.
  - destruct (S (p, c :: cs) (or_introl eq_refl)) as [Rp Sp]. cbn [fst snd] in *. destruct (zmem c visited).
    + eapply IH; [exact E| |exact K]. intros s [<-|I]; [split; [exact Rp|]; intros x J; apply Sp; now right|apply S; now right].
    + eapply IH; [exact E| |].
      * intros s [<-|[<-|I]].
        -- cbn. destruct Rp as (w & Ww). split; [exists (w ++ [c]); eapply walk_snoc; [exact Ww|apply Sp; now left]|]. intros x J. apply in_succs, J.
        -- cbn. split; [exact Rp|]. intros x J. apply Sp. now right.
        -- apply S. now right.
      * intros x. destruct (zmem p keys); [apply K|]. rewrite in_app_iff. intros [J|[<-|[]]]; [apply K, J|]. split; [exact Rp|]. exists c. apply Sp. now left.
Qed.
