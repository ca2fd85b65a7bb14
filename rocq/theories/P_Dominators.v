(** Proofs about dominators and the forest made of them. *)
From Coq Require Import NArith ZArith List Bool Lia Arith Permutation Sorting.Sorted.
From Verif Require Import M_Base M_PyGraph M_PyDiGraph S_Graph S_Dominators P_Base P_PyGraph P_PyDiGraph.
Import ListNotations.
Local Open Scope nat_scope.

Section Root.
  Variables (g : digraph) (r : Z).
  Hypotheses (W : wf_graph g) (R : In r (g_nodes g)).
  Notation es := (g_edges g).
  Notation dom := (dominates (g_edges g) r).
  Notation sdom := (strictly_dominates (g_edges g) r).
  Notation idom := (immediately_dominates (g_edges g) r).

  Lemma around_true d n : around g r d n = true <-> exists l, walk es r l n /\ ~ In d l.
  Proof.
    unfold around. rewrite andb_true_iff, negb_true_iff, Z.eqb_neq, zmem_iff.
    destruct (Z.eq_dec r d) as [->|NE].
    - split; [intros [A _]; congruence|]. intros (l & A & B). destruct (B (walk_in_l _ _ _ _ A)).
    - destruct (lengths_ok g (without g d) r) as [_ B]; [|exact R|].
      { intros u x _ H. apply in_without in H. apply (wf_edges g u x W), H. }
      rewrite in_map_iff. split.
      + intros [_ ([y k] & E & I)]. cbn in E. subst y. apply B in I. destruct I as [I _].
        apply (stepn_without g d k r n NE) in I. destruct I as (l & A & _ & C). exists l. split; assumption.
      + intros (l & A & C). split; [exact NE|]. destruct (walk_head _ _ _ _ A) as (t & ->).
        assert (S : stepn (without g d) (length t) r n) by (apply (stepn_without g d _ r n NE); exists (r :: t); repeat split; assumption).
        destruct (least_ex _ _ _ _ S) as (m & _ & L). exists (n, m). split; [reflexivity|apply B, L].
  Qed.
  Lemma around_false d n : around g r d n = false <-> dom d n.
  Proof.
    split.
    - intros E l Wl. destruct (in_dec Z.eq_dec d l) as [I|N]; [exact I|].
      assert (T : around g r d n = true) by (apply around_true; exists l; split; assumption). congruence.
    - intros D. destruct (around g r d n) eqn:E; [|reflexivity]. apply around_true in E. destruct E as (l & A & B). destruct (B (D l A)).
  Qed.
  Lemma dom_dec d n : {dom d n} + {exists l, walk es r l n /\ ~ In d l}.
  Proof. destruct (around g r d n) eqn:E; [right; apply around_true, E|left; apply around_false, E]. Qed.

  Lemma dom_refl n : dom n n.
  Proof. intros l A. exact (walk_in_r _ _ _ _ A). Qed.
  Lemma dom_root n : dom r n.
  Proof. intros l A. exact (walk_in_l _ _ _ _ A). Qed.
  Lemma dom_trans a b c : dom a b -> dom b c -> dom a c.
  Proof.
    intros A B l Wl. destruct (walk_cut _ _ _ _ _ Wl (B l Wl)) as (l1 & l2 & -> & P & _). specialize (A _ P).
    apply in_app_iff in A. apply in_app_iff. destruct A as [A|[<-|[]]]; [left; exact A|right; now left].
  Qed.
  Lemma dom_reach d n : reaches es r n -> dom d n -> reaches es r d.
  Proof. intros (l & A) D. destruct (walk_cut _ _ _ _ _ A (D l A)) as (l1 & l2 & _ & P & _). eexists; exact P. Qed.
  Lemma sdom_closer d n k : distance es r n k -> sdom d n -> exists j, j < k /\ distance es r d j.
  Proof.
    intros [(l & A & L) M] [D NE]. destruct (walk_cut _ _ _ _ _ A (D l A)) as (l1 & l2 & E & P & Q).
    destruct (distance_ex g r d) as (j & J); [eexists; exact P|]. exists j. split; [|exact J].
    destruct J as [_ J]. specialize (J _ P). rewrite app_length in J. cbn in J. subst l. rewrite app_length in L. cbn in L.
    destruct l2 as [|y l2]; [|cbn in L; lia]. inversion Q; subst; [congruence|]. match goal with H : walk _ _ [] _ |- _ => inversion H end.
  Qed.
  Lemma dom_antisym a b : reaches es r a -> dom a b -> dom b a -> a = b.
  Proof.
    intros RA A B. destruct (Z.eq_dec a b) as [|NE]; [assumption|exfalso].
    destruct (distance_ex g r a RA) as (k & K). destruct (sdom_closer b a k K) as (j & J & Hj); [split; [exact B|congruence]|].
    destruct (sdom_closer a b j Hj) as (i & I & Hi); [split; assumption|]. pose proof (distance_fun _ _ _ _ _ K Hi). lia.
  Qed.
  Lemma dom_linear a b n : reaches es r n -> dom a n -> dom b n -> dom a b \/ dom b a.
  Proof.
    intros (l & A) Da Db. destruct (dom_dec a b) as [|(la & Wa & Na)]; [now left|]. destruct (dom_dec b a) as [|(lb & Wb & Nb)]; [now right|]. exfalso.
    destruct (walk_last es r l n (fun z => z = a \/ z = b)) as (x & l1 & l2 & Px & -> & F & Q).
    - intros z. destruct (Z.eq_dec z a), (Z.eq_dec z b); tauto.
    - exact A.
    - apply Exists_exists. exists a. split; [apply Da, A|now left].
    - rewrite Forall_forall in F.
      destruct (Z.eq_dec x a) as [->|NE].
      + pose proof (Db _ (walk_join _ _ _ _ _ _ Wb Q)) as I. apply in_app_iff in I. destruct I as [I|I]; [exact (Nb I)|]. apply (F b I). now right.
      + destruct Px as [->| ->]; [congruence|]. pose proof (Da _ (walk_join _ _ _ _ _ _ Wa Q)) as I. apply in_app_iff in I. destruct I as [I|I]; [exact (Na I)|]. apply (F a I). now left.
  Qed.

  Lemma in_strict_doms n d : reaches es r n -> In d (strict_doms g r n) <-> sdom d n.
  Proof.
    intros Rn. unfold strict_doms. rewrite filter_In, (reached g r d W R), andb_true_iff, !negb_true_iff, Z.eqb_neq, around_false.
    split; [intros (_ & A & B); split; assumption|]. intros [A B]. repeat split; [exact (dom_reach d n Rn A)|exact B|exact A].
  Qed.

  (** A list in which any two are comparable has a largest member. *)
  Lemma has_max (L : list Z) : L <> [] -> (forall x y, In x L -> In y L -> dom x y \/ dom y x) -> exists m, In m L /\ forall e, In e L -> dom e m.
  Proof.
    induction L as [|a L IH]; [congruence|]. intros _ T. destruct L as [|b L].
    - exists a. split; [now left|]. intros e [<-|[]]. apply dom_refl.
    - destruct IH as (m & M & H); [congruence|intros x y A B; apply T; right; assumption|].
      destruct (T a m) as [D|D]; [now left|right; exact M| |].
      + exists m. split; [right; exact M|]. intros e [<-|I]; [exact D|apply H, I].
      + exists a. split; [now left|]. intros e [<-|I]; [apply dom_refl|exact (dom_trans e m a (H e I) D)].
  Qed.
  Lemma immediate_iff n d : reaches es r n -> immediate g r n = Some d <-> idom d n.
  Proof.
    intros Rn. unfold immediate.
    assert (T : forall x, In x (strict_doms g r n) ->
      (forallb (fun e => Z.eqb e x || negb (around g r e x)) (strict_doms g r n) = true <-> forall e, sdom e n -> dom e x)).
    { intros x Hx. rewrite forallb_forall. split.
      - intros H e He. specialize (H e (proj2 (in_strict_doms n e Rn) He)). apply orb_true_iff in H. destruct H as [H|H].
        + apply Z.eqb_eq in H. subst. apply dom_refl.
        + apply around_false, negb_true_iff, H.
      - intros H e He. apply in_strict_doms in He; [|exact Rn]. apply orb_true_iff. right. apply negb_true_iff, around_false, H, He. }
    split.
    - intros F. apply find_some in F. destruct F as [I F]. split; [apply in_strict_doms; assumption|]. exact (proj1 (T d I) F).
    - intros [S M]. destruct (find _ (strict_doms g r n)) as [x|] eqn:F.
      + apply find_some in F. destruct F as [I F]. pose proof (proj1 (T x I) F) as F'. f_equal. apply in_strict_doms in I; [|exact Rn].
        apply dom_antisym; [exact (dom_reach x n Rn (proj1 I))|apply M, I|apply F', S].
      + exfalso. assert (I : In d (strict_doms g r n)) by (apply in_strict_doms; assumption).
        pose proof (find_none _ _ F d I) as N. cbn beta in N. rewrite (proj2 (T d I) M) in N. discriminate N.
  Qed.
  Lemma idom_ex n : reaches es r n -> n <> r -> exists d, idom d n.
  Proof.
    intros Rn NE. destruct (has_max (strict_doms g r n)) as (m & I & H).
    - assert (I : In r (strict_doms g r n)) by (apply in_strict_doms; [exact Rn|split; [apply dom_root|congruence]]). destruct (strict_doms g r n); [destruct I|congruence].
    - intros x y A B. apply in_strict_doms in A; [|exact Rn]. apply in_strict_doms in B; [|exact Rn]. exact (dom_linear x y n Rn (proj1 A) (proj1 B)).
    - exists m. split; [apply in_strict_doms; assumption|]. intros e He. apply H, in_strict_doms; assumption.
  Qed.
  Lemma idom_fun n a b : reaches es r n -> idom a n -> idom b n -> a = b.
  Proof.
    intros Rn [A A'] [B B']. apply dom_antisym; [exact (dom_reach a n Rn (proj1 A))|apply B', A|apply A', B].
  Qed.
  Lemma no_sdom_root d : ~ sdom d r.
  Proof. intros [D NE]. specialize (D [r] (walk_here _ _)). destruct D as [->|[]]. congruence. Qed.

  Lemma in_forest_edges d n : In (d, n) (forest_edges g r) <-> reaches es r n /\ idom d n.
  Proof.
    unfold forest_edges, immediate_dominators. rewrite in_map_iff. split.
    - intros ([x y] & E & I). cbn in E. injection E as -> ->. apply filter_In in I. destruct I as [I N]. cbn [fst snd] in N.
      rewrite map_map in I. apply in_map_iff in I. destruct I as ([z k] & E & J). cbn [fst] in E. injection E as -> E.
      assert (Rn : reaches es r n) by (apply (reached g r n W R), (in_map fst _ _ J)). split; [exact Rn|].
      destruct (immediate g r n) as [d'|] eqn:F; [subst d'; apply immediate_iff; assumption|]. subst d. rewrite Z.eqb_refl in N. discriminate N.
    - intros [Rn D]. exists (n, d). split; [reflexivity|]. apply filter_In. split.
      + apply in_map_iff. exists n. split; [|apply (reached g r n W R), Rn]. rewrite (proj2 (immediate_iff n d Rn) D). reflexivity.
      + cbn. destruct (Z.eqb_spec n d) as [->|]; [|reflexivity]. destruct D as [[_ D] _]. congruence.
  Qed.
End Root.

(** ** Building graphs *)
Lemma add_edges_wf es : forall g, wf_graph g -> wf_graph (add_edges g es).
Proof. unfold add_edges. induction es as [|e es IH]; intros g H; cbn [fold_left]; [exact H|]. apply IH, add_edge_wf, H. Qed.
Lemma add_edges_in es : forall g e, In e (g_edges (add_edges g es)) <-> In e (g_edges g) \/ In e es.
Proof.
  unfold add_edges. induction es as [|[u v] es IH]; intros g e; cbn [fold_left]; [cbn; tauto|].
  rewrite IH, add_edge_in. cbn. intuition congruence.
Qed.
Lemma add_edges_nodes es : forall g x, In x (g_nodes (add_edges g es)) <-> In x (g_nodes g) \/ exists e, In e es /\ (x = fst e \/ x = snd e).
Proof.
  unfold add_edges. induction es as [|[u v] es IH]; intros g x; cbn [fold_left].
  - split; [now left|]. intros [H|(e & [] & _)]. exact H.
  - rewrite IH, add_edge_nodes. cbn [fst snd]. split.
    + intros [[H|H]|(e & I & H)]; [now left|right; exists (u, v); split; [now left|exact H]|right; exists e; split; [now right|exact H]].
    + intros [H|(e & [<-|I] & H)]; [left; now left|left; right; exact H|right; exists e; split; assumption].
Qed.
Lemma graph_new_wf : wf_graph graph_new.
Proof. repeat split; [constructor|constructor| |]; destruct H. Qed.

(** ** The forest of a graph with one root *)
Section Forest.
  Variables (g : digraph) (r : Z).
  Hypotheses (W : wf_graph g) (R : In r (g_nodes g)).
  Notation es := (g_edges g).
  Definition forest_of := add_edges graph_new (forest_edges g r).
  Notation f := forest_of.
  Lemma f_wf : wf_graph f.
  Proof. apply add_edges_wf, graph_new_wf. Qed.
  Lemma f_edges d n : In (d, n) (g_edges f) <-> reaches es r n /\ immediately_dominates es r d n.
  Proof. unfold forest_of. rewrite add_edges_in, in_forest_edges by assumption. cbn. tauto. Qed.
  Lemma f_node n : reaches es r n -> n <> r -> In n (g_nodes f).
  Proof.
    intros Rn NE. destruct (idom_ex g r W R n Rn NE) as (d & D). apply (wf_edges f d n f_wf). apply f_edges. split; assumption.
  Qed.
  Lemma f_walk_dom x l n : walk (g_edges f) x l n -> dominates es r x n.
  Proof.
    induction 1 as [a|a b c l E H IH]; [apply dom_refl|]. apply f_edges in E. destruct E as [_ [[E _] _]].
    exact (dom_trans g r a b c E IH).
  Qed.
  Lemma f_walk_ex n : reaches es r n -> forall x, dominates es r x n -> reaches (g_edges f) x n.
  Proof.
    intros Rn. destruct (distance_ex g r n Rn) as (k & K). revert n Rn K. induction k as [k IH] using (well_founded_induction lt_wf).
    intros n Rn K x D. destruct (Z.eq_dec x n) as [->|NE]; [exists [n]; constructor|].
    assert (NR : n <> r) by (intros ->; apply (no_sdom_root g r R x); split; assumption).
    destruct (idom_ex g r W R n Rn NR) as (d & I). destruct (sdom_closer g r d n k K (proj1 I)) as (j & J & Hj).
    destruct (IH j J d (dom_reach g r d n Rn (proj1 (proj1 I))) Hj x) as (l & L); [apply I; split; assumption|].
    exists (l ++ [n]). eapply walk_snoc; [exact L|]. apply f_edges. split; assumption.
  Qed.
  Lemma f_pred_fun n a b : In (a, n) (g_edges f) -> In (b, n) (g_edges f) -> a = b.
  Proof. rewrite !f_edges. intros [Rn A] [_ B]. exact (idom_fun g r n a b Rn A B). Qed.
  Lemma f_up_fun k : forall n a b, stepn (preds f) k n a -> stepn (preds f) k n b -> a = b.
  Proof.
    induction k as [|k IH]; intros n a b A B; inversion A; inversion B; subst; [reflexivity|].
    match goal with H1 : stepn _ k n ?x, H2 : stepn _ k n ?y |- _ => pose proof (IH _ _ _ H1 H2); subst end.
    rewrite in_preds in *. eapply f_pred_fun; eassumption.
  Qed.
  Lemma stepn_split next i : forall j a c, stepn next (i + j) a c -> exists b, stepn next i a b /\ stepn next j b c.
  Proof.
    induction j as [|j IH]; intros a c H.
    - rewrite Nat.add_0_r in H. exists c. split; [exact H|constructor].
    - rewrite Nat.add_succ_r in H. inversion H as [|m a' b' c' A B]; subst. destruct (IH _ _ A) as (b & C & D).
      exists b. split; [exact C|]. econstructor; eassumption.
  Qed.
  Lemma f_order n x y i j : distance (g_edges f) x n i -> distance (g_edges f) y n j -> i <= j -> dominates es r y x.
  Proof.
    intros A B L. apply least_preds in A. apply least_preds in B. destruct A as [A _]. destruct B as [B _].
    replace j with (i + (j - i)) in B by lia. destruct (stepn_split _ _ _ _ _ B) as (z & C & D).
    pose proof (f_up_fun i n x z A C). subst z. apply stepn_preds, stepn_succs in D. destruct D as (l & D & _). exact (f_walk_dom y l x D).
  Qed.
  Lemma f_dist_inj n x y i : distance (g_edges f) x n i -> distance (g_edges f) y n i -> x = y.
  Proof. intros A B. apply least_preds in A. apply least_preds in B. exact (f_up_fun i n x y (proj1 A) (proj1 B)). Qed.
End Forest.

(** ** Ancestors *)
Lemma insert_pair_perm x l : Permutation (insert_pair x l) (x :: l).
Proof. induction l as [|y r IH]; cbn; [reflexivity|]. destruct (pair_leb x y); [reflexivity|]. rewrite IH. apply perm_swap. Qed.
Lemma sort_pairs_perm l : Permutation (sort_pairs l) l.
Proof. induction l as [|x r IH]; cbn; [reflexivity|]. rewrite insert_pair_perm. now constructor. Qed.
Definition ple (a b : nat * Z) : Prop := fst a < fst b \/ fst a = fst b /\ (snd a <= snd b)%Z.
Lemma pair_leb_iff a b : pair_leb a b = true <-> ple a b.
Proof. unfold pair_leb, ple. rewrite orb_true_iff, andb_true_iff, Nat.ltb_lt, Nat.eqb_eq, Z.leb_le. reflexivity. Qed.
Lemma ple_trans a b c : ple a b -> ple b c -> ple a c.
Proof. unfold ple. lia. Qed.
Lemma insert_pair_in_order x l : in_order ple l -> in_order ple (insert_pair x l).
Proof.
  induction l as [|y r IH]; cbn [insert_pair]; intros H; [split; [easy|exact I]|]. destruct (pair_leb x y) eqn:E.
  - apply pair_leb_iff in E. split; [|exact H]. intros z [<-|J]; [exact E|]. apply (ple_trans x y z E), H, J.
  - destruct H as [H K]. split; [|apply IH, K]. intros z J. apply (Permutation_in _ (insert_pair_perm x r)) in J. destruct J as [<-|J]; [|apply H, J].
    destruct (Nat.lt_trichotomy (fst x) (fst y)) as [L|[L|L]].
    + assert (T : pair_leb x y = true) by (apply pair_leb_iff; left; exact L). congruence.
    + destruct (Z.le_gt_cases (snd x) (snd y)) as [M|M]; [|right; split; [symmetry; exact L|lia]].
      assert (T : pair_leb x y = true) by (apply pair_leb_iff; right; split; assumption). congruence.
    + left. exact L.
Qed.
Lemma sort_pairs_in_order l : in_order ple (sort_pairs l).
Proof. induction l as [|x r IH]; cbn; [exact I|]. apply insert_pair_in_order, IH. Qed.
Lemma in_order_map {A B} (h : A -> B) (P : A -> A -> Prop) (Q : B -> B -> Prop) l :
  (forall x y, In x l -> In y l -> P x y -> Q (h x) (h y)) -> in_order P l -> in_order Q (map h l).
Proof.
  induction l as [|a l IH]; intros H K; cbn; [exact I|]. destruct K as [K1 K2]. split.
  - intros y Hy. apply in_map_iff in Hy. destruct Hy as (z & <- & Hz). apply H; [now left|right; exact Hz|apply K1, Hz].
  - apply IH; [|exact K2]. intros x y A1 B1. apply H; right; assumption.
Qed.
Lemma has_dup_iff l : has_dup l = false <-> NoDup l.
Proof.
  induction l as [|x r IH]; cbn; [split; [constructor|easy]|]. rewrite orb_false_iff, IH. split.
  - intros [A B]. constructor; [|exact B]. intros I. assert (T : existsb (Nat.eqb x) r = true) by (apply existsb_exists; exists x; split; [exact I|apply Nat.eqb_refl]). congruence.
  - intros H. inversion H; subst. split; [|assumption]. destruct (existsb (Nat.eqb x) r) eqn:E; [|reflexivity]. apply existsb_exists in E. destruct E as (y & I & E). apply Nat.eqb_eq in E. subst y. contradiction.
Qed.

Section Ancestors.
  Variables (g : digraph) (n : Z).
  Hypotheses (W : wf_graph g) (I : In n (g_nodes g)).
  Definition anc_pairs := map (fun p : Z * nat => (snd p, fst p)) (filter (fun p => negb (Z.eqb (fst p) n)) (lengths g (preds g) n)).
  Lemma anc_in d x : In (d, x) anc_pairs <-> x <> n /\ distance (g_edges g) x n d.
  Proof.
    unfold anc_pairs. destruct (lengths_preds g n W I) as [_ B]. rewrite in_map_iff. split.
    - intros ([y k] & E & J). cbn in E. injection E as -> ->. apply filter_In in J. destruct J as [J N]. cbn in N. apply negb_true_iff, Z.eqb_neq in N. split; [exact N|apply B, J].
    - intros [N D]. exists (x, d). split; [reflexivity|]. apply filter_In. split; [apply B, D|]. cbn. apply negb_true_iff, Z.eqb_neq, N.
  Qed.
  Lemma anc_nodup : NoDup (map snd anc_pairs).
  Proof.
    unfold anc_pairs. rewrite map_map. cbn [snd]. destruct (lengths_preds g n W I) as [ND _]. revert ND.
    induction (lengths g (preds g) n) as [|[y k] l IH]; intros ND; cbn; [constructor|]. cbn in ND. inversion ND; subst.
    destruct (negb (Z.eqb y n)); [|apply IH; assumption]. cbn. constructor; [|apply IH; assumption].
    intros J. apply H1. apply in_map_iff in J. destruct J as (p & E & J). apply filter_In in J. rewrite <- E. apply in_map, J.
  Qed.
  Lemma ancestors_eq ordered : ancestors ordered g n = if negb ordered && has_dup (map fst anc_pairs) then Exit else Ok (map snd (sort_pairs anc_pairs)).
  Proof. unfold ancestors, anc_pairs. apply zmem_iff in I. rewrite I. reflexivity. Qed.
  Lemma anc_lists : lists (fun x => x <> n /\ reaches (g_edges g) x n) (map snd (sort_pairs anc_pairs)).
  Proof.
    split.
    - eapply Permutation_NoDup; [symmetry; apply Permutation_map, sort_pairs_perm|apply anc_nodup].
    - intros x. rewrite in_map_iff. split.
      + intros ([d y] & E & J). cbn in E. subst y. apply (Permutation_in _ (sort_pairs_perm _)), anc_in in J. destruct J as [N [(l & L & _) _]].
        split; [exact N|exists l; exact L].
      + intros [N H]. destruct (distance_ex g x n H) as (d & D). exists (d, x). split; [reflexivity|].
        apply (Permutation_in _ (Permutation_sym (sort_pairs_perm _))), anc_in. split; assumption.
  Qed.
  Lemma anc_order (Q : Z -> Z -> Prop) :
    (forall x y i j, distance (g_edges g) x n i -> distance (g_edges g) y n j -> i < j \/ i = j /\ (x <= y)%Z -> Q x y) -> in_order Q (map snd (sort_pairs anc_pairs)).
  Proof.
    intros H. apply (in_order_map snd ple); [|apply sort_pairs_in_order]. intros [i x] [j y] A B P. cbn [snd].
    apply (Permutation_in _ (sort_pairs_perm _)), anc_in in A. apply (Permutation_in _ (sort_pairs_perm _)), anc_in in B.
    apply (H x y i j); [apply A|apply B|exact P].
  Qed.
End Ancestors.
