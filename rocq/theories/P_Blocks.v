(** Proofs about loop entries and conditionals. *)
From Coq Require Import NArith ZArith List Bool Lia Arith Permutation.
From Verif Require Import M_Base M_PyGraph M_PyDiGraph S_Graph S_Dominators S_DiGraph P_Base P_PyGraph P_PyDiGraph P_Dominators P_PyDiGraph2.
Import ListNotations.
Local Open Scope nat_scope.

Lemma only_one (r : Z) l : NoDup l -> (forall x, In x l <-> x = r) -> l = [r].
Proof.
  intros ND H. destruct l as [|a l]; [exfalso; apply (proj2 (H r) eq_refl)|]. assert (a = r) by (apply H; now left). subst a. f_equal.
  destruct l as [|b l]; [reflexivity|]. exfalso. assert (b = r) by (apply H; right; now left). subst b. inversion ND; subst. apply H2. now left.
Qed.

(** The graph built from nodes and their children, as edits. *)
Definition cfg_edits (bs : list (Z * list Z)) : list edit := flat_map (fun b => AddNode (fst b) :: map (AddEdge (fst b)) (snd b)) bs.
Lemma build_cfg_edits bs : build_cfg bs = build (cfg_edits bs).
Proof.
  unfold build_cfg, build, cfg_edits. generalize dg_new. induction bs as [|[x cs] bs IH]; intros o; [reflexivity|].
  cbn [fold_left flat_map fst snd]. rewrite IH, fold_left_app. f_equal. cbn [fold_left apply_edit]. generalize (dg_add_node o x). clear.
  induction cs as [|c cs IH]; intros o; [reflexivity|]. cbn [map fold_left]. rewrite <- IH. reflexivity.
Qed.
Lemma joined_cfg bs : joined (cfg_edits bs) = flat_map (fun b => map (fun c => (fst b, c)) (snd b)) bs.
Proof.
  unfold joined, cfg_edits. induction bs as [|[x cs] bs IH]; [reflexivity|]. cbn [flat_map fst snd]. rewrite flat_map_app. f_equal; [|exact IH].
  cbn [flat_map app]. induction cs as [|c cs IHc]; [reflexivity|]. cbn. rewrite <- IHc. reflexivity.
Qed.
Lemma named_cfg bs v : named (cfg_edits bs) v <-> In v (map fst bs) \/ exists u, In (u, v) (joined (cfg_edits bs)).
Proof.
  rewrite joined_cfg. unfold named, cfg_edits. setoid_rewrite in_flat_map. split.
  - intros [([x cs] & I & [[= ->]|J])|(u & [([x cs] & I & [[=]|J])|([x cs] & I & [[=]|J])])]; cbn [fst snd] in *.
    + left. apply (in_map fst _ _ I).
    + apply in_map_iff in J. destruct J as (c & [=] & _).
    + apply in_map_iff in J. destruct J as (c & [= -> ->] & J). right. exists u, (u, cs). split; [exact I|]. cbn. apply in_map, J.
    + apply in_map_iff in J. destruct J as (c & [= -> ->] & J). left. apply (in_map fst _ _ I).
  - intros [H|(u & [x cs] & I & J)].
    + apply in_map_iff in H. destruct H as ([x cs] & <- & I). left. exists (x, cs). split; [exact I|now left].
    + cbn [fst snd] in J. apply in_map_iff in J. destruct J as (c & [= -> ->] & J). right. exists u. left. exists (u, cs). split; [exact I|]. right. cbn. apply in_map, J.
Qed.

(** The dominator forest of what was built, for one root. *)
Lemma forest_one es r : (forall v, is_root es v <-> v = r) -> dominator_forest (build es) =
  (forest_of (dg_graph (build es)) r, mkDG (dg_graph (build es)) (Some [r]) None (Some (forest_of (dg_graph (build es)) r))).
Proof.
  intros O. destruct (build_ok es) as (W & E & N & A & B & C). unfold dominator_forest. rewrite C. unfold roots. rewrite A, B, C.
  cbn [dg_graph dg_roots dg_lengths].
  assert (RS : graph_roots (dg_graph (build es)) = [r]).
  { apply only_one; [apply nodup_filter, W|]. intros x. rewrite roots_in, N, (no_incoming_same _ _ E). apply O. }
  rewrite RS. cbn [flat_map]. rewrite app_nil_r. reflexivity.
Qed.
Lemma root_node es r : (forall v, is_root es v <-> v = r) -> In r (g_nodes (dg_graph (build es))).
Proof. intros O. destruct (build_ok es) as (_ & _ & N & _). apply N. apply (proj2 (O r) eq_refl). Qed.

Lemma two_of (l : list Z) x y : In x l -> In y l -> x <> y -> 2 <= length l.
Proof. intros A B N. destruct l as [|a [|b l]]; [destruct A|destruct A as [<-|[]]; destruct B as [<-|[]]; congruence|cbn; lia]. Qed.
Lemma of_two (l : list Z) : NoDup l -> 2 <= length l -> exists x y, In x l /\ In y l /\ x <> y.
Proof.
  intros ND L. destruct l as [|a [|b l]]; [cbn in L; lia|cbn in L; lia|]. exists a, b. repeat split; [now left|right; now left|].
  intros ->. inversion ND; subst. apply H1. now left.
Qed.

Lemma walk_unsnoc es a m c : walk es a m c -> (m = [c] /\ a = c) \/ exists q l0, m = l0 ++ [c] /\ walk es a l0 q /\ In (q, c) es.
Proof.
  induction 1 as [a|a b c l E W IH]; [left; split; reflexivity|]. right. destruct IH as [[-> ->]|(q & l0 & -> & Wq & Eq)].
  - exists a, [a]. repeat split; [constructor|exact E].
  - exists q, (a :: l0). repeat split; [econstructor; eassumption|exact Eq].
Qed.

Section Blocks.
  Variables (bs : list bblock) (r : Z).
  Hypotheses (C : consistent bs) (O : only_root bs r).
  Definition edits := cfg_edits (map (fun b => (bb_id b, bb_children b)) bs).
  Lemma joined_jumps : joined edits = jumps bs.
  Proof. unfold edits, jumps. rewrite joined_cfg, flat_map_map. reflexivity. Qed.
  Lemma named_blocks v : named edits v <-> In v (map bb_id bs).
  Proof.
    unfold edits. rewrite named_cfg. fold edits. rewrite joined_jumps, map_map. cbn [fst]. split; [|now left].
    intros [H|(u & H)]; [exact H|]. exact (proj1 (proj2 C) u v H).
  Qed.
  Lemma is_root_iff v : is_root edits v <-> v = r.
  Proof. unfold is_root. rewrite named_blocks, joined_jumps. apply O. Qed.
  Lemma cfg_build : cfg bs = build edits.
  Proof. unfold cfg, edits. apply build_cfg_edits. Qed.
  Definition g := dg_graph (build edits).
  Lemma g_wf : wf_graph g.
  Proof. apply build_ok. Qed.
  Lemma g_jumps e : In e (g_edges g) <-> In e (jumps bs).
  Proof. unfold g. rewrite (proj1 (proj2 (build_ok edits))), joined_jumps. reflexivity. Qed.
  Lemma g_root : In r (g_nodes g).
  Proof. apply root_node, is_root_iff. Qed.
  Lemma the_forest : fst (dominator_forest (cfg bs)) = forest_of g r.
  Proof. rewrite cfg_build, (forest_one edits r is_root_iff). reflexivity. Qed.

  Lemma same_func_iff f x : same_func bs f x = true <-> in_function bs x f.
  Proof.
    unfold same_func, func_of, in_function. destruct C as [ND _]. split.
    - destruct (find _ bs) as [b|] eqn:F; [|discriminate]. intros E. apply Z.eqb_eq in E. apply find_some in F. destruct F as [I F]. apply Z.eqb_eq in F. exists b. repeat split; [exact I|exact F|congruence].
    - intros (b & I & Ex & Ef). destruct (find _ bs) as [b'|] eqn:F.
      + apply find_some in F. destruct F as [I' F]. apply Z.eqb_eq in F. assert (b' = b); [|subst b'; apply Z.eqb_eq; congruence].
        clear - ND I I' Ex F. induction bs as [|a l IH]; [destruct I|]. cbn in ND. inversion ND; subst.
        destruct I as [->|I], I' as [->|I']; [reflexivity| | |apply IH; assumption]; exfalso; apply H1.
        * rewrite <- F. apply in_map, I'.
        * rewrite F. apply in_map, I.
      + pose proof (find_none _ _ F b I) as N. cbn in N. rewrite Ex, Z.eqb_refl in N. discriminate N.
  Qed.
  Lemma in_local_preds b p : In b bs -> In p (nodup Z.eq_dec (filter (same_func bs (bb_func b)) (bb_preds b))) <-> local_pred bs b p.
  Proof.
    intros I. rewrite nodup_In, filter_In, same_func_iff. unfold local_pred. rewrite (proj2 (proj2 C) b p I). reflexivity.
  Qed.

  Notation es := (jumps bs).
  Lemma dom_jumps a b : dominates (g_edges g) r a b <-> dominates es r a b.
  Proof. apply dominates_same, g_jumps. Qed.
  Lemma reach_jumps a b : reaches (g_edges g) a b <-> reaches es a b.
  Proof. apply reaches_same, g_jumps. Qed.

  (** A predecessor that strictly dominates is the immediate dominator. *)
  Lemma pred_idom p n : reaches es r n -> In (p, n) es -> strictly_dominates es r p n -> immediately_dominates (g_edges g) r p n.
  Proof.
    intros Rn E [D NE]. split; [split; [apply dom_jumps, D|exact NE]|]. intros e [De Ne] l Wl.
    assert (W' : walk (g_edges g) r (l ++ [n]) n) by (eapply walk_snoc; [exact Wl|apply g_jumps, E]).
    specialize (De _ W'). apply in_app_iff in De. destruct De as [I|[->|[]]]; [exact I|congruence].
  Qed.

  Lemma loop_entry_ok b : In b bs -> reaches es r (bb_id b) -> exists v, is_loop_entry bs b = Ok v /\
    (v = true <-> exists p q, local_pred bs b p /\ local_pred bs b q /\ strictly_dominates es r p (bb_id b) /\ ~ strictly_dominates es r q (bb_id b)).
  Proof.
    intros I Rb. unfold is_loop_entry. set (ps := nodup Z.eq_dec (filter (same_func bs (bb_func b)) (bb_preds b))).
    assert (P : forall p, In p ps <-> local_pred bs b p) by (intros p; apply in_local_preds, I).
    assert (ND : NoDup ps) by apply NoDup_nodup. clearbody ps.
    destruct (Nat.ltb_spec (length ps) 2) as [L|L].
    - exists false. split; [reflexivity|]. split; [discriminate|]. intros (p & q & A & B & Dp & Dq). exfalso.
      assert (p <> q) by (intros ->; contradiction). apply P in A. apply P in B. pose proof (two_of ps p q A B H). lia.
    - rewrite the_forest. destruct (of_two ps ND L) as (x & y & Ix & Iy & _).
      assert (NR : bb_id b <> r).
      { intros Er. apply P in Ix. destruct Ix as [Ix _]. destruct (proj2 (O r) eq_refl) as [_ NI]. apply (NI x). rewrite <- Er. exact Ix. }
      assert (Rg : reaches (g_edges g) r (bb_id b)) by (apply reach_jumps, Rb).
      pose proof (f_node g r g_wf g_root (bb_id b) Rg NR) as IN. apply zmem_iff in IN. rewrite IN. cbn [negb].
      set (ds := preds (forest_of g r) (bb_id b)).
      assert (Q : forall p, In p ds <-> immediately_dominates (g_edges g) r p (bb_id b)).
      { intros p. unfold ds. rewrite in_preds, (f_edges g r g_wf g_root). tauto. }
      clearbody ds. destruct (existsb (fun p => zmem p ps) ds) eqn:E1; cbn [negb].
      + exists (existsb (fun p => negb (zmem p ds)) ps). split; [reflexivity|].
        apply existsb_exists in E1. destruct E1 as (p & Ip & Jp). apply zmem_iff in Jp. rewrite existsb_exists. split.
        * intros (q & Iq & Nq). exists p, q. repeat split; [apply P, Jp|apply P, Jp|apply P, Iq|apply P, Iq|apply dom_jumps, (proj1 (Q p) Ip)|apply (proj1 (Q p) Ip)|].
          intros Sq. apply negb_true_iff in Nq. assert (T : zmem q ds = true); [|congruence].
          apply zmem_iff, Q, pred_idom; [exact Rb|apply P, Iq|exact Sq].
        * intros (p' & q & A & B & Dp & Dq). exists q. split; [apply P, B|]. apply negb_true_iff. destruct (zmem q ds) eqn:T; [|reflexivity].
          apply zmem_iff, Q in T. exfalso. apply Dq. destruct T as [[T N] _]. split; [apply dom_jumps, T|exact N].
      + exists false. split; [reflexivity|]. split; [discriminate|]. intros (p & q & A & B & Dp & Dq). exfalso.
        assert (T : existsb (fun p => zmem p ps) ds = true); [|congruence]. apply existsb_exists. exists p. split; [apply Q, pred_idom; [exact Rb|apply A|exact Dp]|apply zmem_iff, P, A].
  Qed.

  (** A loop entered from one block only. *)
  Lemma only_entry h p : reaches es r h -> h <> r ->
    (forall q, In (q, h) es -> q <> p -> dominates es r h q) -> dominates es r p h.
  Proof.
    intros Rh NR A l Wl. destruct (walk_first _ _ _ _ _ Wl (walk_in_r _ _ _ _ Wl)) as (l1 & l2 & -> & N & W1 & _).
    apply in_app_iff. left.
    destruct (walk_unsnoc _ _ _ _ W1) as [[E1 E2]|(q & l0 & E1 & Wq & Eq)]; [congruence|].
    apply app_inj_tail in E1. destruct E1 as [-> _].
    destruct (Z.eq_dec q p) as [->|NE]; [exact (walk_in_r _ _ _ _ Wq)|]. exfalso. apply N. exact (A q Eq NE _ Wq).
  Qed.
End Blocks.
