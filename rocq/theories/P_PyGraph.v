(** Proofs about the graph of the taint forest. *)
From Coq Require Import NArith ZArith List Bool Lia Permutation.
From Verif Require Import M_Base M_Encoding M_Labels M_PyNode M_PySections M_PyFile M_PyAnalysis M_Runtime M_PyGraph
  S_Provenance S_Labels S_PyAnalysis S_Forest S_Runtime S_Graph P_Base P_Labels P_PyNode P_History P_PyAnalysis P_Forest P_Argv.
Import ListNotations.
Open Scope N_scope.

(** ** Graphs *)
Lemma zmem_iff z l : zmem z l = true <-> In z l.
Proof.
  unfold zmem. rewrite existsb_exists. split.
  - intros (x & H & E). apply Z.eqb_eq in E. now subst.
  - intros H. exists z. split; [exact H|apply Z.eqb_refl].
Qed.
Lemma edge_eqb_iff a b : edge_eqb a b = true <-> a = b.
Proof.
  unfold edge_eqb. destruct a, b. cbn [fst snd]. rewrite andb_true_iff, !Z.eqb_eq. split; [intros [-> ->]; reflexivity|intros H; inversion H; auto].
Qed.

Definition wf_graph (g : digraph) : Prop :=
  NoDup (g_nodes g) /\ NoDup (g_edges g) /\ forall u v, In (u, v) (g_edges g) -> In u (g_nodes g) /\ In v (g_nodes g).

Lemma nodup_snoc {A} (l : list A) x : NoDup l -> ~ In x l -> NoDup (l ++ [x]).
Proof. intros H K. apply (Permutation_NoDup (Permutation_cons_append l x)). now constructor. Qed.

Lemma add_node_in g v x : In x (g_nodes (add_node g v)) <-> In x (g_nodes g) \/ x = v.
Proof.
  unfold add_node. destruct (zmem v (g_nodes g)) eqn:E.
  - apply zmem_iff in E. split; [auto|intros [H| ->]; assumption].
  - cbn [g_nodes]. rewrite in_app_iff. cbn [In]. split; [intros [H|[->|[]]]; auto|intros [H| ->]; auto].
Qed.
Lemma add_node_edges g v : g_edges (add_node g v) = g_edges g.
Proof. unfold add_node. now destruct (zmem v (g_nodes g)). Qed.
Lemma add_node_wf g v : wf_graph g -> wf_graph (add_node g v).
Proof.
  intros (H & K & J). unfold add_node. destruct (zmem v (g_nodes g)) eqn:E; [exact (conj H (conj K J))|].
  split; [|split]; cbn [g_nodes g_edges]; [|exact K|].
  - apply nodup_snoc; [exact H|]. intros I. apply zmem_iff in I. congruence.
  - intros a b I. destruct (J a b I). rewrite !in_app_iff. auto.
Qed.

Lemma add_edge_nodes g u v x : In x (g_nodes (add_edge g u v)) <-> In x (g_nodes g) \/ x = u \/ x = v.
Proof.
  unfold add_edge. cbv zeta. destruct (existsb _ _); cbn [g_nodes]; rewrite !add_node_in; tauto.
Qed.
Lemma add_edge_in g u v e : In e (g_edges (add_edge g u v)) <-> In e (g_edges g) \/ e = (u, v).
Proof.
  unfold add_edge. cbv zeta. rewrite !add_node_edges. destruct (existsb (edge_eqb (u, v)) (g_edges g)) eqn:E.
  - rewrite !add_node_edges. apply existsb_exists in E as (y & I & E). apply edge_eqb_iff in E. subst y. split; [auto|intros [H| ->]; assumption].
  - cbn [g_edges]. rewrite in_app_iff. cbn [In]. split; [intros [H|[<-|[]]]; auto|intros [H| ->]; auto].
Qed.
Lemma add_edge_wf g u v : wf_graph g -> wf_graph (add_edge g u v).
Proof.
  intros H. assert (N1 := add_edge_nodes g u v). assert (E1 := add_edge_in g u v).
  assert (H2 := add_node_wf _ v (add_node_wf _ u H)). split; [|split].
  - clear N1 E1. unfold add_edge. cbv zeta. destruct (existsb _ _); apply H2.
  - clear N1 E1. unfold add_edge. cbv zeta. destruct (existsb _ _) eqn:E; [apply H2|]. cbn [g_edges]. apply nodup_snoc; [apply H2|].
    intros I. assert (X : existsb (edge_eqb (u, v)) (g_edges (add_node (add_node g u) v)) = true); [|congruence].
    apply existsb_exists. exists (u, v). split; [exact I|now apply edge_eqb_iff].
  - intros a b I. apply E1 in I as [I|I]; rewrite !N1.
    + destruct (proj2 (proj2 H) a b I). auto.
    + inversion I. auto.
Qed.

(** What to_graph adds for one node. *)
Definition add_fnode (g : digraph) (n : fnode) : digraph :=
  let g1 := add_node g (fn_label n) in
  match fn_parents n with
  | None => g1
  | Some (p, q) => add_edge (add_edge g1 p (fn_label n)) q (fn_label n)
  end.
Definition parent_of (n : fnode) (p : Z) : Prop := exists a b, fn_parents n = Some (a, b) /\ (p = a \/ p = b).

Lemma add_fnode_wf g n : wf_graph g -> wf_graph (add_fnode g n).
Proof.
  intros H. unfold add_fnode. cbv zeta. destruct (fn_parents n) as [[p q]|]; [|now apply add_node_wf].
  now apply add_edge_wf, add_edge_wf, add_node_wf.
Qed.
Lemma add_fnode_nodes g n x : In x (g_nodes (add_fnode g n)) <-> In x (g_nodes g) \/ x = fn_label n \/ parent_of n x.
Proof.
  unfold add_fnode, parent_of. cbv zeta. destruct (fn_parents n) as [[p q]|].
  - rewrite !add_edge_nodes, add_node_in. split.
    + intros [[[H|H]|[H|H]]|[H|H]]; auto; right; right; exists p, q; auto.
    + intros [H|[H|(a & b & E & H)]]; auto. inversion E; subst. destruct H; auto.
  - rewrite add_node_in. split; [tauto|]. intros [H|[H|(a & b & E & _)]]; auto. discriminate.
Qed.
Lemma add_fnode_edges g n e : In e (g_edges (add_fnode g n)) <-> In e (g_edges g) \/ (snd e = fn_label n /\ parent_of n (fst e)).
Proof.
  unfold add_fnode, parent_of. cbv zeta. destruct e as [u v]. cbn [fst snd]. destruct (fn_parents n) as [[p q]|].
  - rewrite !add_edge_in, add_node_edges. split.
    + intros [[H|H]|H]; auto; inversion H; subst; right; split; auto; exists p, q; auto.
    + intros [H|[-> (a & b & E & H)]]; auto. inversion E; subst. destruct H as [->| ->]; auto.
  - rewrite add_node_edges. split; [tauto|]. intros [H|[_ (a & b & E & _)]]; auto. discriminate.
Qed.

Lemma fold_fnodes ns : forall g, wf_graph g ->
  wf_graph (fold_left add_fnode ns g) /\
  (forall x, In x (g_nodes (fold_left add_fnode ns g)) <-> In x (g_nodes g) \/ exists n, In n ns /\ (x = fn_label n \/ parent_of n x)) /\
  (forall e, In e (g_edges (fold_left add_fnode ns g)) <-> In e (g_edges g) \/ exists n, In n ns /\ snd e = fn_label n /\ parent_of n (fst e)).
Proof.
  induction ns as [|n ns IH]; intros g H; cbn [fold_left].
  - split; [exact H|]. split; intros x; (split; [auto|intros [K|(n & [] & _)]; exact K]).
  - destruct (IH _ (add_fnode_wf g n H)) as (W & A & B). split; [exact W|]. split.
    + intros x. rewrite A, add_fnode_nodes. cbn [In]. split.
      * intros [[K|K]|(m & I & K)]; eauto.
      * intros [K|(m & [<-|I] & K)]; eauto.
    + intros e. rewrite B, add_fnode_edges. cbn [In]. split.
      * intros [[K|K]|(m & I & K)]; eauto.
      * intros [K|(m & [<-|I] & K)]; eauto.
Qed.

(** ** The loop *)
Section Graph.
  Variables (d : tdfile) (t : table) (src : N -> py_input).
  Hypothesis W : wf_table t.
  Hypothesis Dec : forall l tn, view t l = Some tn -> td_decode_node d l = Ok (node_of tn).
  Hypothesis Cnt : td_label_count d = Ok (len t).
  Hypothesis Fds : forall l cf i o, view t l = Some (TSource cf i o) -> exists h, td_fd_header d i = Ok h /\ input_of h = src i.

  Let Inv := finv t src.
  Definition full (fo : forest) : Prop := forall z, has_label fo z -> exists nd, zget (fo_cache fo) z = Some (Some nd).

  Lemma later_trans fo1 fo2 fo3 : later d fo1 fo2 -> later d fo2 fo3 -> later d fo1 fo3.
  Proof. intros A B. revert A. induction B as [fo|fo fo2 z n fo3 L IH E]; intros A; [exact A|]. exact (la_get d fo1 _ _ _ _ (IH A) E). Qed.

  Lemma full_get fo z n fo' : full fo -> get_node d fo z = Ok (n, fo') -> fo' = fo.
  Proof.
    intros F E. destruct (dict_get Z.eqb (fo_cache fo) z) as [v|] eqn:G.
    - destruct (F z) as (nd & C); [unfold has_label; congruence|]. rewrite (get_cached d fo z nd C) in E. now inversion E.
    - unfold get_node in E. rewrite G in E. discriminate.
  Qed.

  (** Asking for a parent, twice. *)
  Lemma parent_step fo n side p : Inv fo -> option_map side (fn_parents n) = Some p -> has_label fo p ->
    exists fo', Inv fo' /\ ext (fo_cache fo) (fo_cache fo') /\ later d fo fo' /\
      (forall y, has_label fo y -> has_label fo' y) /\ (full fo -> fo' = fo) /\
      forall g, graph_parent d fo g n side = Ok (add_edge g p (fn_label n), fo').
  Proof.
    intros I P H. unfold graph_parent. destruct (fn_parents n) as [pq|]; [|discriminate]. cbn [option_map] in P. inversion P as [Ep]. clear P.
    destruct (get_spec d t src W Dec Fds fo p I H) as (nd & fo' & E & I' & X & St & G & _ & _ & Hs).
    exists fo'. split; [exact I'|]. split; [exact X|]. split; [eapply la_get; [apply la_refl|exact E]|]. split; [exact Hs|].
    split; [intros F; exact (full_get _ _ _ _ F E)|]. intros g. rewrite Ep, E. cbn [bind snd]. rewrite (get_cached d fo' p nd G). cbn [bind fst snd].
    now rewrite (stands_label _ _ _ _ _ St).
  Qed.

  Lemma graph_step fo z : Inv fo -> has_label fo z ->
    exists n fo', Inv fo' /\ ext (fo_cache fo) (fo_cache fo') /\ later d fo fo' /\ fn_label n = z /\
      zget (fo_cache fo') z = Some (Some n) /\ (full fo -> fo' = fo) /\
      forall f g, graph_loop (S f) d fo g z = graph_loop f d fo' (add_fnode g n) (z - 1)%Z.
  Proof.
    intros I H. destruct (get_spec d t src W Dec Fds fo z I H) as (n & fo1 & E & I1 & X1 & St & G & _ & _ & Hs).
    assert (Lb := stands_label _ _ _ _ _ St). assert (La1 : later d fo fo1) by (eapply la_get; [apply la_refl|exact E]).
    unfold has_label in H. destruct (fn_parents n) as [[p q]|] eqn:P.
    - destruct (stands_parents d t src W Dec Fds fo1 z n p q I1 St P) as (Hp & Hq & _).
      destruct (parent_step fo1 n fst p I1 ltac:(now rewrite P) Hp) as (fo2 & I2 & X2 & La2 & Hs2 & F2 & R2).
      destruct (parent_step fo2 n snd q I2 ltac:(now rewrite P) (Hs2 _ Hq)) as (fo3 & I3 & X3 & La3 & Hs3 & F3 & R3).
      exists n, fo3. split; [exact I3|]. split; [eapply ext_trans; [exact X1|eapply ext_trans; eauto]|].
      split; [eapply later_trans; [exact La1|eapply later_trans; eauto]|]. split; [exact Lb|]. split; [now apply X3, X2|]. split.
      + intros F. assert (fo1 = fo) by exact (full_get _ _ _ _ F E). subst fo1. assert (fo2 = fo) by exact (F2 F). subst fo2. now apply F3.
      + intros f g. cbn [graph_loop]. destruct (dict_get Z.eqb (fo_cache fo) z); [|congruence]. rewrite E. cbn [bind]. rewrite R2. cbn [bind].
        rewrite R3. cbn [bind]. unfold add_fnode. now rewrite P.
    - exists n, fo1. split; [exact I1|]. split; [exact X1|]. split; [exact La1|]. split; [exact Lb|]. split; [exact G|]. split.
      + intros F. exact (full_get _ _ _ _ F E).
      + intros f g. cbn [graph_loop]. destruct (dict_get Z.eqb (fo_cache fo) z); [|congruence]. rewrite E. cbn [bind].
        unfold graph_parent. rewrite P. cbn [bind]. unfold add_fnode. now rewrite P.
  Qed.

  Lemma graph_neg fo : Inv fo -> full fo -> forall k z, (z <= 0)%Z -> z = (fo_synth fo + Z.of_nat k)%Z ->
    exists ns, (forall fuel g, (k <= fuel)%nat -> graph_loop fuel d fo g z = Ok (fold_left add_fnode ns g, fo)) /\
      map fn_label ns = down z k /\ forall n, In n ns -> zget (fo_cache fo) (fn_label n) = Some (Some n).
  Proof.
    intros I F. induction k as [|k IH]; intros z Z E.
    - exists []. split; [|split; [reflexivity|intros n []]]. intros fuel g _. destruct fuel; cbn [graph_loop];
      change (dict_get Z.eqb (fo_cache fo)) with (zget (fo_cache fo)); rewrite (fv_low _ _ _ I z) by lia; reflexivity.
    - destruct (IH (z - 1)%Z ltac:(lia) ltac:(lia)) as (ns & R & Mp & C).
      assert (H : has_label fo z) by (apply (has_iff d t src W Dec Cnt Fds fo z I); assert (X := len_pos d t src W Dec Cnt Fds); lia).
      destruct (graph_step fo z I H) as (n & fo' & _ & _ & _ & Lb & G & Same & Run). rewrite (Same F) in *. clear Same.
      exists (n :: ns). split; [|split].
      + intros [|fuel] g Hf; [lia|]. rewrite Run, R by lia. reflexivity.
      + cbn [map down]. now rewrite Mp, Lb.
      + intros m [<-|Hn]; [now rewrite Lb|auto].
  Qed.

  Lemma graph_pos k : forall fo, Inv fo -> N.of_nat k < len t ->
    (forall l, N.of_nat k < l -> l < len t -> exists nd, zget (fo_cache fo) (Z.of_N l) = Some (Some nd)) ->
    exists F ns fo', Inv fo' /\ ext (fo_cache fo) (fo_cache fo') /\ later d fo fo' /\ full fo' /\
    (forall fuel g, (F <= fuel)%nat -> graph_loop fuel d fo g (Z.of_nat k) = Ok (fold_left add_fnode ns g, fo')) /\
    (exists m, map fn_label ns = down (Z.of_nat k) m /\ (Z.of_nat k - Z.of_nat m = fo_synth fo')%Z) /\
    forall n, In n ns -> zget (fo_cache fo') (fn_label n) = Some (Some n).
  Proof.
    induction k as [|k IH]; intros fo I L Up.
    - assert (F : full fo).
      { intros z H. apply (has_iff d t src W Dec Cnt Fds fo z I) in H. destruct (Z.ltb_spec z 0) as [Q|Q].
        - destruct (fv_neg _ _ _ I z ltac:(lia)) as (cf & p & lo & hi & G & _). eauto.
        - destruct (Z.eq_dec z 0) as [->|Nz]; [exists root; apply (fv_zero _ _ _ I)|].
          destruct (Up (Z.to_N z) ltac:(lia) ltac:(lia)) as (nd & G). rewrite Z2N.id in G by lia. eauto. }
      destruct (graph_neg fo I F (Z.to_nat (- fo_synth fo)) 0%Z ltac:(lia)) as (ns & R & Mp & C); [assert (X := fv_syn _ _ _ I); lia|].
      exists (Z.to_nat (- fo_synth fo)), ns, fo. split; [exact I|]. split; [apply ext_refl|]. split; [constructor|]. split; [exact F|]. split; [exact R|].
      split; [|exact C]. exists (Z.to_nat (- fo_synth fo)). split; [exact Mp|]. assert (X := fv_syn _ _ _ I). lia.
    - assert (H : has_label fo (Z.of_nat (S k))) by (apply (has_iff d t src W Dec Cnt Fds fo _ I); assert (X := fv_syn _ _ _ I); lia).
      destruct (graph_step fo _ I H) as (n & fo1 & I1 & X1 & La1 & Lb & G & _ & Run).
      destruct (IH fo1 I1 ltac:(lia)) as (F & ns & fo' & I' & X' & La & Fu & R & (m & Mp & Em) & C).
      { intros l A B. destruct (N.eq_dec l (N.of_nat (S k))) as [->|Ne].
        - rewrite nat_N_Z. eauto.
        - destruct (Up l ltac:(lia) B) as (nd & Gl). exists nd. now apply X1. }
      exists (S F), (n :: ns), fo'. split; [exact I'|]. split; [eapply ext_trans; eauto|]. split; [eapply later_trans; eauto|]. split; [exact Fu|].
      split; [|split].
      + intros [|fuel] g Hf; [lia|]. rewrite Run. replace (Z.of_nat (S k) - 1)%Z with (Z.of_nat k) by lia. now rewrite R by lia.
      + exists (S m). cbn [map down]. rewrite Lb. replace (Z.of_nat (S k) - 1)%Z with (Z.of_nat k) by lia. rewrite Mp. split; [reflexivity|lia].
      + intros m' [<-|Hn]; [rewrite Lb; now apply X'|auto].
  Qed.

  Definition parent_in (fo : forest) (p z : Z) : Prop := exists n, zget (fo_cache fo) z = Some (Some n) /\ parent_of n p.

  Lemma to_graph_spec fo : Inv fo -> exists F g fo', Inv fo' /\ later d fo fo' /\ full fo' /\
    (forall fuel, (F <= fuel)%nat -> to_graph fuel d fo = Ok (g, fo')) /\ wf_graph g /\
    (forall z, In z (g_nodes g) <-> has_label fo' z) /\ (forall p z, In (p, z) (g_edges g) <-> parent_in fo' p z).
  Proof.
    intros I. assert (L := len_pos d t src W Dec Cnt Fds).
    destruct (graph_pos (N.to_nat (len t - 1)) fo I ltac:(lia)) as (F & ns & fo' & I' & _ & La & Fu & R & (m & Mp & Em) & C); [intros; lia|].
    assert (Hl : forall z, In z (map fn_label ns) <-> has_label fo' z).
    { intros z. rewrite Mp, in_down, (has_iff d t src W Dec Cnt Fds fo' z I'). lia. }
    assert (W0 : wf_graph graph_new) by (split; [constructor|split; [constructor|intros u v []]]).
    destruct (fold_fnodes ns graph_new W0) as (Wg & Nd & Ed).
    assert (Par : forall n p, In n ns -> parent_of n p -> has_label fo' p).
    { intros n p Hn (a & b & E & Q). assert (G := C n Hn). 
      destruct (get_inv d t src W Dec Fds fo' (fn_label n) n fo' I' (get_cached d fo' _ n G)) as (_ & _ & _ & St & _).
      destruct (stands_parents d t src W Dec Fds fo' _ n a b I' St E) as (Ha & Hb & _). destruct Q as [->| ->]; assumption. }
    exists F, (fold_left add_fnode ns graph_new), fo'. split; [exact I'|]. split; [exact La|]. split; [exact Fu|]. split; [|split; [exact Wg|split]].
    - intros fuel Hf. unfold to_graph. rewrite (max_key_finv d t src W Dec Cnt Fds fo I).
      replace (Z.of_N (len t) - 1)%Z with (Z.of_nat (N.to_nat (len t - 1))) by lia. now apply R.
    - intros z. rewrite Nd. cbn [graph_new g_nodes In]. split.
      + intros [[]|(n & Hn & [->|P])]; [apply Hl, in_map, Hn|exact (Par n z Hn P)].
      + intros H. right. apply Hl in H. apply in_map_iff in H as (n & <- & Hn). exists n. auto.
    - intros p z. rewrite Ed. cbn [graph_new g_edges In fst snd]. split.
      + intros [[]|(n & Hn & -> & P)]. exists n. auto.
      + intros (n & G & P). right. assert (H : has_label fo' z).
        { unfold has_label. change (dict_get Z.eqb (fo_cache fo') z) with (zget (fo_cache fo') z). rewrite G. discriminate. }
        apply Hl in H. apply in_map_iff in H as (n' & <- & Hn). assert (G' := C n' Hn). rewrite G in G'. inversion G'; subst n'. exists n. auto.
  Qed.

  (** ** Paths are walks *)
  Section Final.
    Variables (fo : forest) (g : digraph).
    Hypotheses (I : Inv fo) (Fu : full fo).
    Hypothesis Ed : forall p z, In (p, z) (g_edges g) <-> parent_in fo p z.

    Lemma final_get z n : zget (fo_cache fo) z = Some (Some n) -> fn_label n = z.
    Proof.
      intros G. destruct (get_inv d t src W Dec Fds fo z n fo I (get_cached d fo z n G)) as (_ & _ & _ & St & _). exact (stands_label _ _ _ _ _ St).
    Qed.
    Lemma edge_has p z : In (p, z) (g_edges g) -> exists n, zget (fo_cache fo) p = Some (Some n).
    Proof.
      intros H. apply Ed in H as (n & G & a & b & E & Q).
      destruct (get_inv d t src W Dec Fds fo z n fo I (get_cached d fo z n G)) as (_ & _ & _ & St & _).
      destruct (stands_parents d t src W Dec Fds fo z n a b I St E) as (Ha & Hb & _). apply Fu. destruct Q as [->| ->]; assumption.
    Qed.

    Lemma path_snoc es a b c : path es a b -> In (b, c) es -> path es a c.
    Proof. induction 1 as [a b E|a b x E P IH]; intros H; [eapply pa_more; [exact E|now constructor]|eapply pa_more; eauto]. Qed.

    Lemma walk_path fo0 z fo' n : walk d fo0 z fo' n -> fo0 = fo -> fo' = fo /\ (fn_label n = z \/ path (g_edges g) (fn_label n) z).
    Proof.
      induction 1 as [fo0 z fo' n E|fo0 z n fo1 p q y fo2 n' E P Y Wk IH]; intros ->.
      - assert (fo' = fo) by exact (full_get _ _ _ _ Fu E). subst fo'. split; [reflexivity|]. left. apply final_get. destruct (get_inv d t src W Dec Fds fo z n fo I E) as (_ & _ & _ & _ & G & _). exact G.
      - assert (fo1 = fo) by exact (full_get _ _ _ _ Fu E). subst fo1. destruct (IH eq_refl) as [-> H]. split; [reflexivity|]. right.
        destruct (get_inv d t src W Dec Fds fo z n fo I E) as (_ & _ & _ & _ & G & _).
        assert (J : In (y, z) (g_edges g)) by (apply Ed; exists n; split; [exact G|exists p, q; auto]).
        destruct H as [->|H]; [now constructor|eapply path_snoc; eauto].
    Qed.

    Lemma path_walk a z : path (g_edges g) a z -> forall n, zget (fo_cache fo) a = Some (Some n) -> forall m, walk d fo a fo m -> walk d fo z fo m.
    Proof.
      assert (Up : forall y z, In (y, z) (g_edges g) -> forall m, walk d fo y fo m -> walk d fo z fo m).
      { intros y w E m Wk. apply Ed in E as (nz & Gz & p & q & P & Q). eapply wk_up; [exact (get_cached d fo w nz Gz)|exact P|exact Q|exact Wk]. }
      induction 1 as [a z E|a b c E P IH]; intros n G m Wk; [now apply (Up a)|].
      destruct P as [b c E'|b x c E' P].
      - now apply (Up b), (Up a).
      - destruct (edge_has _ _ E') as (nb & Gb). exact (IH nb Gb m (Up a b E m Wk)).
    Qed.

    Lemma path_acyclic z : ~ path (g_edges g) z z.
    Proof.
      intros P. assert (exists p, In (p, z) (g_edges g) /\ (p = z \/ path (g_edges g) z p)) as (p & E & Q).
      { assert (forall a b, path (g_edges g) a b -> exists p, In (p, b) (g_edges g) /\ (p = a \/ path (g_edges g) a p)) as K; [|exact (K z z P)].
        induction 1 as [a b E|a b c E P' (p & Ep & Q)]; [eauto|]. exists p. split; [exact Ep|]. right.
        destruct Q as [->|Q]; [now constructor|eapply pa_more; eauto]. }
      destruct (proj1 (Ed p z) E) as (n & G & a & b & Pn & Y).
      assert (Gn := get_cached d fo z n G).
      assert (Wk : walk d fo p fo n).
      { destruct Q as [->|Q]; [now apply wk_here|]. apply (path_walk z p Q n G). now apply wk_here. }
      apply (walk_acyclic d t src W Dec Fds fo z n fo a b p fo n I Gn Pn Y Wk). now apply final_get.
    Qed.
  End Final.
End Graph.

(** ** The drawing *)
Lemma insert_perm x l : Permutation (insert_label x l) (x :: l).
Proof.
  induction l as [|y r IH]; cbn [insert_label]; [constructor; constructor|].
  destruct (x <=? y)%Z; [apply Permutation_refl|]. eapply Permutation_trans; [apply perm_skip, IH|apply perm_swap].
Qed.
Lemma sorted_perm l : Permutation (sorted_labels l) l.
Proof.
  induction l as [|x l IH]; [constructor|]. cbn [sorted_labels fold_right]. fold (sorted_labels l).
  eapply Permutation_trans; [apply insert_perm|now constructor].
Qed.

Lemma py_str_numeral z : numeral (py_str z) z.
Proof.
  unfold py_str. cbv zeta. set (n := Z.abs_N z).
  assert (L : n < 10 ^ N.of_nat (S (N.to_nat (N.log2 n)))).
  { rewrite Nat2N.inj_succ, N2Nat.id. apply N.lt_le_trans with (2 ^ N.succ (N.log2 n)); [|apply N.pow_le_mono_l; lia].
    destruct (N.eq_dec n 0) as [->|Nz]; [reflexivity|apply N.log2_spec; lia]. }
  destruct (digits_spec _ n [] L ltac:(lia)) as (ds & E & D & _ & _). rewrite E, app_nil_r. exists n, ds. split; [exact D|].
  destruct (Z.ltb_spec z 0); [right|left]; cbn [app]; repeat split; try assumption; subst n; lia.
Qed.
Lemma numeral_fun t z z' : numeral t z -> numeral t z' -> z = z'.
Proof.
  intros (n & ds & (F & _ & _ & V) & H) (n' & ds' & (F' & _ & _ & V') & H').
  destruct H as [(P & -> & ->)|(P & -> & ->)], H' as [(P' & E & ->)|(P' & E & ->)].
  - subst. reflexivity.
  - exfalso. subst ds. inversion F as [|? ? Q]; subst. unfold digit in Q. lia.
  - exfalso. subst ds'. inversion F' as [|? ? Q]; subst. unfold digit in Q. lia.
  - inversion E; subst. reflexivity.
Qed.
Lemma py_str_inj z z' : py_str z = py_str z' -> z = z'.
Proof. intros E. apply (numeral_fun (py_str z)); [apply py_str_numeral|rewrite E; apply py_str_numeral]. Qed.

Lemma roots_in g v : In v (graph_roots g) <-> In v (g_nodes g) /\ no_incoming (g_edges g) v.
Proof.
  unfold graph_roots, no_incoming. rewrite filter_In, negb_true_iff. split; intros [H K]; split; auto.
  - intros a J. assert (X : existsb (fun e => Z.eqb (snd e) v) (g_edges g) = true); [|congruence].
    apply existsb_exists. exists (a, v). split; [exact J|apply Z.eqb_refl].
  - destruct (existsb _ _) eqn:E; [|reflexivity]. apply existsb_exists in E as ([a b] & J & E). apply Z.eqb_eq in E. cbn [snd] in E. subst. now apply K in J.
Qed.
Lemma edges_in g : wf_graph g -> forall e, In e (graph_edges g) <-> In e (g_edges g).
Proof.
  intros (_ & _ & J) [u v]. unfold graph_edges. rewrite in_flat_map. split.
  - intros (x & _ & H). now apply filter_In in H.
  - intros H. exists u. split; [exact (proj1 (J u v H))|]. apply filter_In. split; [exact H|apply Z.eqb_refl].
Qed.
Lemma nodup_filter {A} (f : A -> bool) l : NoDup l -> NoDup (filter f l).
Proof.
  induction 1 as [|x l H N IH]; cbn [filter]; [constructor|]. destruct (f x); [|exact IH]. constructor; [|exact IH]. intros J. now apply filter_In in J.
Qed.
Lemma edges_nodup g : wf_graph g -> NoDup (graph_edges g).
Proof.
  intros (N & E & _). unfold graph_edges. induction N as [|u l H N IH]; cbn [flat_map]; [constructor|].
  assert (K : forall (A : Type) (a b : list A), NoDup a -> NoDup b -> (forall x, In x a -> ~ In x b) -> NoDup (a ++ b)).
  { clear. intros A a b. induction a as [|x a IH]; intros Na Nb D; [exact Nb|]. inversion Na; subst. cbn [app]. constructor.
    - rewrite in_app_iff. intros [Q|Q]; [contradiction|]. exact (D x (or_introl eq_refl) Q).
    - apply IH; auto. intros y Hy. apply D. now right. }
  apply K; [now apply nodup_filter|exact IH|]. intros [a b] J. apply filter_In in J as [_ J]. apply Z.eqb_eq in J. cbn [fst] in J. subst a.
  rewrite in_flat_map. intros (x & Hx & Q). apply filter_In in Q as [_ Q]. apply Z.eqb_eq in Q. cbn [fst] in Q. subst x. contradiction.
Qed.

Lemma flat_map_map {A B C} (f : A -> B) (h : B -> list C) l : flat_map h (map f l) = flat_map (fun x => h (f x)) l.
Proof. induction l as [|x l IH]; cbn [map flat_map]; [reflexivity|now rewrite IH]. Qed.
Lemma flat_map_one {A B} (f : A -> B) l : flat_map (fun x => [f x]) l = map f l.
Proof. induction l as [|x l IH]; cbn [map flat_map app]; [reflexivity|now rewrite IH]. Qed.
Lemma flat_map_none {A B} (l : list A) : flat_map (fun _ : A => @nil B) l = [].
Proof. induction l; [reflexivity|assumption]. Qed.

Definition drawn_roots (g : digraph) := filter (fun v => zmem v (graph_roots g)) (sorted_labels (g_nodes g)).
Definition drawn_inner (g : digraph) := filter (fun v => negb (zmem v (graph_roots g))) (sorted_labels (g_nodes g)).

Lemma root_edges_nodes na l : flat_map (drawn_nodes na) (root_edges l) = [].
Proof.
  induction l as [|a l IH]; [reflexivity|]. destruct l as [|b l]; [reflexivity|]. cbn [root_edges flat_map drawn_nodes app]. exact IH.
Qed.
Fixpoint consecutive (l : list Z) : list (Z * Z) :=
  match l with a :: (b :: _) as r => (a, b) :: consecutive r | _ => [] end.
Lemma root_edges_edges ea l : flat_map (drawn_edges ea) (root_edges l) = map (fun e => (py_str (fst e), py_str (snd e), attr w_style ea)) (consecutive l).
Proof.
  induction l as [|a l IH]; [reflexivity|]. destruct l as [|b l]; [reflexivity|].
  change (root_edges (a :: b :: l)) with (DotEdge (py_str a) (py_str b) :: root_edges (b :: l)).
  change (consecutive (a :: b :: l)) with ((a, b) :: consecutive (b :: l)). cbn [flat_map map drawn_edges app fst snd]. now rewrite IH.
Qed.
Lemma consecutive_in l a b : In (a, b) (consecutive l) -> In a l /\ In b l.
Proof.
  induction l as [|x l IH]; [intros []|]. destruct l as [|y l]; [intros []|].
  change (consecutive (x :: y :: l)) with ((x, y) :: consecutive (y :: l)). intros [E|H].
  - inversion E; subst. split; [now left|right; now left].
  - destruct (IH H). split; now right.
Qed.

Lemma picture_nodes_eq g : picture_nodes (to_dot g) =
  map (fun v => (py_str v, py_str v, Some w_square)) (drawn_roots g) ++ map (fun v => (py_str v, py_str v, None)) (drawn_inner g).
Proof.
  unfold picture_nodes, to_dot. cbv zeta. fold (drawn_roots g). fold (drawn_inner g). rewrite flat_map_app. cbn [flat_map drawn_nodes].
  rewrite !flat_map_app, root_edges_nodes, !flat_map_map. cbn [drawn_nodes]. rewrite !flat_map_one, flat_map_none, !app_nil_r. reflexivity.
Qed.
Lemma picture_edges_eq g : picture_edges (to_dot g) =
  map (fun e => (py_str (fst e), py_str (snd e), Some w_invis)) (consecutive (drawn_roots g)) ++
  map (fun e => (py_str (fst e), py_str (snd e), None)) (graph_edges g).
Proof.
  unfold picture_edges, to_dot. cbv zeta. fold (drawn_roots g). fold (drawn_inner g). rewrite flat_map_app. cbn [flat_map drawn_edges].
  rewrite !flat_map_app, root_edges_edges, !flat_map_map. cbn [drawn_edges]. rewrite !flat_map_one, !flat_map_none, !app_nil_r. reflexivity.
Qed.
Lemma drawn_split g v : (In v (drawn_roots g) <-> In v (graph_roots g)) /\ (In v (drawn_inner g) <-> In v (g_nodes g) /\ ~ In v (graph_roots g)).
Proof.
  unfold drawn_roots, drawn_inner. rewrite !filter_In, negb_true_iff, zmem_iff.
  assert (P : In v (sorted_labels (g_nodes g)) <-> In v (g_nodes g)).
  { split; apply Permutation_in; [apply sorted_perm|apply Permutation_sym, sorted_perm]. }
  rewrite P. split.
  - split; [intros [_ H]; exact H|]. intros H. split; [now apply roots_in in H|exact H].
  - rewrite <- (zmem_iff v (graph_roots g)). destruct (zmem v (graph_roots g)); intuition congruence.
Qed.

(** ** The order of the roots *)
From Coq Require Import Sorted.
Lemma insert_sorted x l : StronglySorted Z.le l -> StronglySorted Z.le (insert_label x l).
Proof.
  induction 1 as [|y r S IH F]; cbn [insert_label]; [repeat constructor|]. rewrite Forall_forall in F. destruct (Z.leb_spec x y).
  - constructor; [constructor; [exact S|now apply Forall_forall]|]. apply Forall_forall. intros z [<-|Hz]; [assumption|]. specialize (F z Hz). lia.
  - constructor; [exact IH|]. apply Forall_forall. intros z Hz. apply (Permutation_in z (insert_perm x r)) in Hz as [<-|Hz]; [lia|auto].
Qed.
Lemma sorted_sorted l : StronglySorted Z.le (sorted_labels l).
Proof. induction l as [|x l IH]; cbn; [constructor|]. now apply insert_sorted. Qed.
Lemma filter_sorted (f : Z -> bool) l : StronglySorted Z.le l -> StronglySorted Z.le (filter f l).
Proof.
  induction 1 as [|y r S IH F]; cbn [filter]; [constructor|]. destruct (f y); [|exact IH]. constructor; [exact IH|].
  rewrite Forall_forall in *. intros z Hz. apply filter_In in Hz as [Hz _]. auto.
Qed.
Lemma consecutive_iff l : StronglySorted Z.le l -> NoDup l -> forall a b,
  In (a, b) (consecutive l) <-> In a l /\ In b l /\ (a < b)%Z /\ forall c, In c l -> (c <= a \/ b <= c)%Z.
Proof.
  induction 1 as [|x r S IH F]; intros N a b; [split; [intros []|intros ([] & _)]|]. inversion N as [|? ? Nx Nr]; subst.
  rewrite Forall_forall in F. destruct r as [|y r].
  - split; [intros []|]. intros ([<-|[]] & [<-|[]] & L & _). lia.
  - change (consecutive (x :: y :: r)) with ((x, y) :: consecutive (y :: r)).
    assert (Lt : forall z, In z (y :: r) -> (x < z)%Z). { intros z Hz. assert (z <> x) by congruence. specialize (F z Hz). lia. }
    inversion S as [|? ? S' F']; subst. rewrite Forall_forall in F'.
    split.
    + intros [E|H].
      * inversion E; subst a b. split; [now left|]. split; [right; now left|]. split; [apply Lt; now left|]. intros c [<-|[<-|Hc]]; [lia|lia|]. specialize (F' c Hc). lia.
      * apply (IH Nr) in H as (A & B & L & M). split; [now right|]. split; [now right|]. split; [exact L|]. intros c [<-|Hc]; [|auto]. specialize (Lt a A). lia.
    + intros (A & B & L & M). destruct A as [<-|A].
      * left. destruct B as [<-|B]; [lia|]. f_equal. assert (Q := M y ltac:(right; now left)). assert (Q2 := Lt y ltac:(now left)).
        destruct B as [<-|B]; [reflexivity|]. specialize (F' b B). lia.
      * right. apply (IH Nr). split; [exact A|]. destruct B as [<-|B]; [specialize (Lt a A); lia|]. split; [exact B|]. split; [exact L|]. intros c Hc. apply M. now right.
Qed.
Lemma drawn_roots_ok g : wf_graph g -> StronglySorted Z.le (drawn_roots g) /\ NoDup (drawn_roots g) /\ NoDup (drawn_inner g).
Proof.
  intros (N & _). assert (Ns : NoDup (sorted_labels (g_nodes g))) by (apply (Permutation_NoDup (Permutation_sym (sorted_perm _)) N)).
  split; [apply filter_sorted, sorted_sorted|]. split; now apply nodup_filter.
Qed.
