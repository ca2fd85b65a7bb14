(** C95: the exported taint forest.  Runs and their plain meaning are in S_Api, forests in
    S_Forest, paths and drawings in S_Graph. *)
From Coq Require Import NArith ZArith List Bool Lia Sorted.
From Verif Require Import M_Base M_Encoding M_Labels M_PyNode M_PySections M_PyFile M_PyAnalysis M_OutputFile M_Api M_PyGraph S_Provenance S_Labels S_Strings S_OutputFile
  S_Api S_PyAnalysis S_History S_Forest S_Runtime S_Graph P_Base P_Labels P_PyNode P_History P_ApiMem P_Api P_ApiFile P_PyAnalysis P_ApiRun P_ApiDemo P_Forest
  T_Api T_Forest P_PyGraph.
Import ListNotations.
Open Scope N_scope.

(** [g] is the graph to_graph makes of a forest in state [fo]; it ends up in state [fo']. *)
Definition exported (d : tdfile) (fo : forest) (g : digraph) (fo' : forest) : Prop :=
  exists fuel, to_graph fuel d fo = Ok (g, fo').

(** The forest has a node for [z], and [p] is one of its two parents. *)
Definition is_parent (d : tdfile) (fo : forest) (p z : Z) : Prop :=
  exists n a b fo1, get_node d fo z = Ok (n, fo1) /\ fn_parents n = Some (a, b) /\ (p = a \/ p = b).

Lemma loop_mono d : forall fuel fo g z r, graph_loop fuel d fo g z = Ok r -> forall fuel', (fuel <= fuel')%nat -> graph_loop fuel' d fo g z = Ok r.
Proof.
  induction fuel as [|f IH]; intros fo g z r E fuel' L; (destruct fuel' as [|f']; [|]); cbn [graph_loop] in *;
    destruct (dict_get Z.eqb (fo_cache fo) z); try lia; try exact E; try discriminate E.
  destruct (get_node d fo z) as [[n fo1]| | |]; cbn [bind] in *; try discriminate E.
  destruct (graph_parent d fo1 _ n fst) as [[g2 fo2]| | |]; cbn [bind] in *; try discriminate E.
  destruct (graph_parent d fo2 _ n snd) as [[g3 fo3]| | |]; cbn [bind] in *; try discriminate E.
  apply (IH _ _ _ _ E). lia.
Qed.

(** What is known of an facts. intros fo Fr.
  assert (I := run_finv d (r_tab r) (src_of d) W (op_dec _ _ _ _ _ _ _ O) (op_count _ _ _ _ _ _ _ O) Fds fo Fr). *)
Record export_facts (d : tdfile) (t : table) (src : N -> py_input) (fo : forest) (g : digraph) (fo' : forest) : Prop := {
  ef_inv : finv t src fo'; ef_later : later d fo fo'; ef_full : full fo'; ef_wf : wf_graph g;
  ef_nodes : forall z, In z (g_nodes g) <-> has_label fo' z;
  ef_edges : forall p z, In (p, z) (g_edges g) <-> parent_in fo' p z }.

Lemma export_facts_hold d t src : wf_table t -> (forall l tn, view t l = Some tn -> td_decode_node d l = Ok (node_of tn)) ->
  td_label_count d = Ok (len t) ->
  (forall l cf i o, view t l = Some (TSource cf i o) -> exists h, td_fd_header d i = Ok h /\ input_of h = src i) ->
  forall fo, forest_run d fo -> forall g fo', exported d fo g fo' -> export_facts d t src fo g fo'.
Proof.
  intros W Dec Cnt Fds fo Fr g fo' (fuel & X). assert (I := run_finv d t src W Dec Cnt Fds fo Fr).
  destruct (to_graph_spec d t src W Dec Cnt Fds fo I) as (F & g1 & fo1 & I' & La & Fu & Run & Wg & Nd & Ed).
  assert (Y := loop_mono d fuel _ _ _ _ X (Nat.max F fuel) ltac:(lia)). assert (Z := Run (Nat.max F fuel) ltac:(lia)). unfold to_graph in Y, Z. rewrite Y in Z.
  apply Ok_inj in Z. inversion Z; subst g1 fo1. now constructor.
Qed.

Lemma forest_run_later d fo fo' : forest_run d fo -> later d fo fo' -> forest_run d fo'.
Proof. intros R L. induction L as [fo|fo fo1 z n fo2 L IH E]; [exact R|]. exact (fr_get _ _ _ _ _ (IH R) E). Qed.

(** ** The graph *)
(** Exporting works and ends, whatever was asked of the forest before. *)
Theorem C95_exports : forall base h r s paths fnames d, opened_trace base h r s paths fnames d ->
  forall fo, forest_run d fo -> exists g fo' fuel0, forall fuel, (fuel0 <= fuel)%nat -> to_graph fuel d fo = Ok (g, fo').
Proof.
  facts. rename g into gh. intros fo Fr.
  assert (I := run_finv d (r_tab r) (src_of d) W (op_dec _ _ _ _ _ _ _ O) (op_count _ _ _ _ _ _ _ O) Fds fo Fr). destruct (to_graph_spec d (r_tab r) (src_of d) W (op_dec _ _ _ _ _ _ _ O) (op_count _ _ _ _ _ _ _ O) Fds fo I) as (F & g1 & fo1 & _ & _ & _ & Run & _).
  exists g1, fo1, F. exact Run.
Qed.

(** The nodes of the graph are the labels of the forest, its edges lead from the parents of a
    label to it; neither is listed twice. *)
Theorem C95_graph : forall base h r s paths fnames d, opened_trace base h r s paths fnames d ->
  forall fo, forest_run d fo -> forall g fo', exported d fo g fo' ->
  later d fo fo' /\ NoDup (g_nodes g) /\ NoDup (graph_edges g) /\
  (forall z, In z (g_nodes g) <-> has_label fo' z) /\
  (forall l, In (Z.of_N l) (g_nodes g) <-> l = 0 \/ known s l) /\
  (forall p z, In (p, z) (graph_edges g) <-> is_parent d fo' p z).
Proof.
  intros base h r s paths fnames d Op. assert (Lab := C33_labels base h r s paths fnames d Op). intros fo Fr. destruct Op as (M & R & T1 & T2 & D).
  destruct (forest_facts base h r s paths fnames M R T1 T2) as (gh & d' & bits & A & D' & O & W & Fds & Src). rewrite D in D'. apply Ok_inj in D'. subst d'.
  assert (I := run_finv d (r_tab r) (src_of d) W (op_dec _ _ _ _ _ _ _ O) (op_count _ _ _ _ _ _ _ O) Fds fo Fr). intros g fo' X. assert (Ef := export_facts_hold d (r_tab r) (src_of d) W (op_dec _ _ _ _ _ _ _ O) (op_count _ _ _ _ _ _ _ O) Fds fo Fr g fo' X).
  split; [apply Ef|]. split; [apply Ef|]. split; [apply edges_nodup, Ef|]. split; [apply Ef|]. split.
  - intros l. rewrite (ef_nodes _ _ _ _ _ _ Ef). apply (Lab fo'). exact (forest_run_later _ _ _ Fr (ef_later _ _ _ _ _ _ Ef)).
  - intros p z. rewrite (edges_in g (ef_wf _ _ _ _ _ _ Ef)), (ef_edges _ _ _ _ _ _ Ef). split.
    + intros (n & G & a & b & E & Q). exists n, a, b, fo'. split; [exact (get_cached d fo' z n G)|auto].
    + intros (n & a & b & fo1 & G & E & Q). exists n. split; [|exists a, b; auto].
      destruct (get_inv d (r_tab r) (src_of d) W (op_dec _ _ _ _ _ _ _ O) Fds fo' z n fo1 (ef_inv _ _ _ _ _ _ Ef) G) as (_ & _ & _ & _ & Gz & _).
      assert (fo1 = fo') by exact (full_get d _ _ _ _ (ef_full _ _ _ _ _ _ Ef) G). now subst fo1.
Qed.

(** No label is an ancestor of itself. *)
Theorem C95_acyclic : forall base h r s paths fnames d, opened_trace base h r s paths fnames d ->
  forall fo, forest_run d fo -> forall g fo', exported d fo g fo' -> forall z, ~ path (graph_edges g) z z.
Proof.
  facts. rename g into gh. intros fo Fr.
  assert (I := run_finv d (r_tab r) (src_of d) W (op_dec _ _ _ _ _ _ _ O) (op_count _ _ _ _ _ _ _ O) Fds fo Fr). intros g fo' X. assert (Ef := export_facts_hold d (r_tab r) (src_of d) W (op_dec _ _ _ _ _ _ _ O) (op_count _ _ _ _ _ _ _ O) Fds fo Fr g fo' X). intros z P.
  apply (path_acyclic d (r_tab r) (src_of d) W (op_dec _ _ _ _ _ _ _ O) Fds fo' g (ef_inv _ _ _ _ _ _ Ef) (ef_full _ _ _ _ _ _ Ef) (ef_edges _ _ _ _ _ _ Ef) z).
  assert (Pa : forall a b, path (graph_edges g) a b -> path (g_edges g) a b); [|exact (Pa z z P)].
  induction 1 as [a b E|a b c E P' IH]; apply (edges_in g (ef_wf _ _ _ _ _ _ Ef)) in E; [now constructor|exact (pa_more _ a b c E IH)].
Qed.

(** The roots, the nodes nothing points to, are 0 and the labels of single input bytes. *)
Theorem C95_roots : forall base h r s paths fnames d, opened_trace base h r s paths fnames d ->
  forall fo, forest_run d fo -> forall g fo', exported d fo g fo' ->
  (forall z, In z (graph_roots g) <-> In z (g_nodes g) /\ no_incoming (graph_edges g) z) /\
  (forall z, In z (graph_roots g) <-> z = 0%Z \/ exists l i o cf, z = Z.of_N l /\ l <> 0 /\ known s l /\ td_decode_node d l = Ok (PySource i o cf)).
Proof.
  intros base h r s paths fnames d Op. assert (Lab := C33_labels base h r s paths fnames d Op). intros fo Fr. destruct Op as (M & R & T1 & T2 & D).
  destruct (forest_facts base h r s paths fnames M R T1 T2) as (gh & d' & bits & A & D' & O & W & Fds & Src). rewrite D in D'. apply Ok_inj in D'. subst d'.
  assert (I := run_finv d (r_tab r) (src_of d) W (op_dec _ _ _ _ _ _ _ O) (op_count _ _ _ _ _ _ _ O) Fds fo Fr). intros g fo' X. assert (Ef := export_facts_hold d (r_tab r) (src_of d) W (op_dec _ _ _ _ _ _ _ O) (op_count _ _ _ _ _ _ _ O) Fds fo Fr g fo' X).
  assert (Ed := edges_in g (ef_wf _ _ _ _ _ _ Ef)). assert (Fr' := forest_run_later _ _ _ Fr (ef_later _ _ _ _ _ _ Ef)).
  assert (Rt : forall z, In z (graph_roots g) <-> In z (g_nodes g) /\ no_incoming (graph_edges g) z).
  { intros z. rewrite roots_in. unfold no_incoming. split; intros [H K]; (split; [exact H|]); intros a J; apply (K a); now apply Ed. }
  split; [exact Rt|]. intros z. rewrite roots_in, (ef_nodes _ _ _ _ _ _ Ef). split.
  - intros [H K]. destruct (Z.eq_dec z 0) as [->|Nz]; [now left|right].
    destruct (ef_full _ _ _ _ _ _ Ef z H) as (n & G).
    destruct (get_inv d (r_tab r) (src_of d) W (op_dec _ _ _ _ _ _ _ O) Fds fo' z n fo' (ef_inv _ _ _ _ _ _ Ef) (get_cached d fo' z n G)) as (_ & _ & _ & St & _).
    destruct (fn_parents n) as [[a b]|] eqn:P.
    + exfalso. apply (K a). apply (ef_edges _ _ _ _ _ _ Ef). exists n. split; [exact G|]. exists a, b. auto.
    + destruct (stands_inner _ _ _ _ _ St Nz P) as (l & cf & i & o & -> & V & _). exists l, i, o, cf.
      split; [reflexivity|]. split; [lia|]. split; [|exact (op_dec _ _ _ _ _ _ _ O _ _ V)].
      destruct (proj1 (proj2 (Lab fo' Fr') l) H); [lia|assumption].
  - intros H. assert (Hz : has_label fo' z).
    { destruct H as [->|(l & i & o & cf & -> & _ & K & _)]; [apply (proj2 (Lab fo' Fr') 0); now left|apply (proj2 (Lab fo' Fr') l); now right]. }
    split; [exact Hz|]. intros a J. apply (ef_edges _ _ _ _ _ _ Ef) in J as (n & G & p & q & P & _).
    destruct (get_inv d (r_tab r) (src_of d) W (op_dec _ _ _ _ _ _ _ O) Fds fo' z n fo' (ef_inv _ _ _ _ _ _ Ef) (get_cached d fo' z n G)) as (_ & _ & _ & St & _).
    destruct H as [->|(l & i & o & cf & -> & Nz & K & Dn)].
    + destruct St as [[_ ->]|[(l & El & U & _)|(Z & _)]]; [discriminate P|destruct U; lia|lia].
    + destruct St as [[Z _]|[(l' & El & U & Hg)|(Z & _)]]; [lia| |lia]. apply N2Z.inj in El. subst l'.
      destruct (decode_view _ _ _ _ _ _ _ _ _ _ A O Dn) as [[-> _]|(tn & V & E)]; [congruence|].
      unfold good in Hg. rewrite V in Hg. destruct tn as [cf' i' o'|cf' f la|cf' lo hi]; try discriminate E. subst n. discriminate P.
Qed.

(** The input bytes a label stands for are those of the roots with a path to it, or its own. *)
Theorem C95_bytes : forall base h r s paths fnames d, opened_trace base h r s paths fnames d ->
  forall fo, forest_run d fo -> forall g fo', exported d fo g fo' ->
  forall l, known s l -> forall x o,
    (exists k n fo1, (k = Z.of_N l \/ path (graph_edges g) k (Z.of_N l)) /\ In k (graph_roots g) /\
       get_node d fo' k = Ok (n, fo1) /\ py_file_offset d n = Ok (x, o)) <->
    (exists i, In (i, o) (a_lab s l) /\ input_at s paths i x).
Proof.
  intros base h r s paths fnames d Op fo Fr g fo' X l K x o.
  assert (Rts := C95_roots base h r s paths fnames d Op fo Fr g fo' X).
  assert (Lvs := fun Fr' => C33_leaves base h r s paths fnames d Op fo' l Fr' K x o).
  destruct Op as (M & R & T1 & T2 & D).
  destruct (forest_facts base h r s paths fnames M R T1 T2) as (gh & d' & bits & A & D' & O & W & Fds & Src). rewrite D in D'. apply Ok_inj in D'. subst d'.
  assert (I := run_finv d (r_tab r) (src_of d) W (op_dec _ _ _ _ _ _ _ O) (op_count _ _ _ _ _ _ _ O) Fds fo Fr). assert (Ef := export_facts_hold d (r_tab r) (src_of d) W (op_dec _ _ _ _ _ _ _ O) (op_count _ _ _ _ _ _ _ O) Fds fo Fr g fo' X).
  assert (Fr' := forest_run_later _ _ _ Fr (ef_later _ _ _ _ _ _ Ef)). rewrite <- (Lvs Fr').
  assert (Ed := edges_in g (ef_wf _ _ _ _ _ _ Ef)).
  assert (Pa : forall a b, path (graph_edges g) a b <-> path (g_edges g) a b).
  { intros a b. split; induction 1 as [a b E|a b c E P IH]; apply Ed in E; [now constructor|exact (pa_more _ a b c E IH)|now constructor|exact (pa_more _ a b c E IH)]. }
  split.
  - intros (k & n & fo1 & Q & _ & G & Of). exists fo', n. split; [|exact Of].
    assert (fo1 = fo') by exact (full_get d _ _ _ _ (ef_full _ _ _ _ _ _ Ef) G). subst fo1.
    assert (Wk : walk d fo' k fo' n) by now apply wk_here. destruct Q as [->|Q]; [exact Wk|]. apply Pa in Q.
    destruct (get_inv d (r_tab r) (src_of d) W (op_dec _ _ _ _ _ _ _ O) Fds fo' k n fo' (ef_inv _ _ _ _ _ _ Ef) G) as (_ & _ & _ & _ & Gz & _).
    exact (path_walk d (r_tab r) (src_of d) W (op_dec _ _ _ _ _ _ _ O) Fds fo' g (ef_inv _ _ _ _ _ _ Ef) (ef_full _ _ _ _ _ _ Ef) (ef_edges _ _ _ _ _ _ Ef) k _ Q n Gz n Wk).
  - intros (fo2 & n & Wk & Of).
    destruct (walk_path d (r_tab r) (src_of d) W (op_dec _ _ _ _ _ _ _ O) Fds fo' g (ef_inv _ _ _ _ _ _ Ef) (ef_full _ _ _ _ _ _ Ef) (ef_edges _ _ _ _ _ _ Ef) _ _ _ _ Wk eq_refl) as [-> Q].
    destruct (walk_end d (r_tab r) (src_of d) W (op_dec _ _ _ _ _ _ _ O) Fds _ _ _ _ Wk (ef_inv _ _ _ _ _ _ Ef)) as (fo1 & y & I1 & E1).
    destruct (offset_leaf d (r_tab r) (src_of d) W (op_dec _ _ _ _ _ _ _ O) Fds _ _ _ _ _ _ I1 E1 Of) as (i & (l' & cf & U & V & En) & _).
    assert (G : exists nn, zget (fo_cache fo') (fn_label n) = Some (Some nn)).
    { apply (ef_full _ _ _ _ _ _ Ef). rewrite En. cbn [fn_label]. exact (real_label (r_tab r) (src_of d) fo' l' (ef_inv _ _ _ _ _ _ Ef) U). }
    destruct G as (nn & G).
    destruct (get_inv d (r_tab r) (src_of d) W (op_dec _ _ _ _ _ _ _ O) Fds _ _ _ _ I1 E1) as (_ & _ & _ & St1 & Gy & _).
    rewrite (stands_label _ _ _ _ _ St1) in *. rewrite Gy in G. inversion G; subst nn. clear G.
    exists y, n, fo'. split; [destruct Q as [Q|Q]; [left; exact Q|right; now apply Pa]|]. split; [|split; [exact (get_cached d fo' y n Gy)|exact Of]].
    apply Rts. right. exists l', i, o, cf. assert (El : y = Z.of_N l') by (rewrite <- (stands_label _ _ _ _ _ St1), En; reflexivity).
    split; [exact El|]. destruct U as [U1 U2]. split; [lia|]. split; [apply (in_use_known _ _ _ _ _ A); split; assumption|].
    exact (op_dec _ _ _ _ _ _ _ O _ _ V).
Qed.

(** ** The drawing *)
(** Drawn are: every node of the graph once, captioned with its label and square exactly if
    nothing points to it; visibly every edge once; and invisible edges between each root and
    the next larger one. *)
Theorem C95_drawing : forall base h r s paths fnames d, opened_trace base h r s paths fnames d ->
  forall fo, forest_run d fo -> forall g fo', exported d fo g fo' ->
  let nodes := picture_nodes (to_dot g) in
  let edges := picture_edges (to_dot g) in
  (forall t z z', numeral t z -> numeral t z' -> z = z') /\
  (NoDup (map (fun n => fst (fst n)) nodes)) /\
  (forall z, In z (g_nodes g) <-> exists id cap shape, In (id, cap, shape) nodes /\ numeral id z) /\
  (forall id cap shape, In (id, cap, shape) nodes -> cap = id /\ exists z, numeral id z /\ (shape = Some w_square <-> In z (graph_roots g))) /\
  (NoDup (filter (fun e => match snd e with None => true | Some _ => false end) edges)) /\
  (forall a b, In (a, b, None) edges <-> exists u v, numeral a u /\ numeral b v /\ a = py_str u /\ b = py_str v /\ In (u, v) (graph_edges g)) /\
  (forall a b st, In (a, b, Some st) edges <-> st = w_invis /\ exists u v, a = py_str u /\ b = py_str v /\
     In u (graph_roots g) /\ In v (graph_roots g) /\ (u < v)%Z /\ forall w, In w (graph_roots g) -> (w <= u \/ v <= w)%Z).
Proof.
  facts. rename g into gh. intros fo Fr.
  assert (I := run_finv d (r_tab r) (src_of d) W (op_dec _ _ _ _ _ _ _ O) (op_count _ _ _ _ _ _ _ O) Fds fo Fr). intros g fo' X. assert (Ef := export_facts_hold d (r_tab r) (src_of d) W (op_dec _ _ _ _ _ _ _ O) (op_count _ _ _ _ _ _ _ O) Fds fo Fr g fo' X). assert (Wg := ef_wf _ _ _ _ _ _ Ef). intros nodes edges. unfold nodes, edges. clear nodes edges.
  rewrite picture_nodes_eq, picture_edges_eq. destruct (drawn_roots_ok g Wg) as (So & Nr & Ni).
  assert (Inj : forall (B : Type) (f : Z -> B) (k : B -> str) l, (forall z, k (f z) = py_str z) -> NoDup l -> NoDup (map k (map f l))).
  { intros B f k l Hk N. rewrite map_map. apply FinFun.Injective_map_NoDup; [|exact N]. intros a b. rewrite !Hk. apply py_str_inj. }
  split; [exact numeral_fun|]. split; [|split; [|split; [|split; [|split]]]].
  - rewrite map_app, !map_map. cbn [fst]. rewrite <- map_app. apply FinFun.Injective_map_NoDup; [intros a b; apply py_str_inj|].
    assert (N := proj1 Wg). assert (Ns : NoDup (sorted_labels (g_nodes g))) by (apply (Permutation.Permutation_NoDup (Permutation.Permutation_sym (sorted_perm _)) N)).
    assert (Dj : forall x, In x (drawn_roots g) -> ~ In x (drawn_inner g)).
    { intros x H K. apply (proj1 (drawn_split g x)) in H. apply (proj2 (drawn_split g x)) in K as [_ K]. contradiction. }
    clear -Nr Ni Dj. induction (drawn_roots g) as [|x l IH]; [exact Ni|]. inversion Nr; subst. cbn [app]. constructor.
    + rewrite in_app_iff. intros [Q|Q]; [contradiction|]. exact (Dj x (or_introl eq_refl) Q).
    + apply IH; [assumption|]. intros y Hy. apply Dj. now right.
  - intros z. split.
    + intros H. destruct (in_dec Z.eq_dec z (graph_roots g)) as [Q|Q].
      * exists (py_str z), (py_str z), (Some w_square). split; [|apply py_str_numeral]. apply in_app_iff. left. apply in_map_iff. exists z. split; [reflexivity|]. now apply drawn_split.
      * exists (py_str z), (py_str z), None. split; [|apply py_str_numeral]. apply in_app_iff. right. apply in_map_iff. exists z. split; [reflexivity|]. now apply drawn_split.
    + intros (id & cap & shape & H & Nu). apply in_app_iff in H as [H|H]; apply in_map_iff in H as (v & E & Hv); inversion E; subst;
      assert (v = z) by (apply (numeral_fun (py_str v)); [apply py_str_numeral|exact Nu]); subst v.
      * apply drawn_split in Hv. apply roots_in in Hv. apply Hv.
      * apply drawn_split in Hv. apply Hv.
  - intros id cap shape H. apply in_app_iff in H as [H|H]; apply in_map_iff in H as (v & E & Hv); inversion E; subst; (split; [reflexivity|]);
      exists v; (split; [apply py_str_numeral|]); apply drawn_split in Hv.
    + split; auto.
    + split; [discriminate|]. intros Q. now apply Hv in Q.
  - rewrite filter_app.
    assert (E1 : forall l : list (Z * Z), filter (fun e : str * str * option str => match snd e with None => true | Some _ => false end)
      (map (fun e => (py_str (fst e), py_str (snd e), Some w_invis)) l) = []) by (induction l as [|e l IH]; [reflexivity|cbn [map filter snd]; exact IH]).
    assert (E2 : forall l : list (Z * Z), filter (fun e : str * str * option str => match snd e with None => true | Some _ => false end)
      (map (fun e => (py_str (fst e), py_str (snd e), None)) l) = map (fun e => (py_str (fst e), py_str (snd e), None)) l)
      by (induction l as [|e l IH]; [reflexivity|cbn [map filter snd]; now rewrite IH]).
    rewrite E1, E2. cbn [app]. apply FinFun.Injective_map_NoDup; [|now apply edges_nodup].
    intros [a b] [a' b'] E. cbn [fst snd] in E. inversion E as [[E3 E4]]. apply py_str_inj in E3, E4. now subst.
  - intros a b. rewrite in_app_iff, !in_map_iff. split.
    + intros [((u & v) & E & _)|((u & v) & E & H)]; [discriminate E|]. inversion E; subst. exists u, v. split; [apply py_str_numeral|]. split; [apply py_str_numeral|auto].
    + intros (u & v & _ & _ & -> & -> & H). right. exists (u, v). auto.
  - intros a b st. rewrite in_app_iff, !in_map_iff.
    assert (Rr : forall w, In w (drawn_roots g) <-> In w (graph_roots g)) by (intros w; apply drawn_split). split.
    + intros [((u & v) & E & H)|((u & v) & E & H)]; [|discriminate E]. inversion E; subst. split; [reflexivity|]. exists u, v.
      apply (consecutive_iff _ So Nr) in H as (P1 & P2 & P3 & P4). apply Rr in P1, P2. split; [reflexivity|]. split; [reflexivity|]. split; [exact P1|]. split; [exact P2|].
      split; [exact P3|]. intros w Hw. apply P4. now apply Rr.
    + intros (-> & u & v & -> & -> & P1 & P2 & P3 & P4). left. exists (u, v). split; [reflexivity|]. apply (consecutive_iff _ So Nr).
      apply Rr in P1, P2. split; [exact P1|]. split; [exact P2|]. split; [exact P3|]. intros w Hw. apply P4. now apply Rr.
Qed.

(** ** A concrete run *)
(** Label 8 of the demo run is a union of 7, the range of 1 and 2, with 5.  Labels 1 to 6 are
    single bytes, 9 is another one. *)
Definition graph_check (r : rt) : bool :=
  match py_open (trace_file 8192 r) with
  | Ok d => match forest_new d with
            | Ok fo => match to_graph 100 d fo with
                       | Ok (g, _) => forallb (fun z => zmem z (g_nodes g)) [0; 1; 2; 5; 7; 8]%Z &&
                                      forallb (fun e => existsb (edge_eqb e) (graph_edges g)) [(1, 7); (2, 7); (7, 8); (5, 8)]%Z &&
                                      forallb (fun z => zmem z (graph_roots g)) [0; 1; 2; 5]%Z && negb (zmem 7 (graph_roots g)) &&
                                      (len (graph_edges g) =? 4) && (len (picture_nodes (to_dot g)) =? 10)
                       | _ => false
                       end
            | _ => false end
  | _ => false
  end.
Lemma graph_check_ok r : graph_check r = true -> exists d fo g fo', py_open (trace_file 8192 r) = Ok d /\ forest_new d = Ok fo /\ exported d fo g fo' /\
  In (1, 7)%Z (graph_edges g) /\ In (7, 8)%Z (graph_edges g).
Proof.
  unfold graph_check. destruct (py_open (trace_file 8192 r)) as [d| | |]; [|discriminate..]. destruct (forest_new d) as [fo| | |] eqn:E; [|discriminate..].
  destruct (to_graph 100 d fo) as [[g fo']| | |] eqn:X; [|discriminate..]. intros H. exists d, fo, g, fo'.
  split; [reflexivity|]. split; [exact E|]. split; [now exists 100%nat|].
  do 4 apply andb_true_iff in H as [H _]. apply andb_true_iff in H as [_ H]. rewrite forallb_forall in H.
  assert (K : forall e, In e [(1, 7); (2, 7); (7, 8); (5, 8)]%Z -> In e (graph_edges g)).
  { intros e He. apply H in He. apply existsb_exists in He as (e' & J & Q). apply edge_eqb_iff in Q. now subst. }
  split; apply K; cbn [In]; auto.
Qed.

Example C95_case : exists h r s paths fnames d fo g fo', opened_trace 8192 h r s paths fnames d /\ forest_run d fo /\ exported d fo g fo' /\ known s 8 /\
  In (1, 7)%Z (graph_edges g) /\ In (7, 8)%Z (graph_edges g).
Proof.
  destruct (demo_run 8192 demo_calls (fun h r s => graph_check r &&
     list_eqb (list_eqb N.eqb) (map reg_name (registered h)) [[97; 46; 116]; [47; 98]; [99]; [111]] &&
     list_eqb (list_eqb N.eqb) (a_names s) [[109]] && label_known s 8)) as (h & r & s & R & C & T).
  - vm_compute. reflexivity.
  - apply andb_true_iff in T as [T T3]. apply andb_true_iff in T as [T T2]. apply andb_true_iff in T as [T T1].
    apply names_eqb_eq in T1, T2.
    destruct (graph_check_ok r T) as (d & fo & g & fo' & E & N & X & Q1 & Q2).
    exists h, r, s, [[97; 46; 116]; [47; 98]; [99]; [111]], [[109]], d, fo, g, fo'. split; [|split; [now constructor|]].
    + split; [split; vm_compute; reflexivity|]. split; [exact R|]. rewrite T1, T2.
      split; [|split; [|exact E]]; repeat (apply Forall2_cons || apply Forall2_nil); (split; [repeat (apply Forall_cons || apply Forall_nil); unfold scalar; lia|reflexivity]).
    + split; [exact X|]. split; [exact (label_known_ok s 8 T3)|auto].
Qed.

Print Assumptions C95_exports.
Print Assumptions C95_graph.
Print Assumptions C95_acyclic.
Print Assumptions C95_roots.
Print Assumptions C95_bytes.
Print Assumptions C95_drawing.
