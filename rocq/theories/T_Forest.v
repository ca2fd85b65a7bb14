(** C31, C33, C51, C52: the program trace and its taint forest, as read back from the file of
    any run.  Runs and their plain meaning are in S_Api, forests and walks in S_Forest. *)
From Coq Require Import NArith ZArith List Bool Lia Sorted.
From Verif Require Import M_Base M_Encoding M_Labels M_PyNode M_PySections M_PyFile M_PyAnalysis M_OutputFile M_Api S_Provenance S_Labels S_Strings S_OutputFile
  S_Api S_PyAnalysis S_History S_Forest P_Base P_Labels P_PyNode P_History P_ApiMem P_Api P_ApiFile P_PyAnalysis P_ApiRun P_ApiDemo P_Forest T_Api.
Import ListNotations.
Open Scope N_scope.

Section Run.
  Variables (base : N) (h : list (call * ret)) (r : rt) (s : ast) (paths fnames : list (list N)).
  Hypotheses (M : mapped base shipped) (R : api_run base h r s).
  Hypothesis T1 : are_texts (map reg_name (registered h)) paths.
  Hypothesis T2 : are_texts (a_names s) fnames.

  Lemma T1' : are_texts (map reg_name (a_regs s)) paths.
  Proof. rewrite (run_regs _ _ _ _ R). exact T1. Qed.

  Definition src_of (d : tdfile) (i : N) : py_input :=
    match td_fd_header d i with Ok hd => input_of hd | _ => mkInput 0 ([], []) 0 end.

  Lemma forest_facts : exists g d bits, api_inv base r s g /\ py_open (trace_file base r) = Ok d /\ opened r s g d paths fnames bits /\
    wf_table (r_tab r) /\
    (forall l cf i o, view (r_tab r) l = Some (TSource cf i o) -> exists hd, td_fd_header d i = Ok hd /\ input_of hd = src_of d i) /\
    (forall i, i < len (a_regs s) -> forall x, input_at s paths i x <-> x = src_of d i).
  Proof.
    destruct (run_opened base h r s paths fnames M R T1' T2) as (g & d & bits & A & E & O).
    exists g, d, bits. split; [exact A|]. split; [exact E|]. split; [exact O|].
    split; [exact (proj1 (reachable_inv _ (ai_tr _ _ _ _ A)))|]. split.
    - intros l cf i o V. destruct (source_reg base r s g l cf i o A V) as (_ & L & _).
      destruct (header_at r s g d paths fnames bits i O T1' L) as (q & text & hd & _ & _ & Hd & _).
      unfold src_of. rewrite Hd. eauto.
    - intros i L x. destruct (header_at r s g d paths fnames bits i O T1' L) as (q & text & hd & Gq & Gt & Hd & F1 & F2).
      unfold src_of, input_of. rewrite Hd. cbn [fst snd]. rewrite F1, F2. unfold input_at, path_at. split.
      + intros (q' & p & Gq' & (tx & Gt' & ->) & ->). rewrite Gq in Gq'. rewrite Gt in Gt'. inversion Gq'. inversion Gt'. subst. reflexivity.
      + intros ->. exists q, (py_path_of text). split; [exact Gq|]. split; [eauto|reflexivity].
  Qed.

  Lemma in_use_known g l : api_inv base r s g -> (in_use (r_tab r) l <-> known s l).
  Proof. intros A. apply (proj1 (ai_lab _ _ _ _ A)). Qed.
End Run.

(** The trace file of a run, opened. *)
Definition opened_trace (base : N) (h : list (call * ret)) (r : rt) (s : ast) (paths fnames : list (list N)) (d : tdfile) : Prop :=
  mapped base shipped /\ api_run base h r s /\ are_texts (map reg_name (registered h)) paths /\ are_texts (a_names s) fnames /\
  py_open (trace_file base r) = Ok d.

Ltac facts := intros base h r s paths fnames d (M & R & T1 & T2 & D);
  destruct (forest_facts base h r s paths fnames M R T1 T2) as (g & d' & bits & A & D' & O & W & Fds & Src);
  rewrite D in D'; apply Ok_inj in D'; subst d'.

(** Every run leaves a file that opens. *)
Theorem C33_opens : forall base h r s paths fnames,
  mapped base shipped -> api_run base h r s ->
  are_texts (map reg_name (registered h)) paths -> are_texts (a_names s) fnames ->
  exists d fo, opened_trace base h r s paths fnames d /\ forest_new d = Ok fo.
Proof.
  intros base h r s paths fnames M R T1 T2. destruct (forest_facts base h r s paths fnames M R T1 T2) as (g & d & bits & A & D & O & _).
  exists d. eexists. split; [repeat split; eauto; apply M|]. unfold forest_new. rewrite (op_count _ _ _ _ _ _ _ O). reflexivity.
Qed.

(** ** C33: the leaves *)
(** Whatever was asked of the forest before, the file offsets of the nodes one can walk to
    from a label are exactly the input bytes the label stands for. *)
Theorem C33_leaves : forall base h r s paths fnames d, opened_trace base h r s paths fnames d ->
  forall fo l, forest_run d fo -> known s l ->
  forall x o, (exists fo' n, walk d fo (Z.of_N l) fo' n /\ py_file_offset d n = Ok (x, o)) <->
              (exists i, In (i, o) (a_lab s l) /\ input_at s paths i x).
Proof.
  facts. intros fo l Fr K x o. assert (U := proj2 (in_use_known _ _ _ _ l A) K).
  assert (I := run_finv d (r_tab r) (src_of d) W (op_dec _ _ _ _ _ _ _ O) (op_count _ _ _ _ _ _ _ O) Fds fo Fr).
  rewrite (walk_leaves d (r_tab r) (src_of d) W (op_dec _ _ _ _ _ _ _ O) Fds fo l I U x o).
  split; intros (i & Hb & Hx); exists i.
  - assert (In (i, o) (a_lab s l)) as Hb' by (apply (proj2 (ai_lab _ _ _ _ A)); assumption).
    split; [exact Hb'|]. apply (Src i); [exact (proj1 (ai_byt _ _ _ _ A _ _ Hb'))|exact Hx].
  - split; [apply (proj2 (ai_lab _ _ _ _ A)); assumption|]. apply (Src i); [exact (proj1 (ai_byt _ _ _ _ A _ _ Hb))|exact Hx].
Qed.

(** ** C33: the structure *)
(** The labels of the forest are 0, the labels of the run and negative synthetic ones, each
    once. *)
Theorem C33_labels : forall base h r s paths fnames d, opened_trace base h r s paths fnames d ->
  forall fo, forest_run d fo ->
  NoDup (map fst (fo_cache fo)) /\
  (forall l, has_label fo (Z.of_N l) <-> l = 0 \/ known s l).
Proof.
  facts. intros fo Fr. assert (I := run_finv d (r_tab r) (src_of d) W (op_dec _ _ _ _ _ _ _ O) (op_count _ _ _ _ _ _ _ O) Fds fo Fr).
  split; [apply I|]. intros l. rewrite (has_iff d (r_tab r) (src_of d) W (op_dec _ _ _ _ _ _ _ O) (op_count _ _ _ _ _ _ _ O) Fds fo (Z.of_N l) I), <- (in_use_known _ _ _ _ l A).
  assert (X := fv_syn _ _ _ I). assert (Y := len_pos d _ _ W (op_dec _ _ _ _ _ _ _ O) (op_count _ _ _ _ _ _ _ O) Fds). unfold in_use. lia.
Qed.

(** Every label has a node.  A node other than the root has either an input byte, or two
    parents that are labels of the forest and not the root.  Real labels carry the
    control-flow flag of the file. *)
Theorem C33_nodes_well_formed : forall base h r s paths fnames d, opened_trace base h r s paths fnames d ->
  forall fo z, forest_run d fo -> has_label fo z ->
  exists n fo', get_node d fo z = Ok (n, fo') /\ fn_label n = z /\
    (z = 0%Z -> fn_source n = None /\ fn_parents n = None) /\
    (z <> 0%Z ->
       (exists x o, fn_source n = Some x /\ fn_parents n = None /\ (0 < z)%Z /\ py_file_offset d n = Ok (x, o)) \/
       (exists p q, fn_source n = None /\ fn_parents n = Some (p, q) /\ has_label fo' p /\ has_label fo' q /\ p <> 0%Z /\ q <> 0%Z)) /\
    (forall l v, z = Z.of_N l -> l <> 0 -> td_decode_node d l = Ok v -> fn_cf n = node_cf v).
Proof.
  facts. intros fo z Fr H. assert (I := run_finv d (r_tab r) (src_of d) W (op_dec _ _ _ _ _ _ _ O) (op_count _ _ _ _ _ _ _ O) Fds fo Fr).
  destruct (get_spec d (r_tab r) (src_of d) W (op_dec _ _ _ _ _ _ _ O) Fds fo z I H) as (n & fo' & E & I' & _ & St & _).
  exists n, fo'. split; [exact E|]. split; [exact (stands_label _ _ _ _ _ St)|]. split; [|split].
  - intros ->. destruct St as [[_ ->]|[(l & El & U & _)|(Z & _)]]; [auto|destruct U; lia|lia].
  - intros Nz. destruct (fn_parents n) as [[p q]|] eqn:P.
    + right. exists p, q. destruct (stands_parents d _ _ W (op_dec _ _ _ _ _ _ _ O) Fds _ _ _ _ _ I' St P) as (Q1 & Q2 & Q3 & Q4 & Q5). auto 10.
    + left. destruct (stands_inner _ _ _ _ _ St Nz P) as (l & cf & i & o & -> & V & Sr). exists (src_of d i), o.
      split; [exact Sr|]. split; [reflexivity|]. split; [lia|].
      unfold py_file_offset. rewrite Sr, (stands_label _ _ _ _ _ St), N2Z.id, (op_dec _ _ _ _ _ _ _ O _ _ V). reflexivity.
  - intros l v -> Nz Dv. destruct (decode_view _ _ _ _ _ _ _ _ _ _ A O Dv) as [[-> _]|(tn & V & ->)]; [congruence|].
    exact (stands_cf d _ _ (op_dec _ _ _ _ _ _ _ O) Fds _ _ _ _ St ltac:(lia) V).
Qed.

(** Walking upwards never comes back to where it started. *)
Theorem C33_acyclic : forall base h r s paths fnames d, opened_trace base h r s paths fnames d ->
  forall fo z n fo1 p q y fo2 n', forest_run d fo ->
  get_node d fo z = Ok (n, fo1) -> fn_parents n = Some (p, q) -> y = p \/ y = q ->
  walk d fo1 y fo2 n' -> fn_label n' <> z.
Proof.
  facts. intros fo z n fo1 p q y fo2 n' Fr. 
  assert (I := run_finv d (r_tab r) (src_of d) W (op_dec _ _ _ _ _ _ _ O) (op_count _ _ _ _ _ _ _ O) Fds fo Fr).
  exact (walk_acyclic d (r_tab r) (src_of d) W (op_dec _ _ _ _ _ _ _ O) Fds fo z n fo1 p q y fo2 n' I).
Qed.

(** Asking again, at any later time, gives the same node. *)
Theorem C33_stable : forall base h r s paths fnames d, opened_trace base h r s paths fnames d ->
  forall fo z n fo1 fo2, forest_run d fo -> get_node d fo z = Ok (n, fo1) -> later d fo1 fo2 ->
  get_node d fo2 z = Ok (n, fo2).
Proof.
  facts. intros fo z n fo1 fo2 Fr. 
  assert (I := run_finv d (r_tab r) (src_of d) W (op_dec _ _ _ _ _ _ _ O) (op_count _ _ _ _ _ _ _ O) Fds fo Fr).
  exact (get_later d (r_tab r) (src_of d) W (op_dec _ _ _ _ _ _ _ O) Fds fo z n fo1 fo2 I).
Qed.

(** The iteration over all nodes ends; it yields every label of the final forest once, in
    decreasing order. *)
Theorem C33_iteration : forall base h r s paths fnames d, opened_trace base h r s paths fnames d ->
  forall fo, forest_run d fo ->
  exists fuel0 ns fo', (forall fuel, (fuel0 <= fuel)%nat -> forest_nodes fuel d fo = Ok (ns, fo')) /\ later d fo fo' /\
    StronglySorted Z.gt (map fn_label ns) /\ (forall z, In z (map fn_label ns) <-> has_label fo' z) /\
    (forall n, In n ns -> get_node d fo' (fn_label n) = Ok (n, fo')).
Proof.
  facts. intros fo Fr. 
  assert (I := run_finv d (r_tab r) (src_of d) W (op_dec _ _ _ _ _ _ _ O) (op_count _ _ _ _ _ _ _ O) Fds fo Fr).
  destruct (forest_nodes_spec d (r_tab r) (src_of d) W (op_dec _ _ _ _ _ _ _ O) (op_count _ _ _ _ _ _ _ O) Fds fo I) as (F & ns & fo' & _ & La & X & Y & Z & C).
  exists F, ns, fo'. auto.
Qed.

(** ** C31: inputs affecting control flow *)
Theorem C31_inputs_affecting_control_flow : forall base h r s paths fnames d, opened_trace base h r s paths fnames d ->
  forall fo, forest_run d fo ->
  exists bs fo', inputs_affecting_control_flow d fo = Ok (bs, fo') /\ later d fo fo' /\
    forall x o, In (x, o) bs <-> exists i, In (i, o) (a_cf s) /\ input_at s paths i x.
Proof.
  facts. intros fo Fr. 
  assert (I := run_finv d (r_tab r) (src_of d) W (op_dec _ _ _ _ _ _ _ O) (op_count _ _ _ _ _ _ _ O) Fds fo Fr).
  destruct (affecting_spec d (r_tab r) (src_of d) W (op_dec _ _ _ _ _ _ _ O) Fds bits fo I) as (bs & fo' & E & La & Hb).
  { intros l Hl. now apply (op_bits _ _ _ _ _ _ _ O). }
  exists bs, fo'. split; [unfold inputs_affecting_control_flow; rewrite (op_labels _ _ _ _ _ _ _ O); exact E|]. split; [exact La|].
  intros x o. rewrite Hb. split.
  - intros (l & i & Hl & V & ->). exists i. split; [apply (ai_cf _ _ _ _ A); exists l; exact V|].
    apply (Src i); [|reflexivity]. apply (source_reg _ _ _ _ _ _ _ _ A V).
  - intros (i & Hc & Hx). apply (ai_cf _ _ _ _ A) in Hc as (l & V). cbn [fst snd] in V. exists l, i.
    split; [apply (op_bits _ _ _ _ _ _ _ O); eauto|]. split; [exact V|]. apply (Src i); [|exact Hx]. apply (source_reg _ _ _ _ _ _ _ _ A V).
Qed.

(** ** C51: the inputs of a trace *)
Lemma inputs_loop_spec d t src : (forall l tn, view t l = Some tn -> td_decode_node d l = Ok (node_of tn)) ->
  (forall l cf i o, view t l = Some (TSource cf i o) -> exists hd, td_fd_header d i = Ok hd /\ input_of hd = src i) ->
  forall ls seen, (forall l, In l ls -> is_source t l) ->
  exists idx, inputs_loop d ls seen = Ok (map src idx) /\ NoDup idx /\
    forall i, In i idx <-> ~ In i seen /\ exists l cf o, In l ls /\ view t l = Some (TSource cf i o).
Proof.
  intros Dec Fds. induction ls as [|l ls IH]; intros seen H; cbn [inputs_loop].
  - exists []. split; [reflexivity|]. split; [constructor|]. intros i. split; [intros []|intros (_ & l & cf & o & [] & _)].
  - destruct (H l (or_introl eq_refl)) as (cf & i & o & V). rewrite (Dec l _ V). cbn [bind node_of].
    destruct (set_mem i seen) eqn:Sm.
    + apply set_mem_spec in Sm. destruct (IH seen) as (idx & E & N & Hi); [intros; apply H; now right|]. exists idx. split; [exact E|]. split; [exact N|].
      intros j. rewrite Hi. split; intros (Nj & l1 & cf1 & o1 & A & B).
      * split; [exact Nj|]. exists l1, cf1, o1. split; [now right|exact B].
      * split; [exact Nj|]. destruct A as [->|A]; [rewrite V in B; inversion B; subst; contradiction|]. exists l1, cf1, o1. auto.
    + apply set_mem_false in Sm. destruct (Fds l cf i o V) as (hd & Hd & Hs). rewrite Hd. cbn [bind].
      destruct (IH (i :: seen)) as (idx & E & N & Hi); [intros; apply H; now right|]. exists (i :: idx). rewrite E. cbn [bind map]. rewrite Hs.
      split; [reflexivity|]. split; [constructor; [|exact N]; intros Q; apply Hi in Q as (Q & _); apply Q; now left|].
      intros j. cbn [In]. rewrite Hi. split.
      * intros [<-|(Nj & l1 & cf1 & o1 & A & B)]; [split; [exact Sm|]; exists l, cf, o; auto|].
        split; [intros Q; apply Nj; now right|]. exists l1, cf1, o1. auto.
      * intros (Nj & l1 & cf1 & o1 & A & B). destruct (N.eq_dec i j) as [->|Ne]; [now left|right].
        split; [intros [Q|Q]; congruence|]. destruct A as [->|A]; [rewrite V in B; inversion B; congruence|]. exists l1, cf1, o1. auto.
Qed.

(** Iterating over the inputs yields each registration that bytes were read from, exactly
    once, under its recorded path, descriptor and size; nothing else. *)
Theorem C51_inputs : forall base h r s paths fnames d, opened_trace base h r s paths fnames d ->
  exists idx xs, py_inputs d = Ok xs /\ Forall2 (input_at s paths) idx xs /\ NoDup idx /\
    forall i, In i idx <-> exists l o, In (i, o) (a_lab s l).
Proof.
  facts. destruct (inputs_loop_spec d (r_tab r) (src_of d) (op_dec _ _ _ _ _ _ _ O) Fds bits []) as (idx & E & N & Hi).
  { intros l Hl. now apply (op_bits _ _ _ _ _ _ _ O). }
  exists idx, (map (src_of d) idx). split; [unfold py_inputs; rewrite (op_labels _ _ _ _ _ _ _ O); exact E|]. split; [|split; [exact N|]].
  - assert (Q : forall i, In i idx -> i < len (a_regs s)).
    { intros i Q. apply Hi in Q as (_ & l & cf & o & _ & V). apply (source_reg _ _ _ _ _ _ _ _ A V). }
    clear E N Hi. induction idx as [|i idx IH]; cbn [map]; constructor.
    + apply (Src i); [apply Q; now left|reflexivity].
    + apply IH. intros; apply Q; now right.
  - intros i. rewrite Hi. split.
    + intros (_ & l & cf & o & _ & V). exists l, o. apply (source_reg _ _ _ _ _ _ _ _ A V).
    + intros (l & o & Hb). split; [intros []|]. assert (U : in_use (r_tab r) l) by (apply (proj1 (ai_lab _ _ _ _ A)); intros Q; rewrite Q in Hb; exact Hb).
      apply (proj2 (ai_lab _ _ _ _ A) l _ U) in Hb as (k & cf & _ & V). cbn [fst snd] in V. exists k, cf, o. split; [|exact V].
      apply (op_bits _ _ _ _ _ _ _ O). eauto.
Qed.

(** ** C52: output taints *)
Theorem C52_output_taints : forall base h r s paths fnames d, opened_trace base h r s paths fnames d ->
  exists outs, py_output_taints d = Ok outs /\
    Forall2 (fun out e => let '(x, o, l) := out in let '(i, pos, bs) := e in
               input_at s paths i x /\ o = Z.of_N pos /\ forall b, In b (a_lab s l) <-> In b bs) outs (a_out s).
Proof.
  facts. unfold py_output_taints. rewrite (op_sinks _ _ _ _ _ _ _ O). cbn [bind]. assert (X := ai_out _ _ _ _ A).
  clear - X Src O T1 R.
  induction X as [|[[[pad o] l] i] [[i' o'] bs] l1 l2 Y X IH]; cbn [map py_map]; [exists []; split; [reflexivity|constructor]|].
  destruct Y as (-> & -> & _ & Sm & L & _). cbn [sink_of sk_fdidx sk_offset sk_label].
  destruct (header_at r s g d paths fnames bits i' O (T1' _ _ _ _ _ R T1) L) as (q & text & hd & _ & _ & Hd & _).
  destruct IH as (outs & E & F). eexists. rewrite Hd. cbn [bind]. rewrite E. cbn [bind]. split; [reflexivity|]. constructor; [|exact F].
  split; [apply (Src i' L); unfold src_of; rewrite Hd; reflexivity|]. split; [reflexivity|]. intros b. symmetry. apply Sm.
Qed.

(** ** A concrete run *)
(** The demo run has label 7 = a range of labels 1..2 and label 8 a union; the forest is
    asked for them, so that it has unfolded nodes. *)
Definition forest_check (r : rt) : bool :=
  match py_open (trace_file 8192 r) with
  | Ok d => match forest_new d with
            | Ok fo => match get_node d fo 8, inputs_affecting_control_flow d fo, forest_nodes 100 d fo, py_inputs d, py_output_taints d with
                       | Ok (n, fo1), Ok (bs, _), Ok (ns, _), Ok xs, Ok outs =>
                           (len bs =? 2) && (len ns =? 10) && (len xs =? 3) && (len outs =? 6) &&
                           match fn_parents n with Some (7, 5)%Z => true | _ => false end
                       | _, _, _, _, _ => false
                       end
            | _ => false end
  | _ => false
  end.

Lemma forest_check_opens r : forest_check r = true -> exists d, py_open (trace_file 8192 r) = Ok d.
Proof. unfold forest_check. destruct (py_open (trace_file 8192 r)) as [d| | |]; [eauto|discriminate..]. Qed.

Definition label_known (s : ast) (l : N) : bool := match a_lab s l with [] => false | _ => true end.
Lemma label_known_ok s l : label_known s l = true -> known s l.
Proof. unfold label_known, known. intros H Q. rewrite Q in H. discriminate. Qed.

Example C33_case : exists h r s paths fnames d, opened_trace 8192 h r s paths fnames d /\ forest_check r = true /\ known s 8.
Proof.
  destruct (demo_run 8192 demo_calls (fun h r s => forest_check r &&
     list_eqb (list_eqb N.eqb) (map reg_name (registered h)) [[97; 46; 116]; [47; 98]; [99]; [111]] &&
     list_eqb (list_eqb N.eqb) (a_names s) [[109]] && label_known s 8)) as (h & r & s & R & C & T).
  - vm_compute. reflexivity.
  - apply andb_true_iff in T as [T T3]. apply andb_true_iff in T as [T T2]. apply andb_true_iff in T as [T T1].
    apply names_eqb_eq in T1, T2.
    destruct (forest_check_opens r T) as (d & E).
    exists h, r, s, [[97; 46; 116]; [47; 98]; [99]; [111]], [[109]], d. split; [|split; [exact T|]].
    + split; [split; vm_compute; reflexivity|]. split; [exact R|]. rewrite T1, T2.
      split; [|split; [|exact E]]; repeat (apply Forall2_cons || apply Forall2_nil); (split; [repeat (apply Forall_cons || apply Forall_nil); unfold scalar; lia|reflexivity]).
    + exact (label_known_ok s 8 T3).
Qed.

Print Assumptions C31_inputs_affecting_control_flow.
Print Assumptions C33_opens.
Print Assumptions C33_leaves.
Print Assumptions C33_labels.
Print Assumptions C33_nodes_well_formed.
Print Assumptions C33_acyclic.
Print Assumptions C33_stable.
Print Assumptions C33_iteration.
Print Assumptions C51_inputs.
Print Assumptions C52_output_taints.
