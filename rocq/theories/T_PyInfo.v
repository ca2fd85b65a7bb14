(** C115: what "polytracker info" prints about a run. *)
From Coq Require Import NArith ZArith List Bool Lia.
From Verif Require Import M_Base M_Encoding M_Memory M_Labels M_Functions M_CfLog M_OutputFile M_PyNode M_PySections M_PyFile M_Api M_PyInfo
  S_Provenance S_Labels S_Section S_OutputFile S_Api S_Info S_CallStack S_Strings S_Functions S_PyAnalysis S_History P_Base P_Encoding P_Labels P_PyNode P_ControlFlow P_History P_OutputFile P_ApiMem P_Api P_ApiFile P_ApiRun P_ApiDemo P_CfLog P_PyInfo T_CfLog.
Import ListNotations.
Open Scope N_scope.

(** After any run, with any options (the control-flow log only if it was kept properly, see C34),
    the command ends, and prints one line per file, function, tainted output byte, label, event
    and log entry, as asked for, in order.  (Missing: the number printed first is that of the
    labels.) *)
Theorem C115_info_partial : forall base h r s paths fnames o,
  mapped base shipped -> api_run base h r s ->
  are_texts (map reg_name (registered h)) paths -> are_texts (a_names s) fnames ->
  forall rs active, (print_control_flow_log o = true -> run_stack Some [] (a_log s) rs active) ->
  exists n files functions sinks nodes events log,
    info_run o (trace_file base r) = Ok (ILabels n :: files ++ functions ++ sinks ++ nodes ++ events ++ log) /\
    (forall l, 0 < l < n <-> a_lab s l <> []) /\
    if_asked (print_fd_headers o) (Forall2 file_line (with_positions paths)) files /\
    if_asked (print_fn_headers o) (Forall2 function_line (with_positions fnames)) functions /\
    if_asked (print_taint_sinks o) (Forall2 (sink_line s) (a_out s)) sinks /\
    if_asked (print_taint_nodes o) (Forall2 (node_line s) (nseq 1 (N.to_nat (n - 1)))) nodes /\
    if_asked (print_function_trace o) (Forall2 event_line (a_events s)) events /\
    if_asked (print_control_flow_log o) (eq (map ILog (rs ++ leave_all active))) log.
Proof.
  intros base h r s paths fnames o M R T1 T2 rs active L. rewrite <- !numbered_positions. rewrite <- (run_regs _ _ _ _ R) in T1.
  destruct (run_opened base h r s paths fnames M R T1 T2) as (g & d & bits & A & E & O).
  assert (I := reachable_inv _ (ai_tr _ _ _ _ A)).
  assert (Ln : 1 <= len (r_tab r)) by (destruct (proj1 I) as (H & _); apply get_some in H; lia).
  (* files *)
  assert (Pf : map fst (td_fd_headers d) = map py_path_of paths).
  { apply nth_ext with (d := py_path_of []) (d' := py_path_of []).
    - rewrite !map_length, (op_nfds _ _ _ _ _ _ _ O). assert (X := are_texts_len _ _ T1). rewrite len_map in X. unfold len in X. lia.
    - intros k Hk. rewrite map_length in Hk.
      destruct (header_at r s g d paths fnames bits (N.of_nat k) O T1) as (q & text & hd & _ & Gt & Hd & _).
      { rewrite (op_nfds _ _ _ _ _ _ _ O) in Hk. unfold len. lia. }
      unfold td_fd_header in Hd. destruct (get (td_fd_headers d) (N.of_nat k)) as [x|] eqn:G; [|discriminate]. injection Hd as ->.
      unfold get in G, Gt. rewrite Nat2N.id in G, Gt.
      erewrite nth_error_nth; [|rewrite nth_error_map, G; reflexivity].
      erewrite nth_error_nth; [|rewrite nth_error_map, Gt; reflexivity]. reflexivity. }
  assert (X1 : exists l, when (print_fd_headers o) (Ok (map (fun p => IFile (fst p) (fst (snd p))) (numbered 0 (td_fd_headers d)))) = Ok l /\
    if_asked (print_fd_headers o) (Forall2 file_line (numbered 0 paths)) l).
  { unfold when, if_asked. destruct (print_fd_headers o); [|eauto]. eexists. split; [reflexivity|].
    replace (map (fun p => IFile (fst p) (fst (snd p))) (numbered 0 (td_fd_headers d)))
      with (map (fun p => IFile (fst p) (snd p)) (numbered 0 (map fst (td_fd_headers d)))) by (rewrite numbered_map, map_map; reflexivity).
    rewrite Pf, numbered_map, map_map. generalize (numbered 0 paths). intros l.
    induction l as [|x l IH]; constructor; [reflexivity|exact IH]. }
  assert (X2 : exists l, when (print_fn_headers o) (Ok (map (fun p => IFunction (fst p) (fst (snd p))) (numbered 0 (td_fn_headers d)))) = Ok l /\
    if_asked (print_fn_headers o) (Forall2 function_line (numbered 0 fnames)) l).
  { unfold when, if_asked. destruct (print_fn_headers o); [|eauto]. eexists. split; [reflexivity|].
    replace (map (fun p => IFunction (fst p) (fst (snd p))) (numbered 0 (td_fn_headers d)))
      with (map (fun p => IFunction (fst p) (snd p)) (numbered 0 (map fst (td_fn_headers d)))) by (rewrite numbered_map, map_map; reflexivity).
    rewrite (op_fns _ _ _ _ _ _ _ O). generalize (numbered 0 fnames). intros l.
    induction l as [|x l IH]; constructor; [reflexivity|exact IH]. }
  assert (X3 : exists l, when (print_taint_sinks o) (do ss <- td_sinks d; py_map (fun s => do x <- td_decode_node d (sk_label s); Ok (ISink s x)) ss) = Ok l /\
    if_asked (print_taint_sinks o) (Forall2 (sink_line s) (a_out s)) l).
  { unfold when, if_asked. destruct (print_taint_sinks o); [|eauto]. rewrite (op_sinks _ _ _ _ _ _ _ O). cbn [bind].
    apply py_map_rel. assert (Y := ai_out _ _ _ _ A). induction Y as [|[[[pad p] l] i] [[i' p'] bs] l1 l2 Y Ys IH]; [constructor|].
    cbn [map]. constructor; [|exact IH]. destruct Y as (-> & -> & U & Sm & _ & _). cbn [sink_of sk_label].
    destruct (decode_known base r s g d paths fnames bits l A O U) as (n & En & Dn). rewrite En. cbn [bind].
    eexists. split; [reflexivity|]. exists l, n. split; [reflexivity|]. split; [exact Dn|]. intros b. symmetry. apply Sm. }
  assert (X4 : exists l, when (print_taint_nodes o) (py_map (fun l => do x <- td_decode_node d l; Ok (INode l x)) (nseq 1 (N.to_nat (len (r_tab r) - 1)))) = Ok l /\
    if_asked (print_taint_nodes o) (Forall2 (node_line s) (nseq 1 (N.to_nat (len (r_tab r) - 1)))) l).
  { unfold when, if_asked. destruct (print_taint_nodes o); [|eauto].
    apply py_map_rel. apply Forall2_diag. intros l Hl. apply in_nseq in Hl.
    destruct (decode_known base r s g d paths fnames bits l A O) as (n & En & Dn); [split; lia|]. rewrite En. cbn [bind].
    eexists. split; [reflexivity|]. exists n. auto. }
  assert (X5 : exists l, when (print_function_trace o) (do es <- td_events d; py_map (fun e => do k <- kind_of (fst e); Ok (IEvent k (snd e))) es) = Ok l /\
    if_asked (print_function_trace o) (Forall2 event_line (a_events s)) l).
  { unfold when, if_asked. destruct (print_function_trace o); [|eauto]. rewrite (op_events _ _ _ _ _ _ _ O). cbn [bind].
    apply py_map_rel. induction (a_events s) as [|[k f] l IH]; [constructor|]. cbn [map]. constructor; [|exact IH].
    cbn [fst snd]. exists (IEvent k f). destruct k; (split; reflexivity). }
  assert (X6 : exists l, when (print_control_flow_log o) (do b <- py_by_type (td_sections d) 8; do es <- py_cf_iter N.eqb Some b; Ok (map ILog es)) = Ok l /\
    if_asked (print_control_flow_log o) (eq (map ILog (rs ++ leave_all active))) l).
  { unfold when, if_asked. destruct (print_control_flow_log o); [|eauto]. rewrite (op_log _ _ _ _ _ _ _ O). cbn [bind]. unfold cf_bytes.
    rewrite (C34_call_stacks_ids _ _ _ (L eq_refl) (ai_cfl _ _ _ _ A)). cbn [bind]. eauto. }
  destruct X1 as (l1 & E1 & F1), X2 as (l2 & E2 & F2), X3 as (l3 & E3 & F3), X4 as (l4 & E4 & F4), X5 as (l5 & E5 & F5), X6 as (l6 & E6 & F6).
  exists (len (r_tab r)), l1, l2, l3, l4, l5, l6. split.
  - unfold info_run. rewrite E. cbn [bind]. rewrite (op_count _ _ _ _ _ _ _ O). cbn [bind].
    rewrite E1. cbn [bind]. rewrite E2. cbn [bind]. rewrite E3. cbn [bind]. rewrite E4. cbn [bind]. rewrite E5. cbn [bind]. rewrite E6. reflexivity.
  - split; [|auto 10]. intros l. rewrite <- (proj1 (ai_lab _ _ _ _ A) l). unfold in_use. lia.
Qed.
Print Assumptions C115_info_partial.

(** The number printed is one more than that of the labels: 1 for a run without any. *)
Theorem C115_number_refuted : exists h r s, api_run 8192 h r s /\ h <> [] /\ (forall l, a_lab s l = []) /\
  info_run (mkInfo false false false false false false) (trace_file 8192 r) = Ok [ILabels 1].
Proof.
  destruct (demo_run 8192 [COpen 3 [97] None] (fun h r s =>
     match a_lab s, info_run (mkInfo false false false false false false) (trace_file 8192 r) with
     | _, Ok [ILabels 1] => true | _, _ => false end)) as (h & r & s & R & C & T).
  - vm_compute. reflexivity.
  - exists h, r, s. split; [exact R|]. split; [intros ->; discriminate|].
    assert (E : info_run (mkInfo false false false false false false) (trace_file 8192 r) = Ok [ILabels 1]).
    { destruct (info_run (mkInfo false false false false false false) (trace_file 8192 r)) as [[|[n| | | | | |] t]| | |]; try discriminate T.
      repeat match type of T with (match ?z with _ => _ end) = true => destruct z; try discriminate T; try reflexivity end. }
    split; [|exact E].
    inversion R as [r0 E0|h0 r1 s0 c x r2 R0 K S Kr L]; subst; [discriminate C|].
    rewrite map_app in C. destruct h0 as [|p h0]; [|destruct h0; discriminate C]. cbn [map app fst] in C. injection C as ->.
    inversion R0 as [r0 E0|h0' r1' s0' c' x' r2' R0' K' S' Kr' L']; subst; [|destruct h0'; discriminate].
    intros l. reflexivity.
Qed.
Print Assumptions C115_number_refuted.

(** The command ends with an exception, and nothing it was asked for in addition is complete, if
    the log holds an exit of a function whose entry it does not hold (C34). *)
Theorem C115_log_refuted : exists h r s, api_run 8192 h r s /\ a_log s = [CfEnter 3; CfTainted 8 9; CfLeave 3] /\
  info_run (mkInfo true true true true true true) (trace_file 8192 r) = Exit.
Proof.
  destruct (demo_run 8192 [CLog (CfEnter 3); CLog (CfTainted 8 9); CLog (CfLeave 3)] (fun h r s =>
     match a_log s, info_run (mkInfo true true true true true true) (trace_file 8192 r) with
     | [CfEnter 3; CfTainted 8 9; CfLeave 3], Exit => true | _, _ => false end)) as (h & r & s & R & C & T).
  - vm_compute. reflexivity.
  - exists h, r, s. split; [exact R|].
    destruct (info_run (mkInfo true true true true true true) (trace_file 8192 r)) eqn:E;
    destruct (a_log s) as [|[f1| |] [|[| |l2 f2] [|[|f3|] [|]]]]; try discriminate T;
    repeat match type of T with (match ?z with _ => _ end) = true => destruct z; try discriminate T; try (split; reflexivity) end.
Qed.
Print Assumptions C115_log_refuted.

(** A run with two inputs, one output, a function and a log, and what is printed for it. *)
Definition info_calls : list call :=
  [COpen 3 [97; 46; 116] (Some 10); CReadMem 3 1000 None 2; COpen 4 [47; 98] None; CReadVal 4 (Some 7) 1; CUnion 1 3; CSet 1001 4; CAffects 2;
   CFnEntry [109]; CLog (CfEnter 0); CLog (CfTainted 2 0); CLog (CfLeave 0); CFnExit 0; CWriteMem 4 None 1000 2].
Definition info_line_dec (a b : info_line) : {a = b} + {a <> b}.
Proof. repeat decide equality. Defined.
Example C115_case : exists h r s, api_run 8192 h r s /\ map fst h = info_calls /\
  run_stack Some [] (a_log s) [PyEnter [0]; PyTainted [0] 2; PyLeave [0]] [] /\
  info_run (mkInfo true true true true true true) (trace_file 8192 r) =
    Ok [ILabels 5; IFile 0 ([], [[97; 46; 116]]); IFile 1 ([47], [[98]]); IFunction 0 [109];
        ISink (mkSink 0 1 1) (PySource 0 0 false); ISink (mkSink 1 4 1) (PyUnion 3 1 false);
        INode 1 (PySource 0 0 false); INode 2 (PySource 0 1 true); INode 3 (PySource 1 7 false); INode 4 (PyUnion 3 1 false);
        IEvent EvEntry 0; IEvent EvExit 0; ILog (PyEnter [0]); ILog (PyTainted [0] 2); ILog (PyLeave [0])].
Proof.
  pose (want := [ILabels 5; IFile 0 ([], [[97; 46; 116]]); IFile 1 ([47], [[98]]); IFunction 0 [109];
        ISink (mkSink 0 1 1) (PySource 0 0 false); ISink (mkSink 1 4 1) (PyUnion 3 1 false);
        INode 1 (PySource 0 0 false); INode 2 (PySource 0 1 true); INode 3 (PySource 1 7 false); INode 4 (PyUnion 3 1 false);
        IEvent EvEntry 0; IEvent EvExit 0; ILog (PyEnter [0]); ILog (PyTainted [0] 2); ILog (PyLeave [0])]).
  destruct (demo_run 8192 info_calls (fun h r s =>
     match info_run (mkInfo true true true true true true) (trace_file 8192 r) with
     | Ok l => if list_eq_dec info_line_dec l want then
         match a_log s with [CfEnter 0; CfTainted 2 0; CfLeave 0] => true | _ => false end else false
     | _ => false end)) as (h & r & s & R & C & T).
  - vm_compute. reflexivity.
  - exists h, r, s. split; [exact R|]. split; [exact C|].
    destruct (info_run (mkInfo true true true true true true) (trace_file 8192 r)) as [l| | |]; try discriminate T.
    destruct (list_eq_dec info_line_dec l want) as [->|]; [|discriminate T]. split; [|reflexivity].
    assert (E : a_log s = [CfEnter 0; CfTainted 2 0; CfLeave 0]).
    { destruct (a_log s) as [|[f1| |] [|[| |l2 f2] [|[|f3|] [|]]]]; try discriminate T;
      repeat match type of T with (match ?z with _ => _ end) = true => destruct z; try discriminate T; try reflexivity end. }
    rewrite E. apply (run_enter Some [] 0 0); [reflexivity|]. apply (run_tainted Some [] 0 0); [reflexivity|].
    apply (run_leave Some [] 0 0); [reflexivity|]. constructor.
Qed.

(** The nodes of a trace file, as iterated over by a user of the Python interface: one for each
    label of the run, in order, saying what it was made from. *)
Theorem C30_nodes : forall base h r s paths fnames,
  mapped base shipped -> api_run base h r s ->
  are_texts (map reg_name (registered h)) paths -> are_texts (a_names s) fnames ->
  exists d n nodes, py_open (trace_file base r) = Ok d /\ td_label_count d = Ok n /\ td_nodes d = Ok nodes /\
    (forall l, 0 < l < n <-> a_lab s l <> []) /\
    Forall2 (describes s) (nseq 1 (N.to_nat (n - 1))) nodes.
Proof.
  intros base h r s paths fnames M R T1 T2. rewrite <- (run_regs _ _ _ _ R) in T1.
  destruct (run_opened base h r s paths fnames M R T1 T2) as (g & d & bits & A & E & O).
  assert (I := reachable_inv _ (ai_tr _ _ _ _ A)).
  assert (Ln : 1 <= len (r_tab r)) by (destruct (proj1 I) as (H & _); apply get_some in H; lia).
  destruct (py_map_rel (td_decode_node d) (describes s) (nseq 1 (N.to_nat (len (r_tab r) - 1))) (nseq 1 (N.to_nat (len (r_tab r) - 1)))) as (ys & Ey & F).
  - apply Forall2_diag. intros l Hl. apply in_nseq in Hl.
    destruct (decode_known base r s g d paths fnames bits l A O) as (n & En & Dn); [split; lia|]. eauto.
  - exists d, (len (r_tab r)), ys. split; [exact E|]. split; [exact (op_count _ _ _ _ _ _ _ O)|]. split.
    + unfold td_nodes. rewrite (op_count _ _ _ _ _ _ _ O). exact Ey.
    + split; [|exact F]. intros l. rewrite <- (proj1 (ai_lab _ _ _ _ A) l). unfold in_use. lia.
Qed.
Print Assumptions C30_nodes.
