(** C44-C46, C55-C57: the instrumentation passes. *)
From Coq Require Import NArith Arith List Bool Lia.
From Verif Require Import M_Base M_Memory M_Section M_Functions M_CfLog M_PySections M_Api M_Runtime M_Ir M_Passes S_Section S_CallStack S_Passes
  P_Base P_Section P_Ir P_Passes P_PassRun T_CfLog.
Import ListNotations.
Open Scope N_scope.

(** ** A program to try things on *)
(** "read": a declaration.  "loop": returns its parameter.  "main": reads a byte with label 7, calls loop,
    branches, indexes and selects with it and switches on it. *)
Definition rd (args : list val) (w : N) : option (val * N) := Some ((w, 7), w + 1).
Definition ex_loop : func N := mkFunc [108; 111; 111; 112] 1 [mkBlock [ICast 1 (OReg 0) 8 32] (TRet (OReg 1))].
Definition ex_main : func N := mkFunc [109; 97; 105; 110] 2
  [mkBlock [IOp 2 [] rd; ICall 3 (OConst 1) [OReg 2]] (TCondBr (OReg 3) 1 2);
   mkBlock [IGep 4 (OReg 1) [(OInt 0, 64); (OReg 3, 32)] (fun b is => (fst b + fst (last is (0, 0)), 0));
            ISelect 5 (OReg 3) (OInt 1) (OReg 2) (fun c a b => if fst c =? 0 then b else a)] (TSwitch (OReg 5) 32 [(3, 2); (5, 1)] 2);
   mkBlock [] (TRet (OReg 5))].
Definition ex_mod : modul N := [mkFunc [114; 101; 97; 100] 0 []; ex_loop; ex_main].
Definition ex_out {A B} (x : option (A * B)) : option B := option_map snd x.
Lemma ex_verified : verified ex_mod.
Proof. repeat constructor; cbn; intuition discriminate. Qed.
Lemma ex_narrow : narrow ex_mod.
Proof. repeat constructor; cbn; auto; try lia; repeat constructor; cbn; lia. Qed.

(** ** C44: function ids and functionid.json *)
(** The file parses to the names of the functions with a body, and the number of such a
    function in module order, which is the id its code reports (C55), is its place in the list. *)
Theorem C44_function_ids : forall W (M M' : modul W) js, tcf_pass M = (M', js) ->
  filter defined M <> [] -> Forall (fun f => plain_name (f_name f)) (filter defined M) ->
  exists names, json_strings js = Some names /\ len names = len (filter defined M) /\
    (forall i f, get M i = Some f -> defined f = true -> get names (rank M i) = Some (f_name f)) /\
    (forall i j f g, get M i = Some f -> get M j = Some g -> defined f = true -> defined g = true ->
       rank M i = rank M j -> i = j).
Proof.
  intros W M M' js E Ne Pl. exists (map f_name (filter defined M)). split; [now apply (tcf_json M M')|]. split; [unfold len; now rewrite map_length|].
  split; [intros i f G D; now apply rank_name|]. intros i j f g Gi Gj Di Dj Er.
  destruct (N.lt_trichotomy i j) as [L|[L|L]]; [exfalso| exact L|exfalso].
  - exact (rank_strict M i j f Gi Di L Er).
  - exact (rank_strict M j i g Gj Dj L (eq_sym Er)).
Qed.
(** Every report that the pass puts into a function carries the number of that function. *)
Theorem C44_embedded_ids : forall W (M M' : modul W) js i f f', tcf_pass M = (M', js) ->
  len (filter defined M) <= two32 -> get M i = Some f -> get M' i = Some f' ->
  Forall (fun b => Forall (fun x => forall d c, x = IRt d c ->
      carries (rank M i) c \/ exists b0, In b0 (f_blocks f) /\ In x (b_ins b0)) (b_ins b)) (f_blocks f').
Proof. intros W M M' js i f f' E L G G'. exact (embedded M M' js i f f' E L G G'). Qed.
Example C44_case : snd (tcf_pass ex_mod) = [91; 34; 108; 111; 111; 112; 34; 44; 10; 34; 109; 97; 105; 110; 34; 10; 93; 10] /\
  json_strings (snd (tcf_pass ex_mod)) = Some [[108; 111; 111; 112]; [109; 97; 105; 110]] /\ rank ex_mod 1 = 0 /\ rank ex_mod 2 = 1 /\
  Forall (fun f => plain_name (f_name f)) (filter defined ex_mod).
Proof. split; [vm_compute; reflexivity|]. split; [vm_compute; reflexivity|]. split; [vm_compute; reflexivity|]. split; [vm_compute; reflexivity|]. repeat constructor; lia. Qed.
(** Without functions, with a quote or with a control character in a name the file is not JSON;
    with a backslash it can say another name. *)
Theorem C44_json_refuted :
  json_strings (snd (tcf_pass (W := N) [])) = None /\
  json_strings (snd (tcf_pass [mkFunc [97; 34; 98] 0 (f_blocks ex_loop)])) = None /\
  json_strings (snd (tcf_pass [mkFunc [97; 1] 0 (f_blocks ex_loop)])) = None /\
  json_strings (snd (tcf_pass [mkFunc [97; 92; 110] 0 (f_blocks ex_loop)])) = Some [[97; 10]].
Proof. vm_compute. auto. Qed.

(** ** C45: conditions *)
Theorem C45_condition_kept : forall w v, 1 <= w <= 64 -> v < 2 ^ w ->
  sext_or_trunc 64 w (sext_or_trunc w 64 v) = v.
Proof. intros w v L H. rewrite sext_back by exact L. now apply N.mod_small. Qed.
(** The runtime's side of it, in an initialised process. *)
Theorem C45_callback : forall p v fid l old v' l' p', p_flag p = true ->
  cb_tainted_cf p v fid l old = Ok (v', l', p') -> v' = v /\ l' = l.
Proof.
  intros p v fid l old v' l' p' F E. unfold cb_tainted_cf in E. rewrite F in E. cbn [negb] in E.
  destruct (if 0 <? l then _ else _) as [q| | |]; try discriminate. cbn [bind] in E. injection E as <- <- _. auto.
Qed.
(** Wider conditions come back as the sign extension of their lower half. *)
Theorem C45_wide : forall w v, 64 < w -> v < 2 ^ w ->
  sext_or_trunc 64 w (sext_or_trunc w 64 v) = (if v mod 2 ^ 64 <? 2 ^ 63 then v mod 2 ^ 64 else v mod 2 ^ 64 + (2 ^ w - 2 ^ 64)).
Proof.
  intros w v L H. unfold sext_or_trunc. rewrite (N.mod_small v) by exact H.
  rewrite (proj2 (N.leb_le 64 w)) by lia. rewrite (proj2 (N.leb_gt w 64)) by lia.
  rewrite N.mod_mod by (apply N.pow_nonzero; lia). reflexivity.
Qed.
Theorem C45_wide_refuted : exists w v, v < 2 ^ w /\ sext_or_trunc 64 w (sext_or_trunc w 64 v) <> v.
Proof. exists 128, (2 ^ 64). split; [vm_compute; reflexivity|vm_compute; discriminate]. Qed.
Example C45_case : sext_or_trunc 32 64 4294967295 = 18446744073709551615 /\
  sext_or_trunc 64 32 18446744073709551615 = 4294967295 /\ sext_or_trunc 1 64 1 = 18446744073709551615.
Proof. vm_compute. auto. Qed.

(** ** C46: ignore lists *)
Theorem C46_ignored_names : forall files n,
  In n (read_ignore files) <-> exists bs l, In (Some bs) files /\ is_line l bs /\ names_function l n.
Proof. exact read_ignore_spec. Qed.
(** Lists that contain comments, empty lines and entries fun:NAME=CATEGORY only. *)
Theorem C46_ordinary_lists : forall files n,
  (forall bs l, In (Some bs) files -> is_line l bs -> ordinary_line l) ->
  (In n (read_ignore files) <-> exists bs, In (Some bs) files /\ is_line (fun_entry n discard) bs).
Proof. exact read_ignore_ordinary. Qed.
(** What it means to be on the list. *)
Theorem C46_excluded : forall W ignore op (M M' : modul W) i f, get M i = Some f -> In (f_name f) ignore ->
  get (ft_pass ignore M) i = Some f /\ (tt_pass ignore op M = Ok M' -> get M' i = Some f).
Proof. exact excluded. Qed.
(** "main" inside a name protects it, "discard" inside a name is enough, the part before the colon
    does not matter, and a star is no wildcard. *)
Theorem C46_ignore_refuted :
  read_ignore [Some (fun_entry [109; 97; 105; 110; 108; 111; 111; 112] discard)] = [] /\
  read_ignore [Some (fun_entry ([120; 95] ++ discard) [117; 110; 105; 110; 115; 116; 114; 117; 109; 101; 110; 116; 101; 100])] = [[120; 95] ++ discard] /\
  read_ignore [Some ([115; 114; 99; 58; 102; 111; 111; 61] ++ discard)] = [[102; 111; 111]] /\
  read_ignore [Some (fun_entry [42] discard)] = [[42]].
Proof. vm_compute. auto. Qed.
(** A file with a comment, two entries and an unfinished last line. *)
Example C46_case : let f := [35; 32; 120; 10] ++ fun_entry [102; 111; 111] discard ++ [10; 10] ++ fun_entry [97] [100; 105] ++ [10] ++ fun_entry [98] discard in
  read_ignore [None; Some f] = [[102; 111; 111]; [98]] /\ ordinary_line (fun_entry [102; 111; 111] discard).
Proof.
  split; [vm_compute; reflexivity|]. right. right. exists [102; 111; 111], discard. split; [reflexivity|]. split; [discriminate|].
  split; [cbn; intuition discriminate|]. split; [|auto]. intros X. apply contains_spec in X. vm_compute in X. discriminate.
Qed.

(** ** C55: control-flow instrumentation *)
(** The instrumented module does what the original does: whatever the original has done after
    some steps, the instrumented one does after at least as many, with the same outcome, and
    in between it reports exactly the entries, exits and values of decisions, in order. *)
Theorem C55_same_behaviour : forall W answer (M M' : modul W) js f args w n s os,
  fair answer -> verified M -> narrow M -> len (filter defined M) <= two32 -> tcf_pass M = (M', js) ->
  execution answer M f args w n = Some (s, os) ->
  exists m s', (n <= m)%nat /\ execution answer M' f args w m = Some (s', concat (map (flow_logged (rank M)) os)) /\ looks_same s s'.
Proof. intros W answer M M' js f args w n s os Fa V Nw L E Ex. exact (tcf_exec answer Fa M V Nw L f args w n s os M' js E Ex). Qed.

(** From compiler to reader: the log of an instrumented execution, read with the names of
    functionid.json, reports every entry, exit and tainted decision of the original
    execution with the functions active at that time, and at the end leaves for the
    functions still active. *)
Theorem C55_reported : forall W answer (M M' : modul W) js f args w n s os,
  fair answer -> verified M -> narrow M -> len (filter defined M) < two32 -> tcf_pass M = (M', js) ->
  Forall (fun f => plain_name (f_name f)) (filter defined M) ->
  execution answer M f args w n = Some (s, os) -> calls os = [] -> labels_fit os ->
  exists m s' os' names, (n <= m)%nat /\ execution answer M' f args w m = Some (s', os') /\ looks_same s s' /\
    json_strings js = Some names /\
    py_cf_iter bytes_eqb (get names) (concat (map cf_buffer (log_of os'))) =
      Ok (flow_reports (name_of M) [] os ++ leave_all (map (name_of M) (rev (map fr_fn (s_stack s))))).
Proof.
  intros W answer M M' js f args w n s os Fa V Nw L E Pl Ex C Lf.
  destruct (tcf_exec answer Fa M V Nw (N.lt_le_incl _ _ L) f args w n s os M' js E Ex) as (m & s' & Lm & Ex' & Lk).
  exists m, s', (concat (map (flow_logged (rank M)) os)), (map f_name (filter defined M)).
  split; [exact Lm|]. split; [exact Ex'|]. split; [exact Lk|].
  assert (B := exec_bodied answer M f args w n s os Ex). destruct (exec_proper answer M f args w n s os Ex) as [P A].
  split.
  - apply (tcf_json M M'); auto. assert (I0 : In (OEnter f) os).
    { unfold execution, start in Ex. destruct (enter M f args 0); [|discriminate]. destruct (run answer M n _) as [[]|]; [|discriminate]. injection Ex as <- <-. now left. }
    destruct (B f I0) as (fn & G & D). intros X. apply nth_error_In in G. assert (In fn (filter defined M)) by (apply filter_In; auto). now rewrite X in H.
  - rewrite <- A. apply C34_call_stacks.
    + apply (flow_run (rank M) (name_of M) (map f_name (filter defined M)) (bodied M)) with (st := []); auto.
      intros g (fn & G & D). unfold name_of. rewrite G. now apply rank_name.
    + apply flow_fits; auto. intros g. pose proof (rank_le M g). change (2 ^ 32) with two32. lia.
Qed.
(** The runtime's side: an initialised process that serves such calls hands back the
    conditions and writes exactly [logged] to its control-flow log. *)
Inductive serves : proc -> list (rtcall val) -> proc -> Prop :=
| sv_done p : serves p [] p
| sv_enter p i p1 cs p' : cb_enter p i = Ok p1 -> serves p1 cs p' -> serves p (RtEnter i :: cs) p'
| sv_leave p i p1 cs p' : cb_leave p i = Ok p1 -> serves p1 cs p' -> serves p (RtLeave i :: cs) p'
| sv_tainted p v l i old p1 cs p' : cb_tainted_cf p v i l old = Ok (v, l, p1) -> serves p1 cs p' ->
    serves p (RtTainted (v, l) i :: cs) p'.
Theorem C55_written : forall p r cs p', p_flag p = true -> p_tdag p = Live r -> serves p cs p' ->
  exists r', p_tdag p' = Live r' /\ p_flag p' = true /\
    cf_log_all (r_mem r) (r_cf r) (concat (map logged cs)) = Ok (r_mem r', r_cf r').
Proof.
  intros p r cs p' F L S. revert r F L. induction S as [p|p i p1 cs p' E S IH|p i p1 cs p' E S IH|p v l i old p1 cs p' E S IH]; intros r F L.
  - exists r. auto.
  - unfold cb_enter in E. rewrite F in E. cbn [negb] in E. unfold get_tdag in E. rewrite L in E. cbn [bind] in E. unfold rt_cf in E.
    destruct (cf_log (r_mem r) (r_cf r) (CfEnter i)) as [[m1 s1]| | |] eqn:Ec; try discriminate. cbn [bind fst snd] in E. injection E as <-.
    destruct (IH (set_cf r m1 s1)) as (r' & L' & F' & E'); [exact F|reflexivity|]. exists r'. split; [exact L'|]. split; [exact F'|].
    cbn [map logged concat app cf_log_all]. rewrite Ec. cbn [bind]. exact E'.
  - unfold cb_leave in E. rewrite F in E. cbn [negb] in E. unfold get_tdag in E. rewrite L in E. cbn [bind] in E. unfold rt_cf in E.
    destruct (cf_log (r_mem r) (r_cf r) (CfLeave i)) as [[m1 s1]| | |] eqn:Ec; try discriminate. cbn [bind fst snd] in E. injection E as <-.
    destruct (IH (set_cf r m1 s1)) as (r' & L' & F' & E'); [exact F|reflexivity|]. exists r'. split; [exact L'|]. split; [exact F'|].
    cbn [map logged concat app cf_log_all]. rewrite Ec. cbn [bind]. exact E'.
  - unfold cb_tainted_cf in E. rewrite F in E. cbn [negb] in E. cbn [map logged concat]. destruct (0 <? l).
    + unfold get_tdag in E. rewrite L in E. cbn [bind] in E. unfold rt_cf in E.
      destruct (cf_log (r_mem r) (r_cf r) (CfTainted l i)) as [[m1 s1]| | |] eqn:Ec; try discriminate. cbn [bind fst snd] in E. injection E as <-.
      destruct (IH (set_cf r m1 s1)) as (r' & L' & F' & E'); [exact F|reflexivity|]. exists r'. split; [exact L'|]. split; [exact F'|].
      cbn [app cf_log_all]. rewrite Ec. cbn [bind]. exact E'.
    + cbn [bind] in E. injection E as <-. cbn [app]. now apply IH.
Qed.
(** ... and it can always serve the next one while there is room in the log. *)
Theorem C55_served : forall p r c, p_flag p = true -> p_tdag p = Live r -> section_ok (r_cf r) ->
  Forall (fun e => cf_ok e /\ wit (r_cf r) + event_size e <= send (r_cf r)) (logged c) ->
  (forall v, c <> RtBranch v) -> (forall n k, c <> RtEntry n k) -> (forall v, c <> RtExit v) -> exists p', serves p [c] p'.
Proof.
  intros p r c F L K Fit N1 N2 N3.
  assert (W : forall e, cf_ok e -> wit (r_cf r) + event_size e <= send (r_cf r) -> exists r', rt_cf r e = Ok r').
  { intros e Ke Le. unfold rt_cf. destruct (C18_no_silent_loss (r_mem r) (r_cf r) e K Ke) as [(_ & m' & s' & ->)|(X & _)]; [cbn [bind]; eauto|lia]. }
  destruct c as [[v l] i|i|i|v|n k|v]; cbn [logged] in Fit.
  - destruct (0 <? l) eqn:El.
    + inversion Fit as [|x y (Ke & Le) _]; subst. destruct (W _ Ke Le) as (r' & Er). exists (set_rt p r'). apply (sv_tainted p v l i 0 (set_rt p r')); [|constructor].
      unfold cb_tainted_cf. rewrite F, El. cbn [negb]. unfold get_tdag. rewrite L. cbn [bind]. rewrite Er. reflexivity.
    + exists p. apply (sv_tainted p v l i 0 p); [|constructor]. unfold cb_tainted_cf. rewrite F, El. reflexivity.
  - inversion Fit as [|x y (Ke & Le) _]; subst. destruct (W _ Ke Le) as (r' & Er). exists (set_rt p r'). apply (sv_enter p i (set_rt p r')); [|constructor].
    unfold cb_enter. rewrite F. cbn [negb]. unfold get_tdag. rewrite L. cbn [bind]. rewrite Er. reflexivity.
  - inversion Fit as [|x y (Ke & Le) _]; subst. destruct (W _ Ke Le) as (r' & Er). exists (set_rt p r'). apply (sv_leave p i (set_rt p r')); [|constructor].
    unfold cb_leave. rewrite F. cbn [negb]. unfold get_tdag. rewrite L. cbn [bind]. rewrite Er. reflexivity.
  - now destruct (N1 v).
  - now destruct (N2 n k).
  - now destruct (N3 v).
Qed.
Example C55_case :
  let out := execution plain_answer ex_mod 2 [(1, 0); (1000, 0)] 3 9 in
  ex_out out = Some [OEnter 2; OEnter 1; OLeave 1; ODecide 2 DBranch [(1, (1, 7))]; ODecide 2 DIndex [(32, (3, 7))];
                     ODecide 2 DSelect [(1, (1, 7))]; ODecide 2 DSwitch [(32, (1, 0))]; OLeave 2] /\
  flow_reports (name_of ex_mod) [] [OEnter 2; OEnter 1; OLeave 1; ODecide 2 DIndex [(32, (3, 7)); (8, (3, 0))]] =
    [PyEnter [[109; 97; 105; 110]]; PyEnter [[109; 97; 105; 110]; [108; 111; 111; 112]]; PyLeave [[109; 97; 105; 110]; [108; 111; 111; 112]];
     PyTainted [[109; 97; 105; 110]] 7] /\
  ex_out (execution plain_answer (fst (tcf_pass ex_mod)) 2 [(1, 0); (1000, 0)] 3 25) =
    option_map (fun os => concat (map (flow_logged (rank ex_mod)) os)) (ex_out out) /\ fair plain_answer.
Proof. split; [vm_compute; reflexivity|]. split; [vm_compute; reflexivity|]. split; [vm_compute; reflexivity|exact plain_fair]. Qed.
(** A switch on 128 bits can go elsewhere once it is instrumented. *)
Definition ex_wide : modul N := [mkFunc [102] 1 [mkBlock [] (TSwitch (OReg 0) 128 [(0, 1)] 2); mkBlock [] (TRet (OInt 1)); mkBlock [] (TRet (OInt 2))]].
Theorem C55_wide_refuted :
  option_map (fun x => s_result (fst x)) (execution plain_answer ex_wide 0 [(2 ^ 64, 0)] 0 2) = Some (Some (2, 0)) /\
  option_map (fun x => s_result (fst x)) (execution plain_answer (fst (tcf_pass ex_wide)) 0 [(2 ^ 64, 0)] 0 7) = Some (Some (1, 0)).
Proof. vm_compute. auto. Qed.

(** ** C56: branch instrumentation *)
(** The instrumented module does what the original does with a main that first hands over its
    two parameters, and reports the values of the branches, switches and indices of the
    functions not ignored before they are used. *)
Theorem C56_same_behaviour : forall W answer ignore op (M M' : modul W) f args w n s os,
  fair answer -> verified M -> tt_pass ignore op M = Ok M' ->
  exists reg, (forall g, In g M -> fresh g <= reg g /\ 2 <= reg g) /\
    (execution answer (with_argv op (ignored ignore) reg M) f args w n = Some (s, os) ->
     exists m s', (n <= m)%nat /\ execution answer M' f args w m = Some (s', concat (map (branch_logged (skips ignore M)) os)) /\ looks_same s s').
Proof.
  intros W answer ignore op M M' f args w n s os Fa V E. exists tt_reg. split; [intros g _; unfold tt_reg; split; lia|].
  intros Ex. exact (tt_exec answer Fa ignore op M M' f args w n s os E V Ex).
Qed.
(** The pass is defined when main, unless ignored, has a body and two parameters. *)
Theorem C56_defined : forall W ignore op (M : modul W),
  (exists M', tt_pass ignore op M = Ok M') <->
  (forall f, In f M -> f_name f = [109; 97; 105; 110] -> ~ In (f_name f) ignore -> 2 <= f_params f /\ defined f = true).
Proof. exact tt_defined. Qed.
Theorem C56_main_refuted : exists M : modul N, verified M /\ tt_pass [] (fun _ w => Some ((0, 0), w)) M = UB.
Proof. exists [mkFunc [109; 97; 105; 110] 0 [mkBlock [] (TRet (OInt 0))]]. split; [repeat constructor; cbn; tauto|vm_compute; reflexivity]. Qed.
Example C56_case :
  match tt_pass [[108; 111; 111; 112]] (fun _ w => Some ((0, 0), w)) ex_mod with
  | Ok M' => ex_out (execution plain_answer M' 2 [(1, 0); (1000, 0)] 259 16)
  | _ => None
  end = Some [OEnter 2; OEnter 1; OLeave 1; ORt (RtBranch (4294967295, 7)); ODecide 2 DBranch [(1, (1, 7))];
              ORt (RtBranch (3, 7)); ODecide 2 DIndex [(32, (3, 7))]; ODecide 2 DSelect [(1, (1, 7))];
              ORt (RtBranch (1, 0)); ODecide 2 DSwitch [(32, (1, 0))]; OLeave 2].
Proof. vm_compute. reflexivity. Qed.

(** ** C57: function tracing *)
(** The instrumented module does what the original does and reports every entry into and exit
    from the functions not ignored, the exit with the answer to the report of its entry. *)
Theorem C57_same_behaviour : forall W answer ignore (M : modul W) f args w n s os,
  fair answer -> verified M -> calls_none is_entry M -> execution answer M f args w n = Some (s, os) ->
  exists m s', (n <= m)%nat /\
    execution answer (ft_pass ignore M) f args w m = Some (s', trace_logged answer (skips ignore M) (name_of M) [] [] os) /\ looks_same s s'.
Proof. intros W answer ignore M f args w n s os Fa V C Ex. exact (ft_exec answer Fa ignore M f args w n s os V C Ex). Qed.
(** With a runtime that numbers names the calls say exactly what happened. *)
Theorem C57_trace : forall W answer ignore (M : modul W) f args w n s os,
  fair answer -> numbers answer -> verified M -> calls_none (fun _ => true) M ->
  Forall (fun f => len (f_name f) < two16) M -> execution answer M f args w n = Some (s, os) ->
  exists m s' os', (n <= m)%nat /\ execution answer (ft_pass ignore M) f args w m = Some (s', os') /\ looks_same s s' /\
    concat (map (trace_said (name_table (calls os'))) (calls os')) = concat (map (traced (skips ignore M) (name_of M)) os).
Proof.
  intros W answer ignore M f args w n s os Fa Nu V C Sh Ex.
  assert (C1 : calls_none is_entry M).
  { revert C. unfold calls_none. intros C. eapply Forall_impl; [|exact C]. intros g Hg. eapply Forall_impl; [|exact Hg]. intros b Hb. eapply Forall_impl; [|exact Hb]. intros [] X; auto. discriminate. }
  destruct (ft_exec answer Fa ignore M f args w n s os V C1 Ex) as (m & s' & Lm & Ex' & Lk). exists m, s', (trace_logged answer (skips ignore M) (name_of M) [] [] os).
  split; [exact Lm|]. split; [exact Ex'|]. split; [exact Lk|].
  destruct (exec_proper answer M f args w n s os Ex) as [P _].
  apply (trace_ok answer Nu bytes_eqb_eq (skips ignore M) (name_of M)) with (st := []) (h := []).
  - intros g. unfold name_of. destruct (get M g) as [fn|] eqn:G; [|unfold two16; cbn; lia]. rewrite Forall_forall in Sh. apply Sh. now apply nth_error_In in G.
  - exact P.
  - exact (exec_no_calls answer M f args w n s os C Ex).
  - constructor.
  - reflexivity.
Qed.
Example C57_case :
  ex_out (execution plain_answer (ft_pass [] ex_mod) 2 [(1, 0); (1000, 0)] 3 13) =
    Some [OEnter 2; ORt (RtEntry [109; 97; 105; 110] 4); OEnter 1; ORt (RtEntry [108; 111; 111; 112] 4); ORt (RtExit (1, 0)); OLeave 1;
          ODecide 2 DBranch [(1, (1, 7))]; ODecide 2 DIndex [(32, (3, 7))]; ODecide 2 DSelect [(1, (1, 7))]; ODecide 2 DSwitch [(32, (1, 0))];
          ORt (RtExit (0, 0)); OLeave 2] /\ numbers plain_answer.
Proof. split; [vm_compute; reflexivity|exact plain_numbers]. Qed.
(** Names of 65536 bytes and more are cut: the length is passed as a 16-bit number. *)
Theorem C57_long_name_refuted : exists name, seen name (len name mod two16) <> name.
Proof. exact long_name. Qed.
Print Assumptions C44_function_ids.
Print Assumptions C44_embedded_ids.
Print Assumptions C44_json_refuted.
Print Assumptions C45_condition_kept.
Print Assumptions C45_callback.
Print Assumptions C45_wide.
Print Assumptions C45_wide_refuted.
Print Assumptions C46_ignored_names.
Print Assumptions C46_ordinary_lists.
Print Assumptions C46_excluded.
Print Assumptions C46_ignore_refuted.
Print Assumptions C55_same_behaviour.
Print Assumptions C55_reported.
Print Assumptions C55_written.
Print Assumptions C55_served.
Print Assumptions C55_wide_refuted.
Print Assumptions C56_same_behaviour.
Print Assumptions C56_defined.
Print Assumptions C56_main_refuted.
Print Assumptions C57_same_behaviour.
Print Assumptions C57_trace.
Print Assumptions C57_long_name_refuted.
