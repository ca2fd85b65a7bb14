(** C54: whole executions of an instrumented program, from the environment and the results
    of libc calls to what the Python tools report.  Events, their plain meaning and
    [proc_run] are in S_Runtime. *)
From Coq Require Import NArith ZArith List Bool Lia.
From Verif Require Import M_Base M_Memory M_OutputFile M_PyFile M_PySections M_PyAnalysis M_Api M_Runtime
  M_CfLog M_Functions S_Strings S_Functions S_OutputFile S_Api S_History S_PyAnalysis S_Forest S_CallStack S_Labels S_Runtime
  P_Base P_CfLog P_History P_Api P_ApiFile P_ApiRun P_Runtime P_Argv P_ApiDemo P_ProcRun P_ProcDemo T_CfLog T_Api T_Forest T_Cavities.
Import ListNotations.
Open Scope N_scope.

(** What the plain states of a run say about outputs and inputs does not depend on labels. *)
Lemma depends_alike s s' paths np no sp so : alike s s' -> depends s paths np no sp so <-> depends s' paths np no sp so.
Proof.
  intros Al. unfold depends. assert (Ao := al_out _ _ Al). split; intros (i & pos & bs & j & I & J & Q).
  - destruct (Forall2_in_l _ _ _ _ Ao I) as ([[i' pos'] bs'] & I' & E1 & E2). cbn [fst snd] in *. inversion E1; subst i' pos'.
    exists i, pos, bs', j. split; [exact I'|]. split; [now apply E2|exact Q].
  - destruct (Forall2_in_r _ _ _ _ Ao I) as ([[i' pos'] bs'] & I' & E1 & E2). cbn [fst snd] in *. inversion E1; subst i' pos'.
    exists i, pos, bs', j. split; [exact I'|]. split; [now apply E2|exact Q].
Qed.

(** ** From processes to files *)
Lemma finish base argv fl p s fo fe : sim base argv fl p s ->
  exists h r s' p', polytracker_end p fo fe = Ok p' /\ p_tdag p' = Dead (rt_shutdown r) /\ api_run base h r s' /\ alike s s' /\
    Forall2 (entry_for s') fl (a_log s').
Proof.
  intros (_ & _ & _ & h & r & s' & Lv & Ru & Al & En). exists h, r, s'.
  unfold polytracker_end, get_tdag. rewrite Lv. cbn [bind]. eexists. split; [reflexivity|]. split; [|split; [exact Ru|split; [exact Al|exact En]]].
  cbn [p_tdag]. now destruct (0 <=? fo)%Z, (0 <=? fe)%Z.
Qed.

Lemma report_mapping base argv fl p s fo fe paths fnames : mapped base shipped -> sim base argv fl p s ->
  are_texts (map reg_name (a_regs s)) paths -> are_texts (a_names s) fnames ->
  exists p' file d fuel0 m, polytracker_end p fo fe = Ok p' /\ p_tdag p' = Dead file /\
    py_open (file_of base shipped file) = Ok d /\
    (forall fuel, (fuel0 <= fuel)%nat -> py_mapping fuel d = Ok m) /\
    forall np no sp so, In ((np, no), (sp, so)) m <-> depends s paths np no sp so.
Proof.
  intros M R T1 T2.
  destruct (finish base argv fl p s fo fe R) as (h & r & s' & p' & E & D & Ru & Al & _).
  rewrite (al_regs _ _ Al), (run_regs _ _ _ _ Ru) in T1. rewrite (al_names _ _ Al) in T2.
  destruct (C30_end_to_end base h r s' paths fnames M Ru T1 T2) as (d & F & m & O & Mp & Q).
  exists p', (rt_shutdown r), d, F, m. split; [exact E|]. split; [exact D|]. split; [exact O|]. split; [exact Mp|].
  intros np no sp so. rewrite Q. symmetry. now apply depends_alike.
Qed.

Lemma report_control_flow base argv fl p s fo fe paths fnames : mapped base shipped -> sim base argv fl p s ->
  are_texts (map reg_name (a_regs s)) paths -> are_texts (a_names s) fnames ->
  exists p' file d, polytracker_end p fo fe = Ok p' /\ p_tdag p' = Dead file /\
    py_open (file_of base shipped file) = Ok d /\
    forall f, forest_run d f -> exists bs f', inputs_affecting_control_flow d f = Ok (bs, f') /\
      forall x o, In (x, o) bs <-> exists i, In (i, o) (a_cf s) /\ input_at s paths i x.
Proof.
  intros M R T1 T2.
  destruct (finish base argv fl p s fo fe R) as (h & r & s' & p' & E & D & Ru & Al & _).
  rewrite (al_regs _ _ Al), (run_regs _ _ _ _ Ru) in T1. rewrite (al_names _ _ Al) in T2.
  destruct (C30_end_to_end base h r s' paths fnames M Ru T1 T2) as (d & F & m & O & _).
  exists p', (rt_shutdown r), d. split; [exact E|]. split; [exact D|]. split; [exact O|]. intros f Hf.
  destruct (C31_inputs_affecting_control_flow base h r s' paths fnames d (conj M (conj Ru (conj T1 (conj T2 O)))) f Hf) as (bs & f' & Q & _ & B).
  exists bs, f'. split; [exact Q|]. intros x o. rewrite B. unfold input_at. rewrite (al_regs _ _ Al).
  split; intros (i & I & J); exists i; (split; [now apply (al_cf _ _ Al)|exact J]).
Qed.

Lemma report_functions base argv fl p s fo fe paths fnames : mapped base shipped -> sim base argv fl p s ->
  are_texts (map reg_name (a_regs s)) paths -> are_texts (a_names s) fnames ->
  exists p' file d, polytracker_end p fo fe = Ok p' /\ p_tdag p' = Dead file /\
    py_open (file_of base shipped file) = Ok d /\
    map fst (td_fn_headers d) = fnames /\
    td_events d = Ok (map (fun e => (match fst e with EvEntry => 0 | EvExit => 1 end, snd e)) (a_events s)).
Proof.
  intros M R T1 T2.
  destruct (finish base argv fl p s fo fe R) as (h & r & s' & p' & E & D & Ru & Al & _).
  rewrite (al_regs _ _ Al) in T1. rewrite (al_names _ _ Al) in T2.
  destruct (run_opened base h r s' paths fnames M Ru T1 T2) as (g & d & bits & A & O & Op).
  exists p', (rt_shutdown r), d. split; [exact E|]. split; [exact D|]. split; [exact O|].
  split; [exact (op_fns _ _ _ _ _ _ _ Op)|]. rewrite (al_events _ _ Al). rewrite (op_events _ _ _ _ _ _ _ Op). reflexivity.
Qed.

Lemma report_log base argv fl p s fo fe paths fnames : mapped base shipped -> sim base argv fl p s ->
  are_texts (map reg_name (a_regs s)) paths -> are_texts (a_names s) fnames ->
  exists p' file d log es, polytracker_end p fo fe = Ok p' /\ p_tdag p' = Dead file /\
    py_open (file_of base shipped file) = Ok d /\
    py_by_type (td_sections d) 8 = Ok log /\ log = concat (map cf_buffer es) /\
    Forall2 (says d) fl es /\
    (forall names rs active, run_stack (get names) [] es rs active ->
       py_cf_iter bytes_eqb (get names) log = Ok (rs ++ leave_all active)) /\
    (nested_in [] es -> exists rs active, py_cf_iter N.eqb Some log = Ok (rs ++ leave_all active) /\ map reported rs = map Some es).
Proof.
  intros M R T1 T2.
  destruct (finish base argv fl p s fo fe R) as (h & r & s' & p' & E & D & Ru & Al & En).
  rewrite (al_regs _ _ Al) in T1. rewrite (al_names _ _ Al) in T2.
  destruct (run_opened base h r s' paths fnames M Ru T1 T2) as (g & d & bits & A & O & Op).
  exists p', (rt_shutdown r), d, (cf_bytes (a_log s')), (a_log s').
  split; [exact E|]. split; [exact D|]. split; [exact O|].
  split; [exact (op_log _ _ _ _ _ _ _ Op)|]. split; [reflexivity|]. split; [|split].
  - revert En. apply Forall2_impl'. intros [f|f|f bs] [f'|f'|l f'] H; cbn [entry_for says] in *; try contradiction; try congruence.
    destruct H as (-> & K & Sm). split; [reflexivity|]. intros b. destruct (ai_lab _ _ _ _ A) as [L1 L2].
    assert (U : in_use (r_tab r) l) by (apply L1; exact K). rewrite (Sm b), (L2 l b U).
    apply (opened_stands r s' g d paths fnames bits); auto. exact (proj1 (reachable_inv _ (ai_tr _ _ _ _ A))).
  - intros names rs active Rs. exact (C34_call_stacks names _ rs active Rs (ai_cfl _ _ _ _ A)).
  - intros Ne. destruct (nested_run [] _ Ne) as (rs & st & Rs & Mp). exists rs, st. split; [|exact Mp].
    exact (C34_call_stacks_ids _ rs st Rs (ai_cfl _ _ _ _ A)).
Qed.

(** ** The theorems *)
(** After any execution that stays within the limits, the shutdown handler runs, the file
    it leaves opens, and the reported mapping is the input/output relation of the
    execution. *)
Theorem C54_mapping : forall base e s0 evs p s fo fe paths fnames,
  mapped base shipped -> proc_run base e s0 evs p s ->
  are_texts (map reg_name (a_regs s)) paths -> are_texts (a_names s) fnames ->
  exists p' file d fuel0 m, polytracker_end p fo fe = Ok p' /\ p_tdag p' = Dead file /\
    py_open (file_of base shipped file) = Ok d /\
    (forall fuel, (fuel0 <= fuel)%nat -> py_mapping fuel d = Ok m) /\
    forall np no sp so, In ((np, no), (sp, so)) m <-> depends s paths np no sp so.
Proof.
  intros base e s0 evs p s fo fe paths fnames M R. exact (report_mapping _ _ _ _ _ _ _ _ _ M (proj2 (run_sim base e s0 evs p s M R))).
Qed.

(** ... and the input bytes reported as affecting control flow are those some branch of the
    execution depended on. *)
Theorem C54_control_flow : forall base e s0 evs p s fo fe paths fnames,
  mapped base shipped -> proc_run base e s0 evs p s ->
  are_texts (map reg_name (a_regs s)) paths -> are_texts (a_names s) fnames ->
  exists p' file d, polytracker_end p fo fe = Ok p' /\ p_tdag p' = Dead file /\
    py_open (file_of base shipped file) = Ok d /\
    forall f, forest_run d f -> exists bs f', inputs_affecting_control_flow d f = Ok (bs, f') /\
      forall x o, In (x, o) bs <-> exists i, In (i, o) (a_cf s) /\ input_at s paths i x.
Proof.
  intros base e s0 evs p s fo fe paths fnames M R. exact (report_control_flow _ _ _ _ _ _ _ _ _ M (proj2 (run_sim base e s0 evs p s M R))).
Qed.

(** ... and the function table and the event section list the functions entered, in the
    order of their first entry, and the entries and exits of instrumented functions. *)
Theorem C54_functions : forall base e s0 evs p s fo fe paths fnames,
  mapped base shipped -> proc_run base e s0 evs p s ->
  are_texts (map reg_name (a_regs s)) paths -> are_texts (a_names s) fnames ->
  exists p' file d, polytracker_end p fo fe = Ok p' /\ p_tdag p' = Dead file /\
    py_open (file_of base shipped file) = Ok d /\
    map fst (td_fn_headers d) = fnames /\
    td_events d = Ok (map (fun e => (match fst e with EvEntry => 0 | EvExit => 1 end, snd e)) (a_events s)).
Proof.
  intros base e s0 evs p s fo fe paths fnames M R. exact (report_functions _ _ _ _ _ _ _ _ _ M (proj2 (run_sim base e s0 evs p s M R))).
Qed.

(** ... and the control-flow log holds exactly the entries, exits and tainted decisions of
    the execution, in order, each decision with its function and with a label that stands
    for the bytes the decision depended on; so a reader that follows the call stacks of the
    execution reports them. *)
Theorem C54_log : forall base e s0 evs p s fo fe paths fnames,
  mapped base shipped -> proc_run base e s0 evs p s ->
  are_texts (map reg_name (a_regs s)) paths -> are_texts (a_names s) fnames ->
  exists p' file d log es, polytracker_end p fo fe = Ok p' /\ p_tdag p' = Dead file /\
    py_open (file_of base shipped file) = Ok d /\
    py_by_type (td_sections d) 8 = Ok log /\ log = concat (map cf_buffer es) /\
    Forall2 (says d) (flows (argv_on e) s0 evs) es /\
    (forall names rs active, run_stack (get names) [] es rs active ->
       py_cf_iter bytes_eqb (get names) log = Ok (rs ++ leave_all active)) /\
    (nested_in [] es -> exists rs active, py_cf_iter N.eqb Some log = Ok (rs ++ leave_all active) /\ map reported rs = map Some es).
Proof.
  intros base e s0 evs p s fo fe paths fnames M R. exact (report_log _ _ _ _ _ _ _ _ _ M (proj2 (run_sim base e s0 evs p s M R))).
Qed.

(** ** A concrete execution *)
(** The program is started as "a", with arguments tainted and stdout a sink; it reads four
    bytes of the file "i", two of them by getc, adds two of them, branches on the argument, maps the
    file, and writes the sum, copies, and a byte that is mapped no more. *)
Definition case_env : env := mkEnv (Some [49]) None None (Some [49]).
Definition case_events : list event :=
  [ EEnter [109]; ECfEnter 7; EArgv (fun a => if a =? 500 then 97 else 0) [(500, 1)];
    EOpen [105] 3 (Some 9); ERead 3 1000 0 2; EGetc 3 2 65 1010; EGetc 3 3 66 1011; EGetc 3 4 (-1) 1012;
    ECompute 1020 1001 1010; ECopy 1021 1000; EConst 1000; EBranch 500; ECfTainted 7 500; ECfTainted 7 1002; EConst 1001;
    EMmap 2 3 0 (Some 8192); ECopy 20000 8193; EMunmap 8192 2; EClose 3 0;
    EWrite 1 1020 (-1) 2; EPutc 66 1 (-1) 66 1011; EWrite 1 1000 (-1) 2; EWrite 1 20000 (-1) 1; EWrite 1 8193 (-1) 1; EExit 0; ECfLeave 7 ].
Definition mapping_in (p : proc) : Res (list ((py_path * N) * (py_path * Z))) :=
  do q <- polytracker_end p 1 2;
  match p_tdag q with Dead file => do d <- py_open (file_of 8192 shipped file); py_mapping 100 d | _ => UB end.

Example C54_case : exists s0 p s, proc_run 8192 case_env s0 case_events p s /\
  map reg_name (a_regs s) = [dev_stdout; argv_name 0; [105]] /\ a_names s = [[109]] /\
  a_out s = [(0, 0, [(2, 1); (2, 2)]); (0, 1, [(2, 0)]); (0, 2, [(2, 3)]); (0, 5, [(2, 1)])] /\ a_cf s = [(1, 0)] /\
  match mapping_in p with Ok m => len m = 5 | _ => False end.
Proof.
  destruct (exec_run_ok 8192 case_env case_events (fun p s =>
     list_eqb (list_eqb N.eqb) (map reg_name (a_regs s)) [dev_stdout; argv_name 0; [105]] &&
     list_eqb (list_eqb N.eqb) (a_names s) [[109]] &&
     list_eqb (fun x y => (fst (fst x) =? fst (fst y)) && (snd (fst x) =? snd (fst y)) && list_eqb pair_eqb (snd x) (snd y)) (a_out s)
       [(0, 0, [(2, 1); (2, 2)]); (0, 1, [(2, 0)]); (0, 2, [(2, 3)]); (0, 5, [(2, 1)])] &&
     list_eqb pair_eqb (a_cf s) [(1, 0)] &&
     match mapping_in p with Ok m => len m =? 5 | _ => false end)) as (s0 & p & s & R & T); [vm_compute; reflexivity|].
  apply andb_true_iff in T as [T T5]. apply andb_true_iff in T as [T T4]. apply andb_true_iff in T as [T T3]. apply andb_true_iff in T as [T1 T2].
  assert (Pe : forall x y, pair_eqb x y = true -> x = y).
  { intros [a b] [c d] H. unfold pair_eqb in H. cbn [fst snd] in H. apply andb_true_iff in H as [H1 H2]. apply N.eqb_eq in H1, H2. now subst. }
  exists s0, p, s. split; [exact R|]. split; [now apply names_eqb_eq|]. split; [now apply names_eqb_eq|]. split; [|split].
  - revert T3. apply list_eqb_eq. intros [[a b] l] [[c d] l'] H. cbn [fst snd] in H. apply andb_true_iff in H as [H H3]. apply andb_true_iff in H as [H1 H2].
    apply N.eqb_eq in H1, H2. apply (list_eqb_eq _ Pe) in H3. now subst.
  - revert T4. now apply list_eqb_eq.
  - destruct (mapping_in p); try discriminate. now apply N.eqb_eq.
Qed.

(** Its log: the decision on the argument is there with label 1, the one on the untainted
    byte is not. *)
Definition log_in (p : proc) : Res (list (py_cf_event N)) :=
  do q <- polytracker_end p 1 2;
  match p_tdag q with
  | Dead file => do d <- py_open (file_of 8192 shipped file); do log <- py_by_type (td_sections d) 8; py_cf_iter N.eqb Some log
  | _ => UB
  end.
Definition cf_event_eqb (x y : py_cf_event N) : bool :=
  match x, y with
  | PyEnter a, PyEnter b | PyLeave a, PyLeave b => list_eqb N.eqb a b
  | PyTainted a l, PyTainted b k => list_eqb N.eqb a b && (l =? k)
  | _, _ => false
  end.
Example C54_log_case : exists s0 p s, proc_run 8192 case_env s0 case_events p s /\
  log_in p = Ok [PyEnter [7]; PyTainted [7] 1; PyLeave [7]].
Proof.
  destruct (exec_run_ok 8192 case_env case_events (fun p _ =>
     match log_in p with Ok m => list_eqb cf_event_eqb m [PyEnter [7]; PyTainted [7] 1; PyLeave [7]] | _ => false end)) as (s0 & p & s & R & T); [vm_compute; reflexivity|].
  exists s0, p, s. split; [exact R|]. destruct (log_in p) as [m| | |]; try discriminate. f_equal. revert T. apply list_eqb_eq.
  assert (Ne : forall a b, list_eqb N.eqb a b = true -> a = b) by (apply list_eqb_eq; intros; now apply N.eqb_eq).
  intros [a|a|a l] [b|b|b k]; cbn [cf_event_eqb]; try discriminate; intros H; try (f_equal; now apply Ne).
  apply andb_true_iff in H as [H1 H2]. apply N.eqb_eq in H2. f_equal; auto.
Qed.

Print Assumptions C54_functions.
Print Assumptions C54_log.
Print Assumptions C54_mapping.
Print Assumptions C54_control_flow.
