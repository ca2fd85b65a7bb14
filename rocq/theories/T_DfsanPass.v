(** C58, C59, C60: programs instrumented by the DFSan pass, against executions of the programs
    that keep track of dependence (S_DataFlow).

    An execution of the instrumented program: the process started ([boots]), main was
    entered ([tstart]) and a number of steps were made with answers [as_] of the outside
    world ([trun]). *)
From Coq Require Import NArith ZArith List Bool Lia.
From Verif Require Import M_Base M_Memory M_OutputFile M_PyFile M_PySections M_PyAnalysis M_Api M_Runtime M_CfLog M_Functions
  M_Llvm M_DfsanPass M_DfsanRun
  S_Strings S_Functions S_Labels S_Provenance S_OutputFile S_Api S_History S_PyAnalysis S_Forest S_CallStack S_Runtime S_DataFlow
  P_Base P_Api P_ApiDemo P_Runtime P_ProcRun P_ProcDemo P_DfsanCode P_DfsanFlow P_DfsanSim P_DfsanDemo T_ProcRun T_Cavities.
Import ListNotations.
Open Scope N_scope.

(** ** What is observed *)
(** Label [l] stands for exactly the input bytes [bs]; 0 is the label of untainted values. *)
Definition denotes (r : rt) (l : N) (bs : list byte_id) : Prop :=
  forall b, In b bs <-> l <> 0 /\ derives (view (r_tab r)) l b.

(** What the active functions are doing: function, block, the instructions left, registers,
    where the caller wants the result. *)
Definition state_of_program (fs : list frame) : list (N * N * list instr * term * regs * option N) :=
  map (fun fr => (f_fn fr, f_blk fr, f_rest fr, f_term fr, f_regs fr, f_dst fr)) fs.
Definition state_of_instrumented (fs : list tframe) : list (N * N * list instr * term * regs * option N) :=
  map (fun tf => (t_fn tf, t_blk tf, map g_ins (t_rest tf), t_term tf, t_regs tf, t_dst tf)) fs.

Lemma run_rel base e P main vals m p s0 T0 as_ T S0 : mapped base shipped -> boots base e p s0 ->
  tstart (instrument P) main vals m p T0 -> trun (instrument P) T0 as_ T ->
  sstart P main vals m s0 = Ok S0 -> behaved true (argv_on e) P S0 as_ ->
  exists S, srun true (argv_on e) P S0 as_ = Ok S /\ rel base (argv_on e) P S T.
Proof.
  intros M B Ts Tr E Be. destruct (start_flow base e P main vals m p s0 T0 M B Ts) as (S1 & E1 & R1). assert (S1 = S0) as -> by congruence.
  exact (run_flow base (argv_on e) P S0 T0 as_ T M R1 Tr Be).
Qed.

(** ** C58 *)
(** Instrumentation does not change what the program does: every execution of the
    instrumented program is an execution of the program with the same control flow,
    registers and memory. *)
Theorem C58_same_behaviour : forall base e P main vals m p s0 T0 as_ T S0,
  mapped base shipped -> boots base e p s0 ->
  tstart (instrument P) main vals m p T0 -> trun (instrument P) T0 as_ T ->
  sstart P main vals m s0 = Ok S0 -> behaved true (argv_on e) P S0 as_ ->
  exists S, srun true (argv_on e) P S0 as_ = Ok S /\
    t_mem T = s_mem S /\ state_of_instrumented (t_frames T) = state_of_program (s_frames S).
Proof.
  intros base e P main vals m p s0 T0 as_ T S0 M B Ts Tr E Be.
  destruct (run_rel base e P main vals m p s0 T0 as_ T S0 M B Ts Tr E Be) as (S & Es & R). exists S. split; [exact Es|]. exact (rel_same _ _ _ _ _ R).
Qed.

(** The label kept for every register in use, of every active function, and for every byte
    of memory stands for exactly the input bytes the value depends on. *)
Theorem C58_labels : forall base e P main vals m p s0 T0 as_ T S0 S r,
  mapped base shipped -> boots base e p s0 ->
  tstart (instrument P) main vals m p T0 -> trun (instrument P) T0 as_ T ->
  sstart P main vals m s0 = Ok S0 -> behaved true (argv_on e) P S0 as_ ->
  srun true (argv_on e) P S0 as_ = Ok S -> p_tdag (t_proc T) = Live r ->
  (forall a, a < two64 -> denotes r (r_shadow r a) (a_mem (s_ast S) a)) /\
  (forall above fr below x v, s_frames S = above ++ fr :: below -> f_regs fr x = Some v ->
     denotes r (r_shadow r (REG (len below) x)) (f_deps fr x)).
Proof.
  intros base e P main vals m p s0 T0 as_ T S0 S r M B Ts Tr E Be Es Lv.
  destruct (run_rel base e P main vals m p s0 T0 as_ T S0 M B Ts Tr E Be) as (S' & Es' & R). assert (S' = S) as -> by congruence. split.
  - intros a L. exact (rel_memory base _ P S T r a M R Lv L).
  - intros above fr below x v Ef Ev. exact (rel_register base _ P S T r M R Lv above fr below x v Ef Ev).
Qed.

(** ** C59 *)
(** The file left by the instrumented program reports the data flow of the program. *)
Lemma run_sim_flow base e P main vals m p s0 T0 as_ T S0 S : mapped base shipped -> boots base e p s0 ->
  tstart (instrument P) main vals m p T0 -> trun (instrument P) T0 as_ T ->
  sstart P main vals m s0 = Ok S0 -> behaved true (argv_on e) P S0 as_ -> srun true (argv_on e) P S0 as_ = Ok S ->
  exists t, sim base (argv_on e) (s_log S) (t_proc T) t /\ near low (s_ast S) t.
Proof.
  intros M B Ts Tr E Be Es. destruct (run_rel base e P main vals m p s0 T0 as_ T S0 M B Ts Tr E Be) as (S' & Es' & R). assert (S' = S) as -> by congruence.
  destruct R as (t & A & Nr & _). exists t. split; [now apply alive_sim|exact Nr].
Qed.

Theorem C59_mapping : forall base e P main vals m p s0 T0 as_ T S0 S fo fe paths fnames,
  mapped base shipped -> boots base e p s0 ->
  tstart (instrument P) main vals m p T0 -> trun (instrument P) T0 as_ T ->
  sstart P main vals m s0 = Ok S0 -> behaved true (argv_on e) P S0 as_ -> srun true (argv_on e) P S0 as_ = Ok S ->
  are_texts (map reg_name (a_regs (s_ast S))) paths -> are_texts (a_names (s_ast S)) fnames ->
  exists p' file d fuel0 mp, polytracker_end (t_proc T) fo fe = Ok p' /\ p_tdag p' = Dead file /\
    py_open (file_of base shipped file) = Ok d /\
    (forall fuel, (fuel0 <= fuel)%nat -> py_mapping fuel d = Ok mp) /\
    forall np no sp so, In ((np, no), (sp, so)) mp <-> depends (s_ast S) paths np no sp so.
Proof.
  intros base e P main vals m p s0 T0 as_ T S0 S fo fe paths fnames M B Ts Tr E Be Es T1 T2.
  destruct (run_sim_flow base e P main vals m p s0 T0 as_ T S0 S M B Ts Tr E Be Es) as (t & Sm & Nr).
  rewrite (nr_regs _ _ _ Nr) in T1. rewrite (nr_names _ _ _ Nr) in T2.
  destruct (report_mapping base _ _ _ t fo fe paths fnames M Sm T1 T2) as (p' & file & d & F & mp & H1 & H2 & H3 & H4 & H5).
  exists p', file, d, F, mp. repeat (split; [assumption|]). intros np no sp so. rewrite H5. symmetry.
  exact (depends_alike _ _ paths np no sp so (near_alike _ _ Nr)).
Qed.

Theorem C59_control_flow : forall base e P main vals m p s0 T0 as_ T S0 S fo fe paths fnames,
  mapped base shipped -> boots base e p s0 ->
  tstart (instrument P) main vals m p T0 -> trun (instrument P) T0 as_ T ->
  sstart P main vals m s0 = Ok S0 -> behaved true (argv_on e) P S0 as_ -> srun true (argv_on e) P S0 as_ = Ok S ->
  are_texts (map reg_name (a_regs (s_ast S))) paths -> are_texts (a_names (s_ast S)) fnames ->
  exists p' file d, polytracker_end (t_proc T) fo fe = Ok p' /\ p_tdag p' = Dead file /\
    py_open (file_of base shipped file) = Ok d /\
    forall f, forest_run d f -> exists bs f', inputs_affecting_control_flow d f = Ok (bs, f') /\
      forall x o, In (x, o) bs <-> exists i, In (i, o) (a_cf (s_ast S)) /\ input_at (s_ast S) paths i x.
Proof.
  intros base e P main vals m p s0 T0 as_ T S0 S fo fe paths fnames M B Ts Tr E Be Es T1 T2.
  destruct (run_sim_flow base e P main vals m p s0 T0 as_ T S0 S M B Ts Tr E Be Es) as (t & Sm & Nr).
  rewrite (nr_regs _ _ _ Nr) in T1. rewrite (nr_names _ _ _ Nr) in T2.
  destruct (report_control_flow base _ _ _ t fo fe paths fnames M Sm T1 T2) as (p' & file & d & H1 & H2 & H3 & H4).
  exists p', file, d. repeat (split; [assumption|]). intros f Hf. destruct (H4 f Hf) as (bs & f' & Q & Hb). exists bs, f'. split; [exact Q|].
  intros x o. rewrite Hb. unfold input_at. rewrite (nr_regs _ _ _ Nr).
  split; intros (i & I & J); exists i; (split; [now apply (nr_cf _ _ _ Nr)|exact J]).
Qed.

Theorem C59_functions : forall base e P main vals m p s0 T0 as_ T S0 S fo fe paths fnames,
  mapped base shipped -> boots base e p s0 ->
  tstart (instrument P) main vals m p T0 -> trun (instrument P) T0 as_ T ->
  sstart P main vals m s0 = Ok S0 -> behaved true (argv_on e) P S0 as_ -> srun true (argv_on e) P S0 as_ = Ok S ->
  are_texts (map reg_name (a_regs (s_ast S))) paths -> are_texts (a_names (s_ast S)) fnames ->
  exists p' file d, polytracker_end (t_proc T) fo fe = Ok p' /\ p_tdag p' = Dead file /\
    py_open (file_of base shipped file) = Ok d /\
    map fst (td_fn_headers d) = fnames /\
    td_events d = Ok (map (fun e => (match fst e with EvEntry => 0 | EvExit => 1 end, snd e)) (a_events (s_ast S))).
Proof.
  intros base e P main vals m p s0 T0 as_ T S0 S fo fe paths fnames M B Ts Tr E Be Es T1 T2.
  destruct (run_sim_flow base e P main vals m p s0 T0 as_ T S0 S M B Ts Tr E Be Es) as (t & Sm & Nr).
  rewrite (nr_regs _ _ _ Nr) in T1. rewrite (nr_names _ _ _ Nr) in T2. rewrite (nr_events _ _ _ Nr).
  exact (report_functions base _ _ _ t fo fe paths fnames M Sm T1 T2).
Qed.

Theorem C59_log : forall base e P main vals m p s0 T0 as_ T S0 S fo fe paths fnames,
  mapped base shipped -> boots base e p s0 ->
  tstart (instrument P) main vals m p T0 -> trun (instrument P) T0 as_ T ->
  sstart P main vals m s0 = Ok S0 -> behaved true (argv_on e) P S0 as_ -> srun true (argv_on e) P S0 as_ = Ok S ->
  are_texts (map reg_name (a_regs (s_ast S))) paths -> are_texts (a_names (s_ast S)) fnames ->
  exists p' file d log es, polytracker_end (t_proc T) fo fe = Ok p' /\ p_tdag p' = Dead file /\
    py_open (file_of base shipped file) = Ok d /\
    py_by_type (td_sections d) 8 = Ok log /\ log = concat (map cf_buffer es) /\
    Forall2 (says d) (s_log S) es /\
    (forall names rs active, run_stack (get names) [] es rs active ->
       py_cf_iter bytes_eqb (get names) log = Ok (rs ++ leave_all active)) /\
    (nested_in [] es -> exists rs active, py_cf_iter N.eqb Some log = Ok (rs ++ leave_all active) /\ map reported rs = map Some es).
Proof.
  intros base e P main vals m p s0 T0 as_ T S0 S fo fe paths fnames M B Ts Tr E Be Es T1 T2.
  destruct (run_sim_flow base e P main vals m p s0 T0 as_ T S0 S M B Ts Tr E Be Es) as (t & Sm & Nr).
  rewrite (nr_regs _ _ _ Nr) in T1. rewrite (nr_names _ _ _ Nr) in T2.
  exact (report_log base _ _ _ t fo fe paths fnames M Sm T1 T2).
Qed.

(** ** C60 *)
(** Full statement: the labels stand for the whole dependence, i.e. that of [srun false].
    This is proved for programs without atomic accesses and without calls with more than 200
    arguments, and refuted for others. *)
Theorem C60_nothing_lost_partial : forall base e P main vals m p s0 T0 as_ T S0 S r,
  lossless_prog P -> mapped base shipped -> boots base e p s0 ->
  tstart (instrument P) main vals m p T0 -> trun (instrument P) T0 as_ T ->
  sstart P main vals m s0 = Ok S0 -> behaved false (argv_on e) P S0 as_ ->
  srun false (argv_on e) P S0 as_ = Ok S -> p_tdag (t_proc T) = Live r ->
  (forall a, a < two64 -> denotes r (r_shadow r a) (a_mem (s_ast S) a)) /\
  (forall above fr below x v, s_frames S = above ++ fr :: below -> f_regs fr x = Some v ->
     denotes r (r_shadow r (REG (len below) x)) (f_deps fr x)).
Proof.
  intros base e P main vals m p s0 T0 as_ T S0 S r Lp M B Ts Tr E Be Es Lv.
  destruct (run_lossless (argv_on e) P as_ Lp S0 (start_lossless P main vals m s0 S0 Lp E)) as [Q1 Q2]. rewrite Q1 in Es.
  exact (C58_labels base e P main vals m p s0 T0 as_ T S0 S r M B Ts Tr E (Q2 Be) Es Lv).
Qed.

(** ** A concrete execution *)
(** main opens the file "i", reads four bytes to 1000, adds the two-byte word at 1000 and the
    byte at 1002 in a function, stores the sum at 2000, copies it to 3000 in a loop that runs twice, branching on
    the byte at 1003, and writes 3000 to stdout. *)
Definition add2 : comp := pure (fun l => match l with [a; b] => Some ((a + b) mod 65536) | _ => None end).
Definition lt2 : comp := pure (fun l => match l with [a] => Some (if a <? 2 then 1 else 0) | _ => None end).
Definition demo_main : func := mkFunc true []
  [ mkBlock []
      [ ILib None (LEnter [109]) []; ILib None LCfEnter [OConst 7];
        ILib (Some 1) LOpen [OConst 100; OConst 0];
        ILib (Some 2) LRead [OReg 1; OConst 1000; OConst 4];
        ILoad 3 (OConst 1000) 2 false;
        ILoad 4 (OConst 1002) 1 false;
        ILoad 9 (OConst 1003) 1 false;
        ICall (Some 5) (OConst 1) [OReg 3; OReg 4];
        IStore (OReg 5) (OConst 2000) 2 false ]
      (Br 1);
    mkBlock [mkPhi 6 [(0, OConst 0); (1, OReg 7)]; mkPhi 10 [(0, OReg 4); (1, OReg 9)]]
      [ IMemmove (OConst 3000) (OConst 2000) (OConst 2);
        IComp 7 [OReg 6; OConst 1] add2;
        IComp 8 [OReg 7] lt2;
        ILib None LTainted [OReg 9; OConst 7];
        ILib None LBranch [OReg 9] ]
      (CondBr (OReg 8) 1 2);
    mkBlock []
      [ ILib None LWrite [OConst 1; OConst 3000; OConst 2]; ILib None LCfLeave [OConst 7] ]
      (Ret (Some (OConst 0))) ].
Definition demo_add : func := mkFunc false [1; 2] [ mkBlock [] [IComp 3 [OReg 1; OReg 2] add2] (Ret (Some (OReg 3))) ].
Definition demo : prog := [demo_main; demo_add].

Definition memory_of (l : list (N * N)) : mem := fun a => match lookup l a with Some v => v | None => 0 end.
Definition m0 : mem := memory_of [(100, 105)].
Definition m1 : mem := memory_of [(100, 105); (1000, 1); (1001, 2); (1002, 3); (1003, 4)].
Definition m2 : mem := memory_of [(100, 105); (1000, 1); (1001, 2); (1002, 3); (1003, 4); (2000, 4); (2001, 2); (3000, 4); (3001, 2)].
Definition quiet (m : mem) : answer := mkAnswer 0 m 0 0 0 0 [] None [].
Definition demo_answers : list answer :=
  [quiet m0; quiet m0; mkAnswer 0 m0 3 0 0 0 [105] (Some 9) []; mkAnswer 0 m1 3 0 4 0 [] None []] ++
  repeat (quiet m1) 8 ++                              (* loads, call, compute, return, store, branch *)
  repeat (quiet m2) 12 ++                             (* two turns of the loop *)
  [mkAnswer 0 m2 1 (-1) 2 0 [] None []; quiet m2].
Definition demo_env : env := mkEnv (Some [49]) None None None.

Definition ids_eqb : list byte_id -> list byte_id -> bool := list_eqb pair_eqb.
Lemma ids_eqb_eq a b : ids_eqb a b = true -> a = b.
Proof.
  apply list_eqb_eq. intros [x y] [u v] H. unfold pair_eqb in H. cbn [fst snd] in H. apply andb_true_iff in H as [H1 H2]. apply N.eqb_eq in H1, H2. now subst.
Qed.

(** After the loop: the sum depends on three bytes of the input, its label is not 0, the phi
    took the second branch; the third byte is not in the output of anything but the sum; the
    decisions are in the log. *)
Example C58_case : exists p s0 T0 S0 T S, boots 8192 demo_env p s0 /\
  tstart (instrument demo) 0 [] m0 p T0 /\ trun (instrument demo) T0 demo_answers T /\
  sstart demo 0 [] m0 s0 = Ok S0 /\ behaved true (argv_on demo_env) demo S0 demo_answers /\
  srun true (argv_on demo_env) demo S0 demo_answers = Ok S /\
  (exists fr, s_frames S = [fr] /\ f_regs fr 5 = Some 516 /\ f_deps fr 5 = [(1, 0); (1, 1); (1, 2)] /\ f_deps fr 10 = [(1, 3)]) /\
  a_out (s_ast S) = [(0, 0, [(1, 0); (1, 1); (1, 2)]); (0, 1, [(1, 0); (1, 1); (1, 2)])] /\
  a_cf (s_ast S) = [(1, 3); (1, 3)] /\ len (s_log S) = 4 /\
  (exists r, p_tdag (t_proc T) = Live r /\ r_shadow r (REG 0 5) = 6) /\
  match mapping_in (t_proc T) with Ok mp => len mp = 6 | _ => False end.
Proof.
  destruct (exec_prog_ok 8192 demo_env true demo 0 [] m0 demo_answers (fun s t =>
    match s_frames s with
    | [fr] => match f_regs fr 5 with Some v => v =? 516 | None => false end && ids_eqb (f_deps fr 5) [(1, 0); (1, 1); (1, 2)] && ids_eqb (f_deps fr 10) [(1, 3)]
    | _ => false
    end &&
    list_eqb (fun x y => (fst (fst x) =? fst (fst y)) && (snd (fst x) =? snd (fst y)) && ids_eqb (snd x) (snd y)) (a_out (s_ast s))
      [(0, 0, [(1, 0); (1, 1); (1, 2)]); (0, 1, [(1, 0); (1, 1); (1, 2)])] &&
    ids_eqb (a_cf (s_ast s)) [(1, 3); (1, 3)] && (len (s_log s) =? 4) &&
    match p_tdag (t_proc t) with Live r => r_shadow r (REG 0 5) =? 6 | _ => false end &&
    match mapping_in (t_proc t) with Ok mp => len mp =? 6 | _ => false end))
    as (p & s0 & T0 & S0 & T & S & B & Ts & Tr & E & Be & Es & C); [vm_compute; reflexivity|].
  exists p, s0, T0, S0, T, S. repeat (split; [assumption|]). clear B Ts Tr E Be Es.
  apply andb_true_iff in C as [C C6]. apply andb_true_iff in C as [C C5]. apply andb_true_iff in C as [C C4]. apply andb_true_iff in C as [C C3]. apply andb_true_iff in C as [C1 C2].
  split; [|split; [|split; [|split; [|split]]]].
  - destruct (s_frames S) as [|fr [|]]; try discriminate. exists fr. apply andb_true_iff in C1 as [C1 D3]. apply andb_true_iff in C1 as [D1 D2].
    destruct (f_regs fr 5) as [v|]; [|discriminate]. apply N.eqb_eq in D1. subst v. repeat split; now apply ids_eqb_eq.
  - revert C2. apply list_eqb_eq. intros [[a b] l] [[c d] l'] H. cbn [fst snd] in H. apply andb_true_iff in H as [H H3]. apply andb_true_iff in H as [H1 H2].
    apply N.eqb_eq in H1, H2. apply ids_eqb_eq in H3. now subst.
  - now apply ids_eqb_eq.
  - now apply N.eqb_eq.
  - destruct (p_tdag (t_proc T)) as [|r|r]; try discriminate. exists r. split; [reflexivity|now apply N.eqb_eq].
  - destruct (mapping_in (t_proc T)); try discriminate. now apply N.eqb_eq.
Qed.
Example C60_case : lossless_prog demo.
Proof. intros f b [<-|[<-|[]]] I; repeat (destruct I as [<-|I]; [reflexivity|]); destruct I. Qed.

(** ** What is lost *)
(** The statement of C60 for a program [P]: with the conditions above, the labels of the
    registers of the running function stand for the whole dependence. *)
Definition keeps_everything (P : prog) : Prop :=
  forall base e main vals m p s0 T0 as_ T S0 S r fr below x v,
  mapped base shipped -> boots base e p s0 ->
  tstart (instrument P) main vals m p T0 -> trun (instrument P) T0 as_ T ->
  sstart P main vals m s0 = Ok S0 -> behaved false (argv_on e) P S0 as_ ->
  srun false (argv_on e) P S0 as_ = Ok S -> p_tdag (t_proc T) = Live r ->
  s_frames S = fr :: below -> f_regs fr x = Some v -> denotes r (r_shadow r (REG (len below) x)) (f_deps fr x).

Lemma lost P as_ m x : match exec_prog 8192 demo_env false P 0 [] m as_ with
    | Ok (s, t) => match s_frames s, p_tdag (t_proc t) with
                   | fr :: below, Live r => match f_regs fr x, f_deps fr x with Some _, _ :: _ => r_shadow r (REG (len below) x) =? 0 | _, _ => false end
                   | _, _ => false
                   end
    | _ => false
    end = true -> ~ keeps_everything P.
Proof.
  intros H K. apply exec_prog_ok in H as (p & s0 & T0 & S0 & T & S & B & Ts & Tr & E & Be & Es & C).
  destruct (s_frames S) as [|fr below] eqn:Ef; [discriminate|]. destruct (p_tdag (t_proc T)) as [|r|r] eqn:Et; try discriminate.
  destruct (f_regs fr x) as [v|] eqn:Ev; [|discriminate]. destruct (f_deps fr x) as [|b bs] eqn:Ed; [discriminate|].
  apply N.eqb_eq in C. assert (M : mapped 8192 shipped) by (split; vm_compute; reflexivity).
  assert (D := K 8192 demo_env 0 [] m p s0 T0 as_ T S0 S r fr below x v M B Ts Tr E Be Es Et Ef Ev b). rewrite Ed, C in D.
  destruct (proj1 D (or_introl eq_refl)) as [Q _]. now apply Q.
Qed.

(** A byte that is stored and loaded again; only the store is atomic. *)
Definition via_store (atomic : bool) : prog :=
  [ mkFunc true [] [ mkBlock []
      [ ILib (Some 1) LOpen [OConst 100; OConst 0]; ILib (Some 2) LRead [OReg 1; OConst 1000; OConst 1];
        ILoad 3 (OConst 1000) 1 false; IStore (OReg 3) (OConst 2000) 1 atomic; ILoad 4 (OConst 2000) 1 false ]
      (Ret None) ] ].
(** A byte that an atomic exchange returns. *)
Definition via_exchange : prog :=
  [ mkFunc true [] [ mkBlock []
      [ ILib (Some 1) LOpen [OConst 100; OConst 0]; ILib (Some 2) LRead [OReg 1; OConst 1000; OConst 1];
        IRmw 4 (OConst 1000) (OConst 0) 1 (fun _ new => new) ]
      (Ret None) ] ].
(** A byte that is the [n]+1st argument of a function. *)
Definition via_argument (n : nat) : prog :=
  [ mkFunc true [] [ mkBlock []
      [ ILib (Some 1) LOpen [OConst 100; OConst 0]; ILib (Some 2) LRead [OReg 1; OConst 1000; OConst 1];
        ILoad 3 (OConst 1000) 1 false; ICall None (OConst 1) (map OConst (nseq 0 n) ++ [OReg 3]) ]
      (Ret None) ];
    mkFunc false (nseq 0 n ++ [500]) [ mkBlock [] [] (Ret None) ] ].
Definition short_answers : list answer :=
  [mkAnswer 0 m0 3 0 0 0 [105] (Some 9) []; mkAnswer 0 m1 3 0 1 0 [] None []; quiet m1; quiet m1].

Theorem C60_atomic_store_refuted : ~ keeps_everything (via_store true).
Proof. apply (lost _ (short_answers ++ [quiet m1]) m0 4). vm_compute. reflexivity. Qed.
Theorem C60_atomic_exchange_refuted : ~ keeps_everything via_exchange.
Proof. apply (lost _ (firstn 3 short_answers) m0 4). vm_compute. reflexivity. Qed.
Theorem C60_arguments_refuted : ~ keeps_everything (via_argument 200).
Proof. apply (lost _ short_answers m0 500). vm_compute. reflexivity. Qed.
(** Without the atomic store, and with one argument less, nothing is lost. *)
Example C60_near_misses : lossless_prog (via_store false) /\ lossless_prog (via_argument 199).
Proof.
  split; intros f b I J; repeat (destruct I as [<-|I]; [repeat (destruct J as [<-|J]; [vm_compute; reflexivity|]); destruct J|]); destruct I.
Qed.

Print Assumptions C58_labels.
Print Assumptions C58_same_behaviour.
Print Assumptions C59_control_flow.
Print Assumptions C59_functions.
Print Assumptions C59_log.
Print Assumptions C59_mapping.
Print Assumptions C60_arguments_refuted.
Print Assumptions C60_atomic_exchange_refuted.
Print Assumptions C60_atomic_store_refuted.
Print Assumptions C60_nothing_lost_partial.
