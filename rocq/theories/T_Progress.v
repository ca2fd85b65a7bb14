(** C61: the instrumented program can perform every execution of the program, as long as the
    runtime's tables have room.  S_Demand says what an execution may need of them. *)
From Coq Require Import NArith ZArith List Bool Lia.
From Verif Require Import M_Base M_Memory M_OutputFile M_PyFile M_PySections M_PyAnalysis M_Api M_Runtime M_CfLog M_Functions
  M_Llvm M_DfsanPass M_DfsanRun
  S_Strings S_Functions S_Labels S_Provenance S_OutputFile S_Api S_History S_PyAnalysis S_Forest S_CallStack S_Runtime S_DataFlow S_Demand
  P_Base P_Api P_ApiDemo P_Runtime P_ProcRun P_ProcDemo P_DfsanCode P_DfsanFlow P_DfsanSim P_DfsanDemo P_Progress P_ProgressRun T_ProcRun T_Cavities T_DfsanPass.
Import ListNotations.
Open Scope N_scope.

(** ** Start *)
(** The runtime starts, whatever the environment says, wherever the output got mapped; one
    entry of the table of labels is taken. *)
Theorem C61_start : forall base e fo fe fi so se si,
  mapped base shipped -> (fo < 2 ^ 31 /\ fe < 2 ^ 31 /\ fi < 2 ^ 31)%Z ->
  (forall n, so = Some n \/ se = Some n \/ si = Some n -> n < 2 ^ 64 - 1) ->
  exists p r, cb_start proc_start e base fo fe fi so se si = Ok p /\ p_tdag p = Live r /\ len (r_tab r) = 1.
Proof. exact start_total. Qed.

(** If the program can enter main, so can the instrumented program. *)
Theorem C61_main : forall base e P main vals m p s0 S0,
  mapped base shipped -> boots base e p s0 -> sstart P main vals m s0 = Ok S0 ->
  exists T0 r, tstart (instrument P) main vals m p T0 /\ p_tdag (t_proc T0) = Live r /\ len (r_tab r) <= 1.
Proof. exact main_total. Qed.

(** ** Progress *)
(** At whatever point the instrumented program is: if the program can go on from there, with
    answers [bs], the instrumented program can go on in the same way, provided that the
    labels in use and those [bs] may need fit in the table. *)
Theorem C61_progress : forall base e P main vals m p s0 T0 as_ T S0 S bs S' r,
  mapped base shipped -> boots base e p s0 ->
  tstart (instrument P) main vals m p T0 -> trun (instrument P) T0 as_ T ->
  sstart P main vals m s0 = Ok S0 -> behaved true (argv_on e) P S0 (as_ ++ bs) ->
  srun true (argv_on e) P S0 as_ = Ok S -> srun true (argv_on e) P S bs = Ok S' ->
  serviceable true (argv_on e) P S bs ->
  p_tdag (t_proc T) = Live r -> len (r_tab r) + run_labels true (argv_on e) P S bs <= 2 ^ 31 - 64 ->
  exists T' r', trun (instrument P) T0 (as_ ++ bs) T' /\
    p_tdag (t_proc T') = Live r' /\ len (r_tab r') <= len (r_tab r) + run_labels true (argv_on e) P S bs /\
    t_mem T' = s_mem S' /\ state_of_instrumented (t_frames T') = state_of_program (s_frames S').
Proof.
  intros base e P main vals m p s0 T0 as_ T S0 S bs S' r M B Ts Tr E Be Es Es' Se Lv Rm.
  destruct (behaved_app _ _ _ _ _ _ Be) as [Be1 Be2].
  destruct (run_rel base e P main vals m p s0 T0 as_ T S0 M B Ts Tr E Be1) as (Q & Eq & R). assert (Q = S) as -> by congruence.
  destruct (run_total base (argv_on e) P T0 bs M as_ S T S' R Tr Es' (Be2 S Es) Se) as (T' & Tr' & r1 & r' & L1 & L2 & U).
  { exists r. split; [exact Lv|]. exact Rm. }
  assert (r1 = r) as -> by congruence. exists T', r'. split; [exact Tr'|]. split; [exact L2|]. split; [exact U|].
  destruct (C58_same_behaviour base e P main vals m p s0 T0 (as_ ++ bs) T' S0 M B Ts Tr' E Be) as (S2 & E2 & Q). assert (S2 = S') as ->; [|exact Q].
  rewrite srun_app, Es in E2. cbn [bind] in E2. congruence.
Qed.

(** ** From start to finish *)
(** Every execution of the program has its counterpart, from the start of the process to
    the file, in which the Python tools find its data flow. *)
Theorem C61_reported : forall base e P main vals m fo fe fi so se si as_ S0 S paths fnames,
  mapped base shipped -> (fo < 2 ^ 31 /\ fe < 2 ^ 31 /\ fi < 2 ^ 31)%Z ->
  (forall n, so = Some n \/ se = Some n \/ si = Some n -> n < 2 ^ 64 - 1) ->
  sstart P main vals m (fold_left (estep (argv_on e)) (stream_events e fo fe fi so se si) a_init) = Ok S0 ->
  srun true (argv_on e) P S0 as_ = Ok S ->
  behaved true (argv_on e) P S0 as_ -> serviceable true (argv_on e) P S0 as_ ->
  1 + run_labels true (argv_on e) P S0 as_ <= 2 ^ 31 - 64 ->
  are_texts (map reg_name (a_regs (s_ast S))) paths -> are_texts (a_names (s_ast S)) fnames ->
  exists p T0 T p' file d fuel0 mp,
    cb_start proc_start e base fo fe fi so se si = Ok p /\
    tstart (instrument P) main vals m p T0 /\ trun (instrument P) T0 as_ T /\
    polytracker_end (t_proc T) fo fe = Ok p' /\ p_tdag p' = Dead file /\
    py_open (file_of base shipped file) = Ok d /\
    (forall fuel, (fuel0 <= fuel)%nat -> py_mapping fuel d = Ok mp) /\
    forall np no sp so, In ((np, no), (sp, so)) mp <-> depends (s_ast S) paths np no sp so.
Proof.
  intros base e P main vals m fo fe fi so se si as_ S0 S paths fnames M F Sz E Es Be Se Rm T1 T2.
  destruct (start_total base e fo fe fi so se si M F Sz) as (p & r0 & Ep & _).
  assert (B : boots base e p (fold_left (estep (argv_on e)) (stream_events e fo fe fi so se si) a_init)) by now apply boots_start.
  destruct (main_total base e P main vals m p _ S0 M B E) as (T0 & r & Ts & Lv & L).
  destruct (C61_progress base e P main vals m p _ T0 [] T0 S0 S0 as_ S r M B Ts) as (T & r' & Tr & _); auto.
  { apply M_DfsanRun.tr_nil. intros r1 Lv1. assert (r1 = r) as -> by congruence. unfold room. lia. }
  { lia. }
  destruct (C59_mapping base e P main vals m p _ T0 as_ T S0 S fo fe paths fnames M B Ts Tr E Be Es T1 T2) as (p' & file & d & fuel0 & mp & H1 & H2 & H3 & H4 & H5).
  exists p, T0, T, p', file, d, fuel0, mp. repeat (split; [assumption|]). exact H5.
Qed.

(** ** Processes *)
(** The same for events as the wrappers and callbacks see them, whatever program causes them. *)
Theorem C61_events : forall base e fo fe fi so se si s0 evs,
  mapped base shipped -> (fo < 2 ^ 31 /\ fe < 2 ^ 31 /\ fi < 2 ^ 31)%Z ->
  (forall n, so = Some n \/ se = Some n \/ si = Some n -> n < 2 ^ 64 - 1) ->
  s0 = fold_left (estep (argv_on e)) (stream_events e fo fe fi so se si) a_init ->
  endures (argv_on e) s0 [] evs -> 1 + events_labels evs <= 2 ^ 31 - 64 ->
  exists p, proc_run base e s0 evs p (fold_left (estep (argv_on e)) evs s0).
Proof.
  intros base e fo fe fi so se si s0 evs M F Sz -> En Rm.
  destruct (start_total base e fo fe fi so se si M F Sz) as (p & r & Ep & Lv & L).
  assert (B : boots base e p (fold_left (estep (argv_on e)) (stream_events e fo fe fi so se si) a_init)) by now apply boots_start.
  destruct (events_total base e _ evs M [] p _ (pr_start _ _ _ _ B) En) as (p' & R & _).
  { exists r. split; [exact Lv|]. unfold room. lia. }
  exists p'. exact R.
Qed.

(** ** Examples *)
Definition servedb (v : event) : bool :=
  match v with
  | ERead _ _ pos _ | EFgets _ _ _ _ pos | EGetc _ pos _ _ | EMmap _ _ pos _ | EWrite _ _ pos _ | EPutc _ _ pos _ _ => (pos <? 2 ^ 54)%Z
  | EFread _ _ size pos ret | EFwrite _ _ size pos ret => (pos <? 2 ^ 54)%Z && (size * ret <? two64)
  | _ => true
  end.
Lemma servedb_ok v : servedb v = true -> served v.
Proof.
  destruct v; cbn [servedb served]; intros H; auto; try (now apply Z.ltb_lt); apply andb_true_iff in H as [H1 H2]; (split; [now apply Z.ltb_lt|now apply N.ltb_lt]).
Qed.
Definition answeredb (s : ast) (v : event) (a : answer) : bool :=
  match v with
  | EEnter name => match index_of name (a_names s) with Some i => i =? an_val a | None => false end
  | _ => true
  end.
Lemma answeredb_ok s v a : answeredb s v a = true -> answered s v a.
Proof. destruct v; cbn [answeredb answered]; auto. destruct (index_of _ _); [|discriminate]. intros H. apply N.eqb_eq in H. now subst. Qed.
Definition logs_fitb (s : ast) (log : list flow) : bool := (len (a_events s) <=? 2 ^ 32 - 1) && (11 * len log <=? 2 ^ 30).
Lemma logs_fitb_ok s log : logs_fitb s log = true -> logs_fit s log.
Proof. unfold logs_fitb. intros H. apply andb_true_iff in H as [H1 H2]. split; now apply N.leb_le. Qed.
Fixpoint serviceableb (argv : bool) (P : prog) (S : sstate) (as_ : list answer) : bool :=
  match as_ with
  | [] => true
  | a :: rest =>
      match next_event S a with
      | Some (s, v) => event_okb s v && in_spaceb v && servedb v && answeredb (estep argv s v) v a
      | None => true
      end &&
      match sstep true argv P S a with
      | Ok S' => within_limitsb (s_ast S') && logs_fitb (s_ast S') (s_log S') && serviceableb argv P S' rest
      | _ => false
      end
  end.
Lemma serviceableb_ok argv P as_ : forall S, serviceableb argv P S as_ = true ->
  behaved true argv P S as_ /\ serviceable true argv P S as_ /\ exists S', srun true argv P S as_ = Ok S'.
Proof.
  induction as_ as [|a as_ IH]; intros S H; cbn [serviceableb behaved serviceable srun] in *; [eauto|].
  apply andb_true_iff in H as [H1 H2]. destruct (sstep true argv P S a) as [S1| | |]; try discriminate. cbn [bind].
  apply andb_true_iff in H2 as [H2 H3]. apply andb_true_iff in H2 as [H2 H4]. destruct (IH S1 H3) as (I1 & I2 & I3). split; [split|split; [split|exact I3]].
  - intros s v Q. rewrite Q in H1. apply andb_true_iff in H1 as [H1 _]. apply andb_true_iff in H1 as [H1 _]. apply andb_true_iff in H1 as [H1 H5].
    split; [now apply event_okb_ok|now apply in_spaceb_ok].
  - intros S2 Q. injection Q as <-. split; [now apply within_limitsb_ok|exact I1].
  - intros s v Q. rewrite Q in H1. apply andb_true_iff in H1 as [H1 H5]. apply andb_true_iff in H1 as [_ H1]. split; [now apply servedb_ok|now apply answeredb_ok].
  - intros S2 Q. injection Q as <-. split; [now apply logs_fitb_ok|exact I2].
Qed.

(** The program of the examples for C58, with its loop, calls, a read and a write. *)
Example C61_case : exists S0 S,
  sstart demo 0 [] m0 (fold_left (estep (argv_on demo_env)) (stream_events demo_env 1 2 0 None None None) a_init) = Ok S0 /\
  srun true (argv_on demo_env) demo S0 demo_answers = Ok S /\
  behaved true (argv_on demo_env) demo S0 demo_answers /\ serviceable true (argv_on demo_env) demo S0 demo_answers /\
  run_labels true (argv_on demo_env) demo S0 demo_answers = 11.
Proof.
  set (s0 := fold_left (estep (argv_on demo_env)) (stream_events demo_env 1 2 0 None None None) a_init).
  assert (C : match sstart demo 0 [] m0 s0 with
              | Ok S0 => serviceableb (argv_on demo_env) demo S0 demo_answers && (run_labels true (argv_on demo_env) demo S0 demo_answers =? 11)
              | _ => false end = true) by (vm_compute; reflexivity).
  destruct (sstart demo 0 [] m0 s0) as [S0| | |] eqn:E; try discriminate. apply andb_true_iff in C as [C1 C2]. apply N.eqb_eq in C2.
  destruct (serviceableb_ok _ _ _ _ C1) as (I1 & I2 & S & I3). exists S0, S. auto.
Qed.

(** A file of four bytes is opened, read, tested and written. *)
Definition demo_events : list event :=
  [EOpen [105] 3 (Some 4); EEnter [109]; ERead 3 1000 0 4; ECompute 2000 1000 1001; EBranch 1002; EWrite 1 2000 (-1) 1; EExit 0; EClose 3 0].
Example C61_events_case : endures (argv_on demo_env)
    (fold_left (estep (argv_on demo_env)) (stream_events demo_env 1 2 0 None None None) a_init) [] demo_events /\
  events_labels demo_events = 5.
Proof.
  split; [|reflexivity]. cbn [endures demo_events].
  repeat match goal with |- _ /\ _ => split end; try exact I;
    solve [apply event_okb_ok; vm_compute; reflexivity | apply servedb_ok; vm_compute; reflexivity
          |apply within_limitsb_ok; vm_compute; reflexivity | apply logs_fitb_ok; vm_compute; reflexivity].
Qed.

Print Assumptions C61_start.
Print Assumptions C61_main.
Print Assumptions C61_progress.
Print Assumptions C61_reported.
Print Assumptions C61_events.
