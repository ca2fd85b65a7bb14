(** C65, C66, C67: programs instrumented by all passes (pt-tcf, pt-taint, pt-ftrace, pt-dfsan),
    against executions of the programs that are watched (S_Watch).

    Executions of the instrumented program are those of T_DfsanPass, for the program [P'] the
    first three passes make of [P].  In [P], as in every LLVM program, no instruction jumps to
    the entry block of a function ([entry_not_a_target]). *)
From Coq Require Import NArith ZArith List Bool Lia.
From Verif Require Import M_Base M_Memory M_Functions M_OutputFile M_PyFile M_PySections M_PyAnalysis M_Api M_Runtime M_CfLog
  M_Llvm M_DfsanPass M_DfsanRun M_LlvmPasses
  S_Strings S_Functions S_Labels S_Provenance S_OutputFile S_Api S_History S_PyAnalysis S_Forest S_CallStack S_Runtime S_DataFlow S_Watch
  P_Base P_Functions P_CfLog P_History P_Api P_ApiFile P_ApiRun P_Runtime P_Argv P_ApiDemo P_ProcRun P_ProcDemo P_DfsanCode P_DfsanFlow P_DfsanSim P_DfsanDemo P_Watch P_WatchStep P_WatchRun P_WatchErase
  T_CfLog T_ProcRun T_Cavities T_DfsanPass.
Import ListNotations.
Open Scope N_scope.

(** ** What is observed *)
(** The registers a function has. *)
Definition results (i : instr) : list N :=
  match i with
  | IComp dst _ _ | ILoad dst _ _ _ | IRmw dst _ _ _ _ | IGet dst _ | ISet dst _ _ | ISelect dst _ _ _ => [dst]
  | IOpaque (Some dst) | ICall (Some dst) _ _ | ILib (Some dst) _ _ => [dst]
  | _ => []
  end.
Definition registers (f : func) : list N :=
  fn_params f ++ concat (map (fun b => map ph_dst (b_phis b) ++ concat (map results (b_body b))) (fn_blocks f)).

(** The instrumented program is where the program is, with the same values. *)
Definition same_frame (P : prog) (tf : tframe) (fr : frame) : Prop :=
  t_fn tf = f_fn fr /\ t_blk tf = f_blk fr /\ t_dst tf = f_dst fr /\
  exists f, get P (f_fn fr) = Some f /\ forall x, In x (registers f) -> t_regs tf x = f_regs fr x.
Definition same_state (P : prog) (T : tstate) (S : sstate) : Prop :=
  t_mem T = s_mem S /\ Forall2 (same_frame P) (t_frames T) (s_frames S).

(** The labels of memory and of the registers of the program are right. *)
Definition labelled (P : prog) (T : tstate) (S : sstate) : Prop :=
  forall r, p_tdag (t_proc T) = Live r ->
  (forall a, a < two64 -> denotes r (r_shadow r a) (a_mem (s_ast S) a)) /\
  (forall above fr below f x v, s_frames S = above ++ fr :: below -> get P (f_fn fr) = Some f -> In x (registers f) ->
     f_regs fr x = Some v -> denotes r (r_shadow r (REG (len below) x)) (f_deps fr x)).

(** What the opened file [d] says. *)
Definition tells_mapping (paths : list (list N)) (S : sstate) (d : tdfile) : Prop :=
  exists fuel0 mp, (forall fuel, (fuel0 <= fuel)%nat -> py_mapping fuel d = Ok mp) /\
    forall np no sp so, In ((np, no), (sp, so)) mp <-> depends (s_ast S) paths np no sp so.
Definition tells_control_flow (paths : list (list N)) (S : sstate) (d : tdfile) : Prop :=
  forall f, forest_run d f -> exists bs f', inputs_affecting_control_flow d f = Ok (bs, f') /\
    forall x o, In (x, o) bs <-> exists i, In (i, o) (a_cf (s_ast S)) /\ input_at (s_ast S) paths i x.
Definition tells_functions (fnames : list (list N)) (S : sstate) (d : tdfile) : Prop :=
  map fst (td_fn_headers d) = fnames /\
  td_events d = Ok (map (fun e => (match fst e with EvEntry => 0 | EvExit => 1 end, snd e)) (a_events (s_ast S))).
Definition tells_log (S : sstate) (d : tdfile) : Prop :=
  exists log es, py_by_type (td_sections d) 8 = Ok log /\ log = concat (map cf_buffer es) /\ Forall2 (says d) (s_log S) es.

(** The process ends and the file it leaves opens. *)
Definition leaves_file (base : N) (T : tstate) (fo fe : Z) (d : tdfile) : Prop :=
  exists p' file, polytracker_end (t_proc T) fo fe = Ok p' /\ p_tdag p' = Dead file /\ py_open (file_of base shipped file) = Ok d.

(** ** Proofs *)
Lemma report_entries base argv fl p s fo fe paths fnames : mapped base shipped -> sim base argv fl p s ->
  are_texts (map reg_name (a_regs s)) paths -> are_texts (a_names s) fnames ->
  exists p' file d log es, polytracker_end p fo fe = Ok p' /\ p_tdag p' = Dead file /\
    py_open (file_of base shipped file) = Ok d /\
    py_by_type (td_sections d) 8 = Ok log /\ log = cf_bytes es /\ Forall2 (says d) fl es /\ Forall cf_ok es.
Proof.
  intros M R T1 T2.
  destruct (finish base argv fl p s fo fe R) as (h & r & s' & p' & E & D & Ru & Al & En).
  rewrite (al_regs _ _ Al) in T1. rewrite (al_names _ _ Al) in T2.
  destruct (run_opened base h r s' paths fnames M Ru T1 T2) as (g & d & bits & A & O & Op).
  exists p', (rt_shutdown r), d, (cf_bytes (a_log s')), (a_log s').
  split; [exact E|]. split; [exact D|]. split; [exact O|].
  split; [exact (op_log _ _ _ _ _ _ _ Op)|]. split; [reflexivity|]. split; [|exact (ai_cfl _ _ _ _ A)].
  revert En. apply Forall2_impl'. intros [f|f|f bs] [f'|f'|l f'] H; cbn [entry_for says] in *; try contradiction; try congruence.
  destruct H as (-> & K & Sm). split; [reflexivity|]. intros b. destruct (ai_lab _ _ _ _ A) as [L1 L2].
  assert (U : in_use (r_tab r) l) by (apply L1; exact K). rewrite (Sm b), (L2 l b U).
  apply (opened_stands r s' g d paths fnames bits); auto. exact (proj1 (reachable_inv _ (ai_tr _ _ _ _ A))).
Qed.
Lemma register_below f x : In x (registers f) -> x < fresh f.
Proof.
  unfold registers. intros I. apply in_app_or in I as [I|I]; [now apply P_Weave.param_fresh|]. apply in_concat in I as (l & J & I). apply in_map_iff in J as (b & <- & J).
  destruct (P_Weave.block_fresh f b J) as (L1 & L2 & _). apply in_app_or in I as [I|I].
  - apply in_map_iff in I as (ph & <- & I). rewrite max_of_le in L1. specialize (L1 (p_bound ph) (in_map _ _ _ I)). unfold p_bound in L1. lia.
  - apply in_concat in I as (l & K & I). apply in_map_iff in K as (i & <- & K). rewrite max_of_le in L2. specialize (L2 (i_bound i) (in_map _ _ _ K)).
    destruct i; cbn [results i_bound] in *; repeat match goal with H : In _ (match ?o with _ => _ end) |- _ => destruct o end; try contradiction; destruct I as [<-|[]]; cbn [d_bound] in L2; lia.
Qed.
Lemma at_frame P W kf s ns rho fr' fr : frame_at P W kf s rho ns fr' fr -> f_fn fr' = f_fn fr /\ f_blk fr' = f_blk fr /\ f_dst fr' = f_dst fr /\
  exists f, get P (f_fn fr) = Some f /\ forall x, In x (registers f) -> f_regs fr' x = f_regs fr x /\ f_deps fr' x = f_deps fr x.
Proof.
  intros (E1 & E2 & E3 & (f & G & _) & A & _). repeat (split; [assumption|]). exists f. split; [exact G|]. intros x I. apply register_below in I. apply A. unfold bd. now rewrite G.
Qed.
Lemma at_stack P W kf S' w : srel P W kf S' w -> Forall2 (fun fr' fr => f_fn fr' = f_fn fr /\ f_blk fr' = f_blk fr /\ f_dst fr' = f_dst fr /\
  exists f, get P (f_fn fr) = Some f /\ forall x, In x (registers f) -> f_regs fr' x = f_regs fr x /\ f_deps fr' x = f_deps fr x) (s_frames S') (s_frames (fst w)).
Proof.
  intros (_ & _ & _ & St & _). unfold stack in St. destruct (s_frames S') as [|fr' below'], (s_frames (fst w)) as [|fr below]; try contradiction; [constructor|].
  destruct St as [[rho F] B]. constructor; [now apply at_frame in F|]. induction B as [|a b l l' H B IH]; constructor; auto. now apply at_frame in H.
Qed.
Lemma Forall2_split {A B} (R : A -> B -> Prop) l1 l2 above y below : Forall2 R l1 l2 -> l2 = above ++ y :: below ->
  exists above' x below', l1 = above' ++ x :: below' /\ R x y /\ len below' = len below.
Proof.
  intros F. revert above. induction F as [|x0 y0 l1 l2 H F IH]; intros above E; [destruct above; discriminate|]. destruct above as [|z above]; cbn [app] in E; injection E as ?H ?H; subst.
  - exists [], x0, l1. split; [reflexivity|]. split; [exact H|]. clear - F. unfold len. f_equal. induction F; cbn; congruence.
  - destruct (IH above eq_refl) as (a' & x & b' & -> & R0 & L). exists (x0 :: a'), x, b'. auto.
Qed.
Lemma same_through P T S S' : t_mem T = s_mem S' -> state_of_instrumented (t_frames T) = state_of_program (s_frames S') -> s_mem S' = s_mem S ->
  Forall2 (fun fr' fr => f_fn fr' = f_fn fr /\ f_blk fr' = f_blk fr /\ f_dst fr' = f_dst fr /\
    exists f, get P (f_fn fr) = Some f /\ forall x, In x (registers f) -> f_regs fr' x = f_regs fr x) (s_frames S') (s_frames S) -> same_state P T S.
Proof.
  intros E1 E2 E3 F. split; [congruence|]. unfold state_of_instrumented, state_of_program in E2. revert E2. generalize (t_frames T). clear E1 E3.
  induction F as [|a b l l' H F IH]; intros fs E; destruct fs as [|tf fs]; try discriminate; constructor.
  - cbn [map] in E. injection E as E1 E2 E3 E4 E5 E6 _. destruct H as (H1 & H2 & H3 & f & G & H4). unfold same_frame. rewrite E1, E2, E6. repeat (split; [assumption|]). exists f. split; [exact G|]. intros x I. rewrite E5. now apply H4.
  - apply IH. cbn [map] in E. now injection E.
Qed.

(** ** C65 *)
(** Instrumentation by all passes does not change what the program does: every execution of
    the instrumented program is an execution of the program, where the outside world gives
    some of the answers. *)
Theorem C65_same_behaviour : forall base e cflog ftrace ignore names P P' main vals m p s0 T0 as_ T S0,
  passes cflog ftrace ignore names P = Ok P' -> entry_not_a_target P ->
  mapped base shipped -> boots base e p s0 ->
  tstart (instrument P') main vals m p T0 -> trun (instrument P') T0 as_ T ->
  sstart P' main vals m s0 = Ok S0 -> behaved true (argv_on e) P' S0 as_ ->
  exists R0 bs R, sstart P main vals m s0 = Ok R0 /\ part bs as_ /\ srun true (argv_on e) P R0 bs = Ok R /\ same_state P T R.
Proof.
  intros base e cflog ftrace ignore names P P' main vals m p s0 T0 as_ T S0 Ep Nt M B Ts Tr E Be.
  destruct (C58_same_behaviour base e P' main vals m p s0 T0 as_ T S0 M B Ts Tr E Be) as (S & Es & Em & Ef).
  destruct (watched_run base e cflog ftrace ignore names P P' main vals m p s0 T0 as_ T S0 S Ep Nt M B Ts Tr E Be Es) as (kf & R0 & bs & w & ER & Pt & Ew & Sr).
  destruct (watched_erase _ (argv_on e) P bs (wstart _ R0) w R0 (twins_refl R0) Ew) as (cs & R & Pt2 & Er & Tw). exists R0, cs, R. split; [exact ER|]. split; [now apply part_trans with bs|]. split; [exact Er|].
  destruct Tw as [Fw Mw]. apply same_through with S; auto; [destruct Sr as [Q _]; congruence|]. apply at_stack in Sr. revert Sr. generalize (s_frames S). clear - Fw.
  induction Fw as [|a b l l' [d ->] Fw IH]; intros fs F; inversion F as [|x y fs' q H F2]; subst; constructor; auto. destruct H as (H1 & H2 & H3 & f & G & H4). repeat (split; [assumption|]). exists f. split; [exact G|]. intros x0 I. now apply H4.
Qed.

(** ** C66 *)
(** All the same, everything that is recorded is what a watcher of the program sees. *)
Theorem C66_watched : forall base e cflog ftrace ignore names P P' main vals m p s0 T0 as_ T S0,
  passes cflog ftrace ignore names P = Ok P' -> entry_not_a_target P ->
  mapped base shipped -> boots base e p s0 ->
  tstart (instrument P') main vals m p T0 -> trun (instrument P') T0 as_ T ->
  sstart P' main vals m s0 = Ok S0 -> behaved true (argv_on e) P' S0 as_ ->
  let W := watching cflog ftrace ignore names P in
  exists R0 bs R due, sstart P main vals m s0 = Ok R0 /\ part bs as_ /\ wrun W (argv_on e) P (wstart W R0) bs = Ok (R, due) /\
    same_state P T R /\ labelled P T R /\
    forall fo fe paths fnames, are_texts (map reg_name (a_regs (s_ast R))) paths -> are_texts (a_names (s_ast R)) fnames ->
      exists d, leaves_file base T fo fe d /\
        tells_mapping paths R d /\ tells_control_flow paths R d /\ tells_functions fnames R d /\ tells_log R d.
Proof.
  intros base e cflog ftrace ignore names P P' main vals m p s0 T0 as_ T S0 Ep Nt M B Ts Tr E Be W.
  destruct (C58_same_behaviour base e P' main vals m p s0 T0 as_ T S0 M B Ts Tr E Be) as (S & Es & Em & Ef).
  destruct (watched_run base e cflog ftrace ignore names P P' main vals m p s0 T0 as_ T S0 S Ep Nt M B Ts Tr E Be Es) as (kf & R0 & bs & [R due] & ER & Pt & Ew & Sr).
  exists R0, bs, R, due. split; [exact ER|]. split; [exact Pt|]. split; [exact Ew|]. assert (Sa := at_stack _ _ _ _ _ Sr). destruct Sr as (Hm & Ha & Hl & _). cbn [fst] in *. split; [|split].
  - apply same_through with S; auto. clear - Sa. induction Sa as [|a b l l' H Sa IH]; constructor; auto. destruct H as (H1 & H2 & H3 & f & G & H4). repeat (split; [assumption|]). exists f. split; [exact G|]. intros x I. now apply H4.
  - intros r Lv. destruct (C58_labels base e P' main vals m p s0 T0 as_ T S0 S r M B Ts Tr E Be Es Lv) as [L1 L2]. split; [now rewrite <- Ha|]. intros above fr below f x v Efr G I Ev.
    destruct (Forall2_split _ _ _ _ _ _ Sa Efr) as (above' & fr' & below' & Efr' & (_ & _ & _ & f' & G' & H) & Ln). assert (f' = f) as -> by congruence. destruct (H x I) as [V D]. rewrite <- D, <- Ln. apply (L2 above' fr' below' x v Efr'). congruence.
  - intros fo fe paths fnames T1 T2. rewrite <- Ha in T1, T2.
    destruct (C59_mapping base e P' main vals m p s0 T0 as_ T S0 S fo fe paths fnames M B Ts Tr E Be Es T1 T2) as (p1 & f1 & d & fuel & mp & A1 & A2 & A3 & A4 & A5).
    destruct (C59_control_flow base e P' main vals m p s0 T0 as_ T S0 S fo fe paths fnames M B Ts Tr E Be Es T1 T2) as (p2 & f2 & d2 & B1 & B2 & B3 & B4).
    destruct (C59_functions base e P' main vals m p s0 T0 as_ T S0 S fo fe paths fnames M B Ts Tr E Be Es T1 T2) as (p3 & f3 & d3 & C1 & C2 & C3 & C4 & C5).
    destruct (C59_log base e P' main vals m p s0 T0 as_ T S0 S fo fe paths fnames M B Ts Tr E Be Es T1 T2) as (p4 & f4 & d4 & log & es & D1 & D2 & D3 & D4 & D5 & D6 & _).
    assert (p2 = p1) as -> by congruence. assert (p3 = p1) as -> by congruence. assert (p4 = p1) as -> by congruence. assert (f2 = f1) as -> by congruence. assert (f3 = f1) as -> by congruence. assert (f4 = f1) as -> by congruence.
    assert (d2 = d) as -> by congruence. assert (d3 = d) as -> by congruence. assert (d4 = d) as -> by congruence.
    exists d. split; [exists p1, f1; auto|]. split; [|split; [|split]].
    + exists fuel, mp. split; [exact A4|]. now rewrite <- Ha.
    + unfold tells_control_flow. now rewrite <- Ha.
    + split; [exact C4|]. now rewrite <- Ha.
    + exists log, es. repeat (split; [assumption|]). now rewrite <- Hl.
Qed.

(** ** C67 *)
(** [open]: the functions that were entered and not yet left according to the log; all that
    are active, perhaps without the innermost one. *)
Theorem C67_call_stacks : forall base e ftrace ignore names P P' main vals m p s0 T0 as_ T S0,
  passes true ftrace ignore names P = Ok P' -> entry_not_a_target P -> no_callbacks P ->
  mapped base shipped -> boots base e p s0 ->
  tstart (instrument P') main vals m p T0 -> trun (instrument P') T0 as_ T ->
  sstart P' main vals m s0 = Ok S0 -> behaved true (argv_on e) P' S0 as_ ->
  let W := watching true ftrace ignore names P in
  exists R0 bs R due, sstart P main vals m s0 = Ok R0 /\ part bs as_ /\ wrun W (argv_on e) P (wstart W R0) bs = Ok (R, due) /\
    same_state P T R /\
    forall fo fe paths fnames, are_texts (map reg_name (a_regs (s_ast R))) paths -> are_texts (a_names (s_ast R)) fnames ->
      exists d log open, leaves_file base T fo fe d /\ py_by_type (td_sections d) 8 = Ok log /\
        (active R = open \/ exists n, active R = open ++ [n]) /\
        (exists rs, py_cf_iter N.eqb Some log = Ok (rs ++ leave_all (map (function_id P) open)) /\
           Forall2 (shows d (function_id P)) (sights W (argv_on e) P (wstart W R0) bs) rs) /\
        (len P <= 2 ^ 32 ->
         exists rs, py_cf_iter bytes_eqb (get (function_names names 0 P)) log = Ok (rs ++ leave_all (map names open)) /\
           Forall2 (shows d names) (sights W (argv_on e) P (wstart W R0) bs) rs).
Proof.
  intros base e ftrace ignore names P P' main vals m p s0 T0 as_ T S0 Ep Nt Nc M B Ts Tr E Be W.
  destruct (C58_same_behaviour base e P' main vals m p s0 T0 as_ T S0 M B Ts Tr E Be) as (S & Es & Em & Ef).
  destruct (watched_run base e true ftrace ignore names P P' main vals m p s0 T0 as_ T S0 S Ep Nt M B Ts Tr E Be Es) as (kf & R0 & bs & [R due] & ER & Pt & Ew & Sr).
  exists R0, bs, R, due. split; [exact ER|]. split; [exact Pt|]. split; [exact Ew|]. assert (Sa := at_stack _ _ _ _ _ Sr). destruct Sr as (Hm & Ha & Hl & _). cbn [fst] in *. split.
  { apply same_through with S; auto. clear - Sa. induction Sa as [|a b l l' H Sa IH]; constructor; auto. destruct H as (H1 & H2 & H3 & f & G & H4). repeat (split; [assumption|]). exists f. split; [exact G|]. intros x I. now apply H4. }
  intros fo fe paths fnames T1 T2. rewrite <- Ha in T1, T2.
  destruct (run_sim_flow base e P' main vals m p s0 T0 as_ T S0 S M B Ts Tr E Be Es) as (t & Sm & Nr).
  rewrite (nr_regs _ _ _ Nr) in T1. rewrite (nr_names _ _ _ Nr) in T2.
  destruct (report_entries base _ _ _ t fo fe paths fnames M Sm T1 T2) as (p' & file & d & log & es & H1 & H2 & H3 & H4 & H5 & H6 & H7).
  destruct (start_nest ftrace ignore names P Nc main vals m s0 R0 ER) as (In0 & L0 & O0).
  destruct (run_nest ftrace ignore names P (argv_on e) Nc bs _ _ In0 Ew) as (fl & El & Fo). cbn [fst] in El. unfold wstart in El at 1. cbn [fst] in El. rewrite L0 in El. cbn [app] in El. rewrite O0 in Fo. rewrite Hl, El in H6.
  exists d, log, (rev (open_calls (R, due))). split; [exists p', file; auto|]. split; [exact H4|]. split; [|split].
  - unfold open_calls, active, ids. cbn [fst snd]. destruct (existsb is_enter due), (at_return R && negb (existsb is_leave due)); try (now left); destruct (map f_fn (s_frames R)) as [|n l]; try (now left); right; exists n; reflexivity.
  - destruct (follows_run d Some (function_id P) P [] fl _ _ es (fun _ _ => eq_refl) Fo (Forall_nil _) H6) as (rs & Rs & Sh). exists rs. split; [|exact Sh]. rewrite H5. exact (C34_call_stacks_ids es rs _ Rs H7).
  - intros Ln. destruct (follows_run d (get (function_names names 0 P)) names P [] fl _ _ es (fun n => name_of_id names P n Ln) Fo (Forall_nil _) H6) as (rs & Rs & Sh). exists rs. split; [|exact Sh]. rewrite H5. exact (C34_call_stacks _ es rs _ Rs H7).
Qed.

(** ** A concrete execution *)
(** Function 0, main, reads four bytes of a file to 1000 and passes the first to function 2,
    f, which uses it as an index and selects by what it finds; main branches on the result
    and writes it.  Function 1 is a declaration: f has number 2 and id 1. *)
Definition gep2 : comp := mkComp true (fun l => match l with [a; b] => Some (a + b) | _ => None end).
Definition source : prog :=
  [ mkFunc true [1; 2]
      [ mkBlock []
          [ ILib (Some 3) LOpen [OConst 100; OConst 0];
            ILib (Some 4) LRead [OReg 3; OConst 1000; OConst 4];
            ILoad 5 (OConst 1000) 1 false;
            ICall (Some 6) (OConst 2) [OReg 5];
            IStore (OReg 6) (OConst 2000) 1 false ]
          (CondBr (OReg 6) 1 2);
        mkBlock [] [ ILib None LWrite [OConst 1; OConst 2000; OConst 1] ] (Br 2);
        mkBlock [] [] (Ret (Some (OConst 0))) ];
    mkFunc false [1] [];
    mkFunc false [1]
      [ mkBlock []
          [ IComp 2 [OConst 1001; OReg 1] gep2; ILoad 3 (OReg 2) 1 false; ISelect 4 (OReg 3) (OReg 3) (OReg 1) ]
          (Ret (Some (OReg 4))) ] ].
Definition source_names (n : N) : list N := match n with 0 => name_main | 1 => [112] | _ => [102] end.

(** The answers of the outside world: the results of open, read and write, and for the
    entry callback the index of the function name. *)
Definition reply (S : sstate) : answer :=
  match s_frames S with
  | fr :: _ => match f_rest fr with
      | ILib _ LOpen _ :: _ => mkAnswer 0 m0 3 0 0 0 [105] (Some 9) []
      | ILib _ LRead _ :: _ => mkAnswer 0 m1 3 0 4 0 [] None []
      | ILib _ LWrite _ :: _ => mkAnswer 0 (s_mem S) 1 (-1) 1 0 [] None []
      | ILib _ (LEnter n) _ :: _ => mkAnswer (if bytes_eqb n name_main then 0 else 1) m0 0 0 0 0 [] None []
      | _ => quiet m0
      end
  | [] => quiet m0
  end.
Fixpoint replies (P : prog) (k : nat) (S : sstate) : list answer :=
  match k, s_frames S with
  | Datatypes.S k, _ :: _ => reply S :: match sstep true false P S (reply S) with Ok S1 => replies P k S1 | _ => [] end
  | _, _ => []
  end.
Definition woven_source : prog := match passes true true [] source_names source with Ok P' => P' | _ => [] end.
Definition source_answers : list answer :=
  match sstart woven_source 0 [0; 0] m0 (fold_left (estep false) (stream_events demo_env 1 2 0 None None None) a_init) with
  | Ok S0 => replies woven_source 100 S0 | _ => [] end.
Definition file_in (p : proc) : Res tdfile :=
  do p' <- polytracker_end p (-1) (-1); match p_tdag p' with Dead file => py_open (file_of 8192 shipped file) | _ => UB end.
Definition stacks_in (t : tstate) : Res (list (py_cf_event (list N))) :=
  do d <- file_in (t_proc t); do log <- py_by_type (td_sections d) 8; py_cf_iter bytes_eqb (get (function_names source_names 0 source)) log.

Definition cf_eqb (x y : py_cf_event (list N)) : bool :=
  match x, y with
  | PyEnter a, PyEnter b | PyLeave a, PyLeave b => list_eqb bytes_eqb a b
  | PyTainted a l, PyTainted b k => list_eqb bytes_eqb a b && (l =? k)
  | _, _ => false
  end.
Lemma cf_eqb_eq x y : cf_eqb x y = true -> x = y.
Proof.
  assert (Q : forall a b : list (list N), list_eqb bytes_eqb a b = true -> a = b) by (intros a b; apply list_eqb_eq; intros u v; apply bytes_eqb_spec).
  destruct x, y; cbn [cf_eqb]; intros H; try discriminate; try (apply Q in H; congruence). apply andb_true_iff in H as [H1 H2]. apply Q in H1. apply N.eqb_eq in H2. congruence.
Qed.
Definition kind_eqb (x y : event_kind) : bool := match x, y with EvEntry, EvEntry | EvExit, EvExit => true | _, _ => false end.

(** The hypotheses hold for this program; the execution is complete, the branch on the result is recorded and
    the reader reports the call stacks with names. *)
Example C67_case : exists P', passes true true [] source_names source = Ok P' /\ entry_not_a_target source /\ no_callbacks source /\
  exists p s0 T0 S0 T S, boots 8192 demo_env p s0 /\
  tstart (instrument P') 0 [0; 0] m0 p T0 /\ trun (instrument P') T0 source_answers T /\
  sstart P' 0 [0; 0] m0 s0 = Ok S0 /\ behaved true (argv_on demo_env) P' S0 source_answers /\
  srun true (argv_on demo_env) P' S0 source_answers = Ok S /\
  t_frames T = [] /\ a_events (s_ast S) = [(EvEntry, 0); (EvEntry, 1); (EvExit, 1); (EvExit, 0)] /\
  a_cf (s_ast S) = [(1, 0); (1, 2); (1, 0); (1, 2); (1, 0)] /\
  let main := [109; 97; 105; 110] in let f := [102] in
  stacks_in T = Ok [PyEnter [main]; PyEnter [main; f]; PyTainted [main; f] 1; PyTainted [main; f] 5; PyLeave [main; f];
                    PyTainted [main] 5; PyLeave [main]].
Proof.
  exists woven_source. split; [vm_compute; reflexivity|]. split.
  { intros f b I J. repeat (destruct I as [<-|I]; [repeat (destruct J as [<-|J]; [cbn; intuition discriminate|]); destruct J|]). destruct I. }
  split.
  { intros f b dst k args I J K. repeat (destruct I as [<-|I]; [repeat (destruct J as [<-|J]; [repeat (destruct K as [K|K]; [try discriminate K; injection K as _ <- _; reflexivity|]); destruct K|]); destruct J|]). destruct I. }
  destruct (exec_prog_ok 8192 demo_env true woven_source 0 [0; 0] m0 source_answers (fun s t =>
    match t_frames t with [] => true | _ => false end &&
    list_eqb (fun x y => kind_eqb (fst x) (fst y) && (snd x =? snd y)) (a_events (s_ast s)) [(EvEntry, 0); (EvEntry, 1); (EvExit, 1); (EvExit, 0)] &&
    ids_eqb (a_cf (s_ast s)) [(1, 0); (1, 2); (1, 0); (1, 2); (1, 0)] &&
    let main := [109; 97; 105; 110] in let f := [102] in
    match stacks_in t with
    | Ok l => list_eqb cf_eqb l [PyEnter [main]; PyEnter [main; f]; PyTainted [main; f] 1; PyTainted [main; f] 5; PyLeave [main; f]; PyTainted [main] 5; PyLeave [main]]
    | _ => false
    end))
    as (p & s0 & T0 & S0 & T & S & B & Ts & Tr & E & Be & Es & C); [vm_compute; reflexivity|].
  exists p, s0, T0, S0, T, S. repeat (split; [assumption|]). clear B Ts Tr E Be Es.
  apply andb_true_iff in C as [C C4]. apply andb_true_iff in C as [C C3]. apply andb_true_iff in C as [C1 C2].
  split; [now destruct (t_frames T)|]. split; [|split; [now apply ids_eqb_eq|]].
  - revert C2. apply list_eqb_eq. intros [[|] x] [[|] y] H; cbn in H; try discriminate; apply N.eqb_eq in H; congruence.
  - cbv zeta. destruct (stacks_in T) as [l| | |]; try discriminate. f_equal. revert C4. apply list_eqb_eq. apply cf_eqb_eq.
Qed.

Print Assumptions C65_same_behaviour.
Print Assumptions C66_watched.
Print Assumptions C67_call_stacks.
