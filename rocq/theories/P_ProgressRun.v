(** Instrumented programs follow the programs while resources last. *)
From Coq Require Import NArith ZArith List Bool Lia.
From Verif Require Import M_Base M_Memory M_Sources M_Labels M_Bitmap M_OutputFile M_CfLog M_Dfsan M_Api M_Runtime M_Llvm M_DfsanPass M_DfsanRun
  S_Labels S_Provenance S_OutputFile S_Dfsan S_Api S_History S_Runtime S_DataFlow S_Demand
  P_Base P_Labels P_History P_ApiMem P_Api P_ApiRun P_Runtime P_Argv P_ProcRun P_DfsanCode P_DfsanFlow P_DfsanSim P_Progress.
Import ListNotations.
Open Scope N_scope.

(** ** The shadow code of one instruction *)
Lemma combine_cost avoid a b c v : combine_shadows avoid a b = (c, v) -> code_labels c <= 1 /\ forall e, Forall (able e) c.
Proof.
  unfold combine_shadows. destruct (sval_eqb a SZero); [intros E; injection E as <- _; split; [cbn; lia|constructor]|].
  destruct (sval_eqb b SZero); [intros E; injection E as <- _; split; [cbn; lia|constructor]|].
  destruct (sval_eqb a b); intros E; injection E as <- _; split; try (cbn; lia); intros; repeat constructor.
Qed.
Lemma combine_rest_cost avoid ops : forall acc c v, combine_rest avoid acc ops = (c, v) -> code_labels c <= len ops /\ forall e, Forall (able e) c.
Proof.
  induction ops as [|o ops IH]; intros acc c v E; cbn [combine_rest] in E; [injection E as <- _; split; [cbn; lia|constructor]|].
  destruct (combine_shadows avoid acc (sh o)) as [c1 v1] eqn:E1. destruct (combine_rest avoid v1 ops) as [c2 v2] eqn:E2. injection E as <- _.
  destruct (combine_cost _ _ _ _ _ E1) as [C1 A1], (IH _ _ _ E2) as [C2 A2]. rewrite code_labels_app, len_cons. split; [lia|].
  intros e. apply Forall_app. auto.
Qed.
Lemma plain_cost avoid i : plain i = true -> code_labels (g_pre (visit avoid i)) <= instr_labels i.
Proof.
  destruct i; cbn [visit g_pre plain instr_labels]; try discriminate; intros _; try (cbn; lia).
  - destruct (combine_ops avoid ops) as [c v] eqn:E. cbn [g_pre]. rewrite code_labels_app. cbn [code_labels si_labels].
    destruct ops as [|o ops]; cbn [combine_ops] in E; [injection E as <- _; cbn; lia|]. apply combine_rest_cost in E as [E _]. rewrite len_cons. lia.
  - unfold load_code. destruct (N.eqb_spec size 0) as [->|Nz]; [cbn; lia|]. destruct const.
    + destruct (combine_shadows avoid SZero (sh ptr)) as [c v] eqn:E. apply combine_cost in E as [E _]. rewrite !code_labels_app. cbn [code_labels si_labels]. lia.
    + destruct (combine_shadows avoid STmp (sh ptr)) as [c v] eqn:E. apply combine_cost in E as [E _]. rewrite !code_labels_app. cbn [code_labels si_labels]. lia.
  - unfold store_code. destruct (size =? 0); cbn; lia.
  - unfold rmw_code. destruct (size =? 0); cbn; lia.
  - unfold select_code. destruct (sval_eqb (sh a) (sh b)).
    + destruct (combine_shadows avoid (sh c) (sh a)) as [c2 v] eqn:E. apply combine_cost in E as [E _]. rewrite !code_labels_app. cbn [code_labels si_labels]. lia.
    + destruct (combine_shadows avoid (sh c) STmp) as [c2 v] eqn:E. apply combine_cost in E as [E _]. rewrite !code_labels_app. cbn [code_labels si_labels]. lia.
  - destruct dst; cbn; lia.
Qed.
Lemma plain_able avoid i e m a q : plain i = true -> app_exec i e m a = Ok q -> Forall (able e) (g_pre (visit avoid i)).
Proof.
  assert (B : forall (o : operand) (f : N -> Res (regs * mem)), bind (value e o) f = Ok q -> exists v, value e o = Ok v).
  { intros o f. destruct (value e o); try discriminate. eauto. }
  destruct i; cbn [visit g_pre plain app_exec]; try discriminate; intros _ E; try (repeat constructor; fail).
  - destruct (combine_ops avoid ops) as [c v] eqn:Ec. cbn [g_pre]. apply Forall_app. split; [|repeat constructor].
    destruct ops as [|o ops]; cbn [combine_ops] in Ec; [injection Ec as <- _; constructor|]. now apply combine_rest_cost in Ec as [_ Ec].
  - apply B in E. unfold load_code. destruct (size =? 0); [repeat constructor|]. destruct const.
    + destruct (combine_shadows avoid SZero (sh ptr)) as [c v] eqn:Ec. apply combine_cost in Ec as [_ Ec]. apply Forall_app. split; [constructor|]. apply Forall_app. split; [apply Ec|repeat constructor].
    + destruct (combine_shadows avoid STmp (sh ptr)) as [c v] eqn:Ec. apply combine_cost in Ec as [_ Ec]. apply Forall_app. split; [repeat constructor; exact E|]. apply Forall_app. split; [apply Ec|repeat constructor].
  - destruct (value e v) as [x| | |]; try discriminate. cbn [bind] in E. apply B in E. unfold store_code. destruct (size =? 0); repeat constructor. exact E.
  - destruct (value e v) as [x| | |]; try discriminate. cbn [bind] in E. apply B in E. unfold rmw_code. destruct (size =? 0); repeat constructor. exact E.
  - apply B in E. unfold select_code. destruct (sval_eqb (sh a0) (sh b)).
    + destruct (combine_shadows avoid (sh c) (sh a0)) as [c2 v] eqn:Ec. apply combine_cost in Ec as [_ Ec]. apply Forall_app. split; [constructor|]. apply Forall_app. split; [apply Ec|repeat constructor].
    + destruct (combine_shadows avoid (sh c) STmp) as [c2 v] eqn:Ec. apply combine_cost in Ec as [_ Ec]. apply Forall_app. split; [repeat constructor; exact E|]. apply Forall_app. split; [apply Ec|repeat constructor].
  - destruct (value e ptr) as [x| | |] eqn:E1; try discriminate. cbn [bind] in E. destruct (value e v) as [y| | |]; try discriminate. cbn [bind] in E. apply B in E.
    repeat constructor; [|exact E]. cbn [able]. eauto.
  - destruct (value e dst) as [x| | |] eqn:E1; try discriminate. cbn [bind] in E. destruct (value e src) as [y| | |] eqn:E2; try discriminate. cbn [bind] in E. apply B in E.
    repeat constructor; eauto.
  - destruct dst; repeat constructor.
Qed.
(** Code that neither uses operands nor needs labels. *)
Definition light (i : sinstr) : Prop := match i with TSet _ _ | TArg _ _ | TArgLoad _ _ | TRet _ | TRetLoad _ | TPass _ | TResult _ => True | _ => False end.
Lemma light_ok c : Forall light c -> Forall sized c /\ (forall e, Forall (able e) c) /\ code_labels c = 0.
Proof.
  induction 1 as [|i c L F (A & B & C)]; [repeat split; constructor|]. cbn [code_labels]. rewrite C.
  destruct i; try contradiction; (split; [constructor; [exact I|exact A]|split; [|reflexivity]]; intros e; constructor; [exact I|apply B]).
Qed.
Lemma arg_stores_light args : forall off, Forall light (arg_stores off args).
Proof. induction args as [|a args IH]; intros off; cbn [arg_stores]; [constructor|]. destruct (_ <? _); repeat constructor. apply IH. Qed.
Lemma arg_loads_light n params : forall off, Forall light (arg_loads n off params).
Proof. induction params as [|a args IH]; intros off; cbn [arg_loads]; constructor; [|apply IH]. destruct (_ || _); exact I. Qed.

Lemma uses_has0 p n : has p n -> has p 0.
Proof. intros H. apply has_le with n; [exact H|lia]. Qed.

Section Step.
Variables (base : N) (argv : bool) (P : prog).
Hypothesis M : mapped base shipped.

Lemma light_total fl d e c p s : alive base fl argv p s -> Forall light c -> has p 0 ->
  exists p', run_code d e p c = Ok p' /\ uses p 0 p' /\ alive base fl argv p' (pcode d e s c).
Proof.
  intros A L H. destruct (light_ok c L) as (S1 & S2 & C). destruct (code_total base fl M argv d e c p s A S1 (S2 e)) as (p' & E & U & A'); [now rewrite C|].
  rewrite C in U. eauto.
Qed.

Lemma tenter_total c f vals dst fr ds : enter c f vals ds dst = Ok fr -> exists new, tenter c (visit_func f) vals dst = Ok new.
Proof.
  unfold enter, tenter. cbn [visit_func tf_blocks tf_params]. destruct (fn_blocks f) as [|b bs]; [discriminate|]. cbn [map].
  destruct (len vals =? len (fn_params f)); [|discriminate]. eauto.
Qed.
Lemma tincoming_total from ps : forall l, incoming from ps = Ok l -> exists inc, tincoming from (map visit_phi ps) = Ok inc.
Proof.
  induction ps as [|p ps IH]; intros l E; cbn [incoming] in E; cbn [map tincoming]; [eauto|]. cbn [visit_phi tp_in tp_dst].
  assert (Lk : lookup (map (fun q : N * operand => (fst q, (snd q, sh (snd q)))) (ph_in p)) from = option_map (fun o => (o, sh o)) (lookup (ph_in p) from)).
  { clear. induction (ph_in p) as [|[b o] l IH]; [reflexivity|]. cbn [map lookup fst snd]. destruct (b =? from); [reflexivity|exact IH]. }
  rewrite Lk. destruct (lookup (ph_in p) from) as [o|]; [|discriminate]. cbn [option_map].
  destruct (incoming from ps) as [l'| | |]; try discriminate. destruct (IH l' eq_refl) as (inc & ->). cbn [bind]. eauto.
Qed.
Lemma get_visit c f : get P c = Some f -> get (instrument P) c = Some (visit_func f).
Proof. intros G. unfold instrument. rewrite get_map, G. reflexivity. Qed.
Lemma flow_len s t v : (forall a, reads v a -> same (a_mem s a) (a_mem t a)) -> len (flow_of t v) = len (flow_of s v).
Proof. intros H. assert (F := flow_near s t v H). unfold len. now rewrite (Forall2_len _ _ _ F). Qed.

Lemma step_total S T a S' : rel base argv P S T -> sstep true argv P S a = Ok S' ->
  (forall s v, next_event S a = Some (s, v) -> (S_Runtime.event_ok s v /\ in_space v) /\ served v /\ answered (estep argv s v) v a) ->
  within_limits (s_ast S') -> logs_fit (s_ast S') (s_log S') -> has (t_proc T) (step_labels S a) ->
  exists T', tstep (instrument P) T a T' /\ uses (t_proc T) (step_labels S a) (t_proc T').
Proof.
  intros (t & A & Nr & Em & St) E Be Wl Lf Hs. destruct S as [fs m s log], T as [tfs m0 p]. cbn [s_frames s_mem s_ast s_log t_frames t_mem t_proc] in *. subst m0.
  destruct St as [|fr tf fs tfs Ma Ag Ca St]; [discriminate|].
  destruct Ma as (M1 & M2 & M3 & M4 & M5 & fn & M6 & M7 & M8). unfold sstep in E. unfold step_labels in Hs |- *. cbn [s_frames s_mem s_ast s_log next_event] in *.
  assert (H0 := uses_has0 _ _ Hs).
  destruct (f_rest fr) as [|i is] eqn:Ei.
  - cbn [map] in M7. destruct (f_term fr) as [b|c b1 b2|c cs df|v] eqn:Et.
    4: { (* return *)
      destruct fs as [|cr fs].
      - destruct tfs; [|inversion St]. destruct (match v with Some o => value (f_regs fr) o | None => Ok 0 end) as [x0| | |] eqn:Ev; try discriminate.
        destruct (light_total log 0 (t_regs tf) (t_pre tf) p t A) as (p1 & R1 & U1 & _); [|exact H0|].
        { rewrite M8. cbn [visit_term]. destruct v; [destruct (fn_native fn)|]; repeat constructor. }
        eexists. split; [eapply t_end with (v := v); eauto|exact U1]. rewrite M3. instantiate (1 := match v with Some _ => Some x0 | None => None end).
        destruct v as [o|]; [now rewrite Ev|reflexivity].
      - inversion St as [|cr0 tc fs1 tfs1 Mc Agc Cac St1]; subst. destruct Mc as (C1 & C2 & C3 & C4 & C5 & cn & C6 & C7 & C8).
        destruct (match v with Some o => do x <- value (f_regs fr) o; Ok (Some x) | None => Ok None end) as [x| | |] eqn:Ev; try discriminate. cbn [bind] in E.
        destruct (light_total log (len (tc :: tfs1)) (t_regs tf) (t_pre tf) p t A) as (p1 & R1 & U1 & A1); [|exact H0|].
        { rewrite M8. cbn [visit_term]. destruct v; [destruct (fn_native fn)|]; repeat constructor. }
        destruct Ca as (Af & _).
        assert (Pr : exists e', put_result (t_regs tc) (t_dst tf) x = Ok e').
        { rewrite M4. unfold set_result in E. unfold put_result. destruct (f_dst fr); [|eauto]. destruct x; [eauto|discriminate]. }
        destruct Pr as (e' & Pr).
        destruct (light_total log (len tfs1) e' (t_after tc) p1 _ A1) as (p2 & R2 & U2 & _).
        { rewrite Af. destruct (f_dst fr); repeat constructor. }
        { exact (uses_has _ 0 _ 0 U1 H0). }
        eexists. split; [eapply t_ret with (v := v) (x := x); eauto|exact (uses_trans _ 0 _ 0 _ U1 U2)]. now rewrite M3. }
    all: destruct (target (f_regs fr) _) as [b0| | |] eqn:Etg in E; try discriminate; cbn [bind] in E; rewrite M6 in E;
      destruct (get (fn_blocks fn) b0) as [blk|] eqn:Eb; [|discriminate];
      destruct (incoming (f_blk fr) (b_phis blk)) as [il| | |] eqn:Ein; try discriminate; cbn [bind] in E;
      destruct (pairs (fun o => do v <- value (f_regs fr) o; Ok (Some v)) il) as [vs| | |] eqn:Ep; try discriminate; cbn [bind] in E;
      destruct (tincoming_total _ _ _ Ein) as (inc & Ti); destruct (tincoming_spec _ _ _ Ti) as (il2 & I1 & I2 & I3); assert (il2 = il) as -> by congruence;
      cbn [visit_term] in M8;
      destruct (phi_total base log M argv (len tfs) (snd inc) p t A) as (p2 & R2 & U2 & _);
      eexists; (split; [eapply t_jump with (b := b0) (inc := inc) (vs := vs) (p1 := p) (f := visit_func fn); eauto|exact U2]).
    all: try (rewrite M8; reflexivity).
    all: try (rewrite M1; now apply get_visit).
    all: try (cbn [visit_func tf_blocks]; rewrite get_map, Eb; reflexivity).
    all: try (rewrite M5, M3; exact Etg).
    all: try (cbn [visit_block tb_phis]; rewrite M2; exact Ti).
    all: try (rewrite I2, M3; exact Ep).
  - cbn [map] in M7. destruct (plain i) eqn:Pl.
    + (* plain *)
      assert (X : exists em, app_exec i (f_regs fr) m a = Ok em).
      { destruct i; try discriminate; destruct (app_exec _ (f_regs fr) m a) as [em| | |]; try discriminate; eauto. }
      destruct X as ((e' & m') & Ex).
      assert (Gi : g_ins (visit (avoids fn) i) = i) by (destruct i; cbn [visit]; try reflexivity; destruct (combine_ops _ _); reflexivity).
      assert (Gp : g_post (visit (avoids fn) i) = []) by (destruct i; cbn [visit plain] in *; try reflexivity; try discriminate; destruct (combine_ops _ _); reflexivity).
      assert (Cs := plain_cost (avoids fn) i Pl).
      assert (Ab := plain_able (avoids fn) i _ _ _ _ Pl Ex).
      assert (Hi : has p (instr_labels i)) by (destruct i; try discriminate; exact Hs).
      destruct (code_total base log M argv (len tfs) (f_regs fr) _ p t A (visit_sized (avoids fn) i) Ab) as (p1 & R1 & U1 & _).
      { exact (has_le _ _ _ Hi Cs). }
      eexists. split.
      * eapply t_plain with (g := visit (avoids fn) i) (e' := e') (m' := m') (p1 := p1) (p2 := p1); eauto.
        -- now rewrite Gi.
        -- rewrite M3. exact R1.
        -- rewrite Gi, M3. exact Ex.
        -- rewrite Gp. reflexivity.
      * cbn [t_proc]. apply uses_le with (code_labels (g_pre (visit (avoids fn) i))); [exact U1|]. destruct i; try discriminate; exact Cs.
    + destruct i; try discriminate.
      * (* call *) destruct (value (f_regs fr) callee) as [c| | |] eqn:Ec; try discriminate. cbn [bind] in E.
        destruct (values (f_regs fr) args) as [vals| | |] eqn:Ev; try discriminate. cbn [bind] in E. destruct (get P c) as [f|] eqn:Ef; [|discriminate].
        destruct (fn_native f) eqn:En; [discriminate|].
        destruct (enter c f vals _ dst) as [new0| | |] eqn:Ee; try discriminate. destruct (tenter_total _ _ _ _ _ _ Ee) as (new & Te).
        destruct (light_total log (len tfs) (f_regs fr) (arg_stores 0 args) p t A (arg_stores_light args 0) H0) as (p1 & R1 & U1 & A1).
        destruct (light_total log (len tfs + 1) (t_regs new) (arg_loads (fn_native f) 0 (fn_params f)) p1 _ A1 (arg_loads_light _ _ 0) (uses_has _ 0 _ 0 U1 H0)) as (p2 & R2 & U2 & _).
        eexists. split; [eapply t_call with (c := c) (vals := vals) (f := visit_func f) (new := new) (p1 := p1) (p2 := p2); eauto|exact (uses_trans _ 0 _ 0 _ U1 U2)].
        -- cbn [visit g_ins]. reflexivity.
        -- rewrite M3. exact R1.
        -- now rewrite M3.
        -- now rewrite M3.
        -- now apply get_visit.
      * (* custom function *)
        destruct (values (f_regs fr) args) as [vals| | |] eqn:Ev; try discriminate. cbn [bind] in E.
        destruct (lib_event k vals m a) as [v| | |] eqn:Ee; try discriminate. cbn [bind] in E. destruct (Be _ _ eq_refl) as ((K & Sp) & Sv & An).
        set (ds := match passed k args with Some o => dep (f_deps fr) o | None => [] end) in *.
        set (s1 := p_set s VALUE ds) in *.
        destruct (set_result _ (Some (lib_value k vals a)) _ dst) as [fr'| | |] eqn:Er; try discriminate. cbn [bind] in E. injection E as <-. cbn [s_ast s_log] in Wl, Lf.
        destruct (light_total log (len tfs) (f_regs fr) (match label_op k args with Some o => [TPass (sh o)] | None => [] end) p t A) as (p1 & R1 & U1 & A1); [destruct (label_op k args); repeat constructor|exact H0|].
        destruct (lib_reads k vals m a v s t args (f_regs fr) (len tfs) (f_deps fr) Ee Sp Nr Ev Ag) as (Rd & N1 & F1 & V). fold ds in Rd, N1. fold s1 in Rd, N1.
        set (t1 := pcode (len tfs) (f_regs fr) t _) in *. assert (N2 := near_step low argv v s1 t1 N1 Rd).
        assert (H1 := uses_has p 0 p1 _ U1 Hs). assert (Lv := A1). destruct Lv as (_ & _ & r1 & _ & Lv & _).
        destruct (wrapped_total base log M argv p1 vals t1 r1 k m a v A1 Lv Ee (near_event _ _ _ N1 K) Sv (near_limits _ _ N2 Wl)) as (x & l & p2 & W & Xv & U2); auto.
        { destruct Lf as [L1 L2]. split; [now rewrite <- (nr_events _ _ _ N2)|]. rewrite len_app in L2 |- *. now rewrite (flow_len s1 t1 v Rd). }
        { unfold answered in *. destruct v; auto. now rewrite <- (nr_names _ _ _ N2). }
        assert (U2' := U2). destruct U2' as (ra & r2 & Ea & Lv2 & L2).
        assert (Pr : exists e', put_result (f_regs fr) dst (Some (lib_value k vals a)) = Ok e') by (destruct dst; cbn [put_result]; eauto). destruct Pr as (e' & Pr).
        assert (X : exists p3, run_code (len tfs) e' (set_rt p2 (rt_set_label r2 VALUE l)) (match dst with Some y => [TResult y] | None => [] end) = Ok p3 /\
                      exists r3, p_tdag p3 = Live r3 /\ r_tab r3 = r_tab r2).
        { destruct dst as [y|]; cbn [run_code]; [|eexists; split; [reflexivity|]; eexists; split; reflexivity].
          unfold get_tdag, set_rt. cbn [p_tdag bind sx]. eexists. split; [reflexivity|]. eexists. split; reflexivity. }
        destruct X as (p3 & R3 & r3 & Lv3 & T3).
        eexists. split; [eapply t_lib with (vals := vals) (v := v) (p1 := p1) (r1 := r1) (x := x) (l := l) (p2 := p2) (r2 := r2) (e' := e') (p3 := p3); eauto|].
        -- cbn [visit g_ins]. reflexivity.
        -- rewrite M3. exact R1.
        -- now rewrite M3.
        -- now rewrite M3.
        -- cbn [t_proc]. destruct U1 as (ra0 & rb & Ea0 & Eb0 & Lab). exists ra0, r3. split; [exact Ea0|]. split; [exact Lv3|]. rewrite T3.
           assert (rb = ra) as -> by congruence. lia.
Qed.
End Step.

(** ** Whole executions *)
Lemma has_roomy T n : has (t_proc T) n -> roomy T.
Proof. intros (r & E & Rm) r' E'. assert (r' = r) as -> by congruence. unfold room in *. lia. Qed.

Lemma run_total base argv P T0 bs : mapped base shipped -> forall as_ S T S', rel base argv P S T -> trun (instrument P) T0 as_ T ->
  srun true argv P S bs = Ok S' -> behaved true argv P S bs -> serviceable true argv P S bs ->
  has (t_proc T) (run_labels true argv P S bs) ->
  exists T', trun (instrument P) T0 (as_ ++ bs) T' /\ uses (t_proc T) (run_labels true argv P S bs) (t_proc T').
Proof.
  intros M. induction bs as [|a bs IH]; intros as_ S T S' R Tr E Be Se H; cbn [srun behaved serviceable run_labels] in *.
  - exists T. rewrite app_nil_r. split; [exact Tr|]. destruct H as (r & Lv & _). exists r, r. repeat split; auto. lia.
  - destruct (sstep true argv P S a) as [S1| | |] eqn:E1; try discriminate. cbn [bind] in E.
    destruct Be as [B1 B2], Se as [Q1 Q2]. destruct (B2 _ eq_refl) as [B3 B4], (Q2 _ eq_refl) as [Q3 Q4].
    destruct (step_total base argv P M S T a S1 R E1) as (T1 & St & U).
    { intros s v En. destruct (B1 s v En), (Q1 s v En). auto. }
    { exact B3. }
    { exact Q3. }
    { apply has_le with (step_labels S a + run_labels true argv P S1 bs); [exact H|lia]. }
    assert (H1 := uses_has _ _ _ _ U H). assert (Rm := has_roomy _ _ H1).
    destruct (step_flow base argv P M S T a T1 R St B1) as (S1' & E1' & R1); [intros S2 Q; assert (S2 = S1) as -> by congruence; exact B3|exact Rm|].
    assert (S1' = S1) as -> by congruence.
    destruct (IH (as_ ++ [a]) S1 T1 S' R1 (M_DfsanRun.tr_snoc _ _ _ _ _ _ Tr St Rm) E B4 Q4 H1) as (T' & Tr' & U').
    exists T'. rewrite <- app_assoc in Tr'. split; [exact Tr'|]. exact (uses_trans _ _ _ _ _ U U').
Qed.

(** ** Start *)
Lemma start_stream_total base h r s fd on path size : mapped base shipped -> api_run base h r s -> within_limits s ->
  (fd < 2 ^ 31)%Z -> name_ok path -> (forall n, size = Some n -> n < 2 ^ 64 - 1) ->
  within_limits (fold_left (estep false) (if is_one on then [EOpen path fd size] else []) s) -> a_log s = [] ->
  exists r', start_stream r fd on path size = Ok r' /\ r_tab r' = r_tab r.
Proof.
  intros M R L0 F Nk Sz L Lg. unfold start_stream. destruct (Z.leb_spec 0 fd) as [P|P]; cbn [andb]; [|eauto].
  destruct (is_one on); [|eauto]. cbn [fold_left estep] in L. rewrite (proj2 (Z.leb_le 0 fd) P) in L.
  apply (open_total base [] M r s s path fd size); [|lia|exact Nk|exact Sz|exact L]. exists h. split; [exact R|]. split; [apply alike_refl|]. rewrite Lg. split; [constructor|exact L0].
Qed.

Lemma start_total base e fo fe fi so se si : mapped base shipped ->
  (fo < 2 ^ 31 /\ fe < 2 ^ 31 /\ fi < 2 ^ 31)%Z ->
  (forall n, so = Some n \/ se = Some n \/ si = Some n -> n < 2 ^ 64 - 1) ->
  exists p r, cb_start proc_start e base fo fe fi so se si = Ok p /\ p_tdag p = Live r /\ len (r_tab r) = 1.
Proof.
  intros M (F1 & F2 & F3) Sz. destruct (rt_new_spec base M) as (r0 & E0 & _ & T0 & _).
  destruct dev_ok as (D1 & D2 & D3).
  set (s1 := fold_left (estep false) (if is_one (e_stdout e) then [EOpen dev_stdout fo so] else []) a_init).
  set (s2 := fold_left (estep false) (if is_one (e_stderr e) then [EOpen dev_stderr fe se] else []) s1).
  set (s3 := fold_left (estep false) (if is_one (e_stdin e) then [EOpen dev_stdin fi si] else []) s2).
  assert (P0 : opens a_init 0 0) by (repeat split; vm_compute; congruence).
  assert (P1 := opens_step a_init (e_stdout e) dev_stdout fo so 0 0 P0). fold s1 in P1.
  assert (P2 := opens_step s1 (e_stderr e) dev_stderr fe se _ _ P1). fold s2 in P2.
  assert (P3 := opens_step s2 (e_stdin e) dev_stdin fi si _ _ P2). fold s3 in P3.
  assert (L0 : within_limits a_init) by (apply (opens_limits _ _ _ P0); vm_compute; congruence).
  assert (L1 : within_limits s1) by (apply (opens_limits _ _ _ P1); vm_compute; congruence).
  assert (L2 : within_limits s2) by (apply (opens_limits _ _ _ P2); vm_compute; congruence).
  assert (L3 : within_limits s3) by (apply (opens_limits _ _ _ P3); vm_compute; congruence).
  assert (Lg : forall on path fd size s, a_log (fold_left (estep false) (if is_one on then [EOpen path fd size] else []) s) = a_log s).
  { intros on path fd size s. destruct (is_one on); [|reflexivity]. cbn [fold_left estep]. now destruct (0 <=? fd)%Z. }
  assert (G1 : a_log s1 = []) by (unfold s1; now rewrite Lg). assert (G2 : a_log s2 = []) by (unfold s2; now rewrite Lg).
  assert (R0 := ar_start base r0 E0).
  assert (Z1 : forall n, so = Some n -> n < 2 ^ 64 - 1) by auto. assert (Z2 : forall n, se = Some n -> n < 2 ^ 64 - 1) by auto. assert (Z3 : forall n, si = Some n -> n < 2 ^ 64 - 1) by auto.
  destruct (start_stream_total base [] r0 a_init fo (e_stdout e) dev_stdout so M R0 L0 F1 D1 Z1 L1 eq_refl) as (r1 & E1 & T1).
  destruct (start_stream_run base [] r0 a_init fo (e_stdout e) dev_stdout so r1 R0 F1 D1 Z1 E1 L1) as (h1 & R1).
  destruct (start_stream_total base h1 r1 s1 fe (e_stderr e) dev_stderr se M R1 L1 F2 D2 Z2 L2 G1) as (r2 & E2 & T2).
  destruct (start_stream_run base h1 r1 s1 fe (e_stderr e) dev_stderr se r2 R1 F2 D2 Z2 E2 L2) as (h2 & R2).
  destruct (start_stream_total base h2 r2 s2 fi (e_stdin e) dev_stdin si M R2 L2 F3 D3 Z3 L3 G2) as (r3 & E3 & T3).
  unfold cb_start, taint_start. cbv zeta. rewrite E0. cbn [bind]. rewrite E1. cbn [bind]. rewrite E2. cbn [bind]. rewrite E3. cbn [bind p_tdag].
  eexists _, r3. split; [reflexivity|]. split; [reflexivity|]. rewrite T3, T2, T1, T0. reflexivity.
Qed.

Lemma boots_labels base e p s0 : mapped base shipped -> boots base e p s0 -> exists r, p_tdag p = Live r /\ len (r_tab r) = 1.
Proof.
  intros M [fo fe fi so se si p' E F Sz]. destruct (start_total base e fo fe fi so se si M F Sz) as (p2 & r & E2 & Lv & T).
  assert (p2 = p') as -> by congruence. eauto.
Qed.
Lemma boots_alive base e p s0 : mapped base shipped -> boots base e p s0 -> alive base [] (argv_on e) p s0.
Proof. intros M [fo fe fi so se si p0 E F Sz]. apply alive_sim. now apply start_sim. Qed.

Lemma main_total base e P main vals m p s0 S0 : mapped base shipped -> boots base e p s0 -> sstart P main vals m s0 = Ok S0 ->
  exists T0 r, tstart (instrument P) main vals m p T0 /\ p_tdag (t_proc T0) = Live r /\ len (r_tab r) <= 1.
Proof.
  intros M B E. unfold sstart in E. destruct (get P main) as [f|] eqn:G; [|discriminate].
  destruct (enter main f vals _ None) as [fr| | |] eqn:En; try discriminate. destruct (tenter_total _ _ _ _ _ _ En) as (new & Te).
  destruct (boots_labels base e p s0 M B) as (r & Lv & T).
  assert (H : has p 0) by (exists r; split; [exact Lv|]; unfold room; rewrite T; vm_compute; congruence).
  destruct (light_total base (argv_on e) M [] 0 (t_regs new) (arg_loads (fn_native f) 0 (fn_params f)) p s0 (boots_alive base e p s0 M B) (arg_loads_light _ _ 0) H) as (p1 & R1 & U & A).
  destruct U as (r0 & r1 & E0 & E1 & L). assert (r0 = r) as -> by congruence.
  exists (mkT [new] m p1), r1. split; [|split; [exact E1|]].
  - apply t_start with (visit_func f); [now apply get_visit|exact Te|exact R1].
  - lia.
Qed.

(** ** Sequences of events *)
Lemma events_total base e s0 evs : mapped base shipped -> forall done p s, proc_run base e s0 done p s ->
  endures (argv_on e) s (flows (argv_on e) s0 done) evs -> has p (events_labels evs) ->
  exists p', proc_run base e s0 (done ++ evs) p' (fold_left (estep (argv_on e)) evs s) /\ uses p (events_labels evs) p'.
Proof.
  intros M. induction evs as [|v evs IH]; intros done p s R En H; cbn [endures fold_left] in *.
  - exists p. rewrite app_nil_r. split; [exact R|]. destruct H as (r & Lv & _). exists r, r. repeat split; auto. lia.
  - destruct En as (K & Sv & L & Lf & En). change (events_labels (v :: evs)) with (event_labels v + events_labels evs) in *.
    destruct (run_sim base e s0 done p s M R) as (Es & Sm). apply alive_sim in Sm.
    destruct (event_total base _ M (argv_on e) p s v Sm K Sv L Lf) as (p1 & St & U); [apply has_le with (1 := H); lia|].
    assert (H1 := uses_has _ _ _ _ U H).
    assert (R1 : proc_run base e s0 (done ++ [v]) p1 (estep (argv_on e) s v)).
    { apply pr_event with p; auto. split; [exact L|]. intros r Lv. destruct H1 as (r' & Lv' & Rm). assert (r' = r) as -> by congruence. unfold room in *. lia. }
    destruct (IH (done ++ [v]) p1 _ R1) as (p' & R' & U').
    { rewrite flows_app. cbn [flows]. rewrite app_nil_r, <- Es. exact En. }
    { exact H1. }
    exists p'. rewrite <- app_assoc in R'. split; [exact R'|]. exact (uses_trans _ _ _ _ _ U U').
Qed.
