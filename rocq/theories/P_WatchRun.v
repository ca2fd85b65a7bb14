(** Executions of programs that all the passes instrumented, against watched executions. *)
From Coq Require Import NArith ZArith List Bool Lia.
From Verif Require Import M_Base M_Memory M_Functions M_CfLog M_OutputFile M_Dfsan M_Api M_Runtime M_Llvm M_DfsanPass M_DfsanRun M_LlvmPasses
  S_Strings S_Functions S_Labels S_Provenance S_OutputFile S_Api S_History S_Runtime S_DataFlow S_Demand S_Watch
  P_Base P_Functions P_ApiMem P_Api P_ApiRun P_Runtime P_Argv P_ProcRun P_DfsanCode P_DfsanFlow P_DfsanSim P_Progress P_Watch P_WatchStep P_Weave.
Import ListNotations.
Open Scope N_scope.

Section Answers.
  Variables (base : N) (argv : bool) (P : prog).
  Hypothesis M : mapped base shipped.

  Lemma fn_entry_index fl r s s' pad name i r' : up base fl r s s' -> name_ok name -> within_limits (astep s (CFnEntry name) RNone) ->
    rt_fn_entry pad r name = Ok (i, r') -> index_of name (a_names (astep s (CFnEntry name) RNone)) = Some i.
  Proof.
    intros U Nk L H. destruct U as (h & R & Al & En & Ls). destruct (api_run_inv base h _ _ M R) as (g & A). assert (Ln := al_names _ _ Al). assert (Rg := al_regs _ _ Al).
    destruct L as (_ & L2 & _ & L4). unfold strings_of in L2. cbn [astep] in L2, L4 |- *. cbv zeta in *. cbn [a_names a_regs a_events] in *.
    rewrite Ln in *. rewrite Rg in *.
    destruct (inv_add_mapping base r _ _ _ g name M (ai_mem _ _ _ _ A) Nk) as (m & st & fs & f & acc & offs & E & Mi).
    { intros Q. rewrite Q in L2, L4. rewrite len_app, len_cons, len_nil in L4. split; [exact L2|lia]. }
    unfold rt_fn_entry in H. rewrite E in H. cbn [bind] in H.
    match type of H with context[log_fn_event ?a ?b ?c ?d ?e] => destruct (log_fn_event a b c d e) as [q| | |]; try discriminate end. cbn [bind] in H.
    assert (Hi : match index_of name (a_names s') with Some k => k | None => len (a_names s') end = i) by congruence.
    destruct (index_of name (a_names s')) as [k|] eqn:Q; rewrite <- Hi; [exact Q|]. now apply index_of_snoc.
  Qed.

  Lemma step_answers S T a T' : rel base argv P S T -> tstep (instrument P) T a T' ->
    (forall s v, next_event S a = Some (s, v) -> S_Runtime.event_ok s v /\ in_space v) ->
    (forall S', sstep true argv P S a = Ok S' -> within_limits (s_ast S')) -> answers argv S a.
  Proof.
    intros (t & A & Nr & Em & St) H Be Wl s0 v0 Ne. assert (Ne0 := Ne). destruct S as [fs m0 s log]. cbn [s_frames s_mem s_ast s_log] in *.
    destruct H as [fr below m p a g rest p1 e' m' p2 E1 Pl E2 E3 E4
      |fr below m p a g rest dst k args vals v p1 r1 x l p2 r2 e' p3 E1 E2 E3 E4 E5 E6 W Xv E7 E8 E9
      |fr below m p a g rest dst callee args c vals f new p1 p2 E1 E2 E3 E4 E5 E6 E7 E8 E9
      |fr caller below m p a v p1 x e' p2 E1 E2 E3 E4 E5 E6
      |fr m p a v p1 x E1 E2 E3 E4
      |fr below m p a b f blk inc vs p1 p2 E1 E2 E3 E4 E5 E6 E7 E8]; cbn [t_frames t_mem t_proc] in *; subst m0;
      inversion St as [|fr0 tf fs0 tfs Ma Ag Ca St0]; subst;
      destruct Ma as (M1 & M2 & M3 & M4 & M5 & fn & M6 & M7 & M8); cbn [s_frames s_mem s_ast s_log next_event] in *.
    - rewrite M7 in E1. destruct (f_rest fr0) as [|i is] eqn:Ei; [discriminate|]. cbn [map] in E1. assert (g = visit (avoids fn) i) as -> by congruence.
      destruct i; try discriminate.
    - rewrite M7 in E1. destruct (f_rest fr0) as [|i is] eqn:Ei; [discriminate|]. cbn [map] in E1. assert (g = visit (avoids fn) i) as -> by congruence.
      assert (i = ILib dst k args) as -> by (destruct i; cbn [visit g_ins] in E2; try discriminate; try exact E2; destruct (combine_ops _ _); discriminate).
      clear E1 E2. cbn [visit g_pre g_post] in E3, E9. rewrite M3 in E3, E4, E8. unfold sstep in Wl. cbn [s_frames s_mem s_ast s_log] in Wl. rewrite Ei in Wl. rewrite E4 in Ne, Be, Wl. cbn [bind] in Wl. rewrite E5 in Ne, Be, Wl. cbn [bind] in Wl.
      destruct (Be _ _ eq_refl) as [K Sp]. clear Be.
      assert (A1 := code_alive2 base log argv _ _ _ _ _ _ M A E3). specialize (A1 ltac:(destruct (label_op k args); repeat constructor)).
      destruct (lib_reads k vals m a v s t args (f_regs fr0) (len below) (f_deps fr0) E5 Sp Nr E4 Ag) as (Rd & N1 & F1 & V).
      set (ds := match passed k args with Some o => dep (f_deps fr0) o | None => [] end) in *.
      set (s1 := p_set s VALUE ds) in *. set (t1 := pcode (len below) (f_regs fr0) t _) in *.
      assert (N2 := near_step low argv v s1 t1 N1 Rd).
      assert (Wl2 : within_limits (estep argv s1 v)).
      { destruct (set_result _ (Some (lib_value k vals a)) (lib_deps k a ds (estep argv s1 v)) dst) as [fr'| | |] eqn:Sg in Wl.
        - exact (Wl _ eq_refl).
        - destruct dst; discriminate.
        - destruct dst; discriminate.
        - destruct dst; discriminate. }
      injection Ne as <- <-. destruct v; cbn [answered]; auto. inversion W as [| | | | | | | | | | | | | |pad nm i p' Pd Ef| | | |]; subst. specialize (Xv i eq_refl).
      assert (k = LEnter name). { unfold lib_event in E5. destruct (len vals <? arity k); [discriminate|]. destruct k; repeat match type of E5 with context [if ?c then _ else _] => destruct c end; try discriminate. injection E5 as ->. reflexivity. }
      subst k. cbn [lib_value] in Xv. rewrite Xv.
      unfold cb_func_entry in Ef. destruct A1 as (Fl & _ & r & s' & Lv & U). rewrite Fl in Ef. cbn [negb] in Ef. unfold get_tdag in Ef. rewrite Lv in Ef. cbn [bind] in Ef.
      destruct (rt_fn_entry pad r name) as [[i' r']| | |] eqn:Er; try discriminate. cbn [bind fst snd] in Ef. assert (i' = i) as -> by congruence.
      rewrite (nr_names _ _ _ N2). apply (fn_entry_index log r t1 s' pad name i r' U K); [|exact Er]. exact (near_limits _ _ N2 Wl2).
    - rewrite M7 in E1. destruct (f_rest fr0) as [|i is] eqn:Ei; [discriminate|]. cbn [map] in E1. assert (g = visit (avoids fn) i) as -> by congruence.
      destruct i; cbn [visit g_ins] in E2; try discriminate. 
    - rewrite M7 in E1. destruct (f_rest fr0) as [|i is]; [discriminate|]. discriminate.
    - rewrite M7 in E1. destruct (f_rest fr0) as [|i is]; [discriminate|]. discriminate.
    - rewrite M7 in E1. destruct (f_rest fr0) as [|i is]; [discriminate|]. discriminate.
  Qed.

  Lemma answers_snoc as_ a : forall S, answers_run P argv S as_ -> (forall S1, srun true argv P S as_ = Ok S1 -> answers argv S1 a) -> answers_run P argv S (as_ ++ [a]).
  Proof.
    induction as_ as [|x as_ IH]; intros S A H; cbn [app answers_run srun] in *.
    - split; [now apply H|]. intros; exact I.
    - destruct A as [A1 A2]. split; [exact A1|]. intros S1 E. apply IH; [now apply A2|]. intros S2 E2. apply H. now rewrite E.
  Qed.
  Lemma run_answers S0 T0 as_ T : rel base argv P S0 T0 -> trun (instrument P) T0 as_ T -> behaved true argv P S0 as_ -> answers_run P argv S0 as_.
  Proof.
    intros R Tr. induction Tr as [Rm|as_ T a T' Tr IH St Rm]; intros B; [exact I|].
    apply behaved_app in B as [B1 B2]. apply answers_snoc; [now apply IH|]. intros S1 E.
    destruct (run_flow base argv P S0 T0 as_ T M R Tr B1) as (S & E' & Rs). assert (S = S1) as -> by congruence. destruct (B2 S1 E) as [B3 B4].
    apply (step_answers S1 T a T' Rs St B3). intros S' Q. now apply B4.
  Qed.
End Answers.

(** The instrumented program does what the watched program does. *)
Lemma watched_run base e cflog ftrace ignore names P P' main vals m p s0 T0 as_ T S0 S :
  passes cflog ftrace ignore names P = Ok P' -> entry_not_a_target P -> mapped base shipped -> boots base e p s0 ->
  tstart (instrument P') main vals m p T0 -> trun (instrument P') T0 as_ T ->
  sstart P' main vals m s0 = Ok S0 -> behaved true (argv_on e) P' S0 as_ -> srun true (argv_on e) P' S0 as_ = Ok S ->
  let W := watching cflog ftrace ignore names P in
  exists kf R0 bs w, sstart P main vals m s0 = Ok R0 /\ part bs as_ /\ wrun W (argv_on e) P (wstart W R0) bs = Ok w /\ srel P W kf S w.
Proof.
  intros Ep Nj M B Ts Tr E Be Es W. destruct (passes_woven cflog ftrace ignore names P P' Ep) as (kf & Wv).
  destruct (start_flow base e P' main vals m p s0 T0 M B Ts) as (S1 & E1 & R1). assert (S1 = S0) as -> by congruence.
  assert (An := run_answers base (argv_on e) P' M S0 T0 as_ T R1 Tr Be).
  assert (Ne : forall n f b, get P n = Some f -> In b (fn_blocks f) -> ~ jumps_to (b_term b) 0) by (intros n f b G; apply Nj; unfold get in G; now apply nth_error_In in G).
  destruct (start_sim P P' W kf Wv main vals m s0 S0 E) as (R0 & ER & Sr).
  destruct (run_sim P P' W kf (argv_on e) Wv Ne as_ S0 _ S Sr Es An) as (bs & w & Pt & Ew & Sw). exists kf, R0, bs, w. auto.
Qed.
