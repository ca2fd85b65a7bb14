(** An executable way to build concrete process runs, for the examples. *)
From Coq Require Import NArith ZArith List Bool Lia.
From Verif Require Import M_Base M_Memory M_Labels M_Functions M_CfLog M_Dfsan M_OutputFile M_Api M_Runtime S_Strings S_Functions S_OutputFile S_Dfsan S_Api S_Runtime
  P_Base P_ApiDemo P_Runtime.
Import ListNotations.
Open Scope N_scope.

Definition last3 {A B} (x : Res (A * B * proc)) : Res proc := do q <- x; Ok (snd q).
Definition live_rt (p : proc) : Res rt := match p_tdag p with Live r => Ok r | _ => UB end.

Definition exec_event (p : proc) (v : event) : Res proc :=
  match v with
  | EOpen path fd size => last3 (w_open p path fd size)
  | EClose fd ret => last3 (w_close p fd ret)
  | ERead fd buff pos ret => last3 (w_read p fd buff pos ret)
  | EFread fd buff size pos ret => last3 (w_fread p fd buff size pos ret)
  | EFgets fd str app n pos => last3 (w_fgets 1000 app p fd str pos true 0)
  | EGetc fd pos c dst =>
      do q <- w_getc p fd pos c; do r <- live_rt (snd q); Ok (set_rt (snd q) (rt_set_label r dst (snd (fst q))))
  | EMmap n fd pos addr => last3 (w_mmap p n fd pos addr)
  | EMunmap addr n => last3 (w_munmap p addr n 0)
  | EArgv app args => taint_argv 1000 app p (map fst args)
  | ECopy dst src => do r <- live_rt p; Ok (set_rt p (rt_set_label r dst (r_shadow r src)))
  | ECompute dst a b => do r <- live_rt p; do q <- dfsan_union (p_flag p) (r_tab r) (r_shadow r a) (r_shadow r b);
                        Ok (set_rt p (rt_set_label (set_tab r (snd q)) dst (fst q)))
  | EConst dst => do r <- live_rt p; Ok (set_rt p (rt_set_label r dst 0))
  | EBranch a => do r <- live_rt p; cb_dfsw_cond_branch 1000 0 p 0 (r_shadow r a)
  | EWrite fd buff pos ret => last3 (w_write pad0 p fd buff pos ret)
  | EFwrite fd buff size pos ret => last3 (w_fwrite pad0 p fd buff size pos ret)
  | EPutc ch fd pos ret src => do r <- live_rt p; last3 (w_putc pad0 p ch fd pos ret (r_shadow r src))
  | EEnter name => do q <- cb_func_entry 0 p name; Ok (snd q)
  | EExit i => cb_func_exit 0 p i
  | ECfEnter f => cb_enter p f
  | ECfLeave f => cb_leave p f
  | ECfTainted f a => do r <- live_rt p; do q <- cb_tainted_cf p 0 f (r_shadow r a) 0; Ok (snd q)
  end.

Definition c_stringb (app : N -> N) (p n : N) : bool := match c_strlen 1000 app p with Ok k => k =? n | _ => false end.
Definition event_okb (s : ast) (v : event) : bool :=
  match v with
  | EOpen path fd size => (fd <? 2147483648)%Z && name_okb path && match size with Some n => n <? 18446744073709551615 | None => true end
  | EClose _ _ => true
  | ERead fd _ pos ret => fd_okb s fd && transfer_okb s (a_rd s) fd (offset_of pos) (Z.to_N ret)
  | EFread fd _ size pos ret => fd_okb s fd && transfer_okb s (a_rd s) fd (offset_of pos) (size * ret)
  | EFgets fd str app n pos => fd_okb s fd && transfer_okb s (a_rd s) fd (offset_of pos) n && c_stringb app str n
  | EGetc fd pos _ _ => fd_okb s fd && transfer_okb s (a_rd s) fd (offset_of pos) 1
  | EMmap n fd pos _ => fd_okb s fd && transfer_okb s (a_rd s) fd (offset_of pos) n
  | EArgv app args => forallb (fun an => c_stringb app (fst an) (snd an) && (snd an <=? 18014398509481984)) args
  | EWrite fd _ pos ret => fd_okb s fd && transfer_okb s (a_wr s) fd (offset_of pos) (Z.to_N ret)
  | EFwrite fd _ size pos ret => fd_okb s fd && transfer_okb s (a_wr s) fd (offset_of pos) (size * ret)
  | EPutc ch fd pos ret _ => fd_okb s fd && transfer_okb s (a_wr s) fd (offset_of pos) 1 && ((0 <=? ch) && (ch <? 256))%Z && ((ret =? ch) || (ret =? -1))%Z
  | EEnter name => name_okb name
  | EExit i => i <? 65536
  | ECfEnter f | ECfLeave f | ECfTainted f _ => f <? 4294967296
  | _ => true
  end.

Definition limitsb (p : proc) (s : ast) : bool :=
  within_limitsb s && match p_tdag p with Live r => len (r_tab r) <=? 2147483584 | _ => true end.

Fixpoint exec_events (argv : bool) (p : proc) (s : ast) (evs : list event) : Res (proc * ast) :=
  match evs with
  | [] => Ok (p, s)
  | v :: rest =>
      if event_okb s v then
        do p' <- exec_event p v;
        let s' := estep argv s v in
        if limitsb p' s' then exec_events argv p' s' rest else Exit
      else Exit
  end.

Lemma exec_event_ok p v p' : exec_event p v = Ok p' -> pstep p v p'.
Proof.
  assert (Pd : forall i, is_bytes (pad0 i)) by (intros; constructor).
  assert (L : forall q r, live_rt q = Ok r -> p_tdag q = Live r).
  { unfold live_rt. intros q r H. destruct (p_tdag q); congruence. }
  assert (T : forall A B (x : Res (A * B * proc)), last3 x = Ok p' -> exists a b, x = Ok (a, b, p')).
  { unfold last3. intros A B [[[a b] q]| | |] H; try discriminate. cbn [bind snd] in H. injection H as <-. eauto. }
  destruct v; cbn [exec_event]; intros H;
    try (apply T in H as (x & l & H); econstructor; eassumption); try (econstructor; eassumption).
  - (* getc *) destruct (w_getc p fd pos c) as [[[x l] q]| | |] eqn:E; try discriminate. cbn [bind fst snd] in H.
    destruct (live_rt q) as [r| | |] eqn:E2; try discriminate. cbn [bind] in H. injection H as <-. econstructor; eauto.
  - destruct (live_rt p) as [r| | |] eqn:E2; try discriminate. cbn [bind] in H. injection H as <-. econstructor; eauto.
  - destruct (live_rt p) as [r| | |] eqn:E2; try discriminate. cbn [bind] in H.
    destruct (dfsan_union (p_flag p) (r_tab r) (r_shadow r a) (r_shadow r b)) as [[l t]| | |] eqn:E3; try discriminate. cbn [bind fst snd] in H.
    injection H as <-. econstructor; eauto.
  - destruct (live_rt p) as [r| | |] eqn:E2; try discriminate. cbn [bind] in H. injection H as <-. econstructor; eauto.
  - destruct (live_rt p) as [r| | |] eqn:E2; try discriminate. cbn [bind] in H. econstructor; eauto.
  - destruct (live_rt p) as [r| | |] eqn:E2; try discriminate. cbn [bind] in H. apply T in H as (x & l & H). econstructor; eauto.
  - destruct (cb_func_entry 0 p name) as [[i q]| | |] eqn:E; try discriminate. cbn [bind snd] in H. injection H as <-.
    apply ps_enter with 0 i; [reflexivity|exact E].
  - apply ps_exit with 0; [reflexivity|exact H].
  - destruct (live_rt p) as [r| | |] eqn:E2; try discriminate. cbn [bind] in H.
    destruct (cb_tainted_cf p 0 f (r_shadow r a) 0) as [[x q]| | |] eqn:E; try discriminate. cbn [bind snd] in H. injection H as <-.
    econstructor; eauto.
Qed.

Lemma c_stringb_ok app p n : c_stringb app p n = true -> c_string app p n.
Proof.
  unfold c_stringb. destruct (c_strlen 1000 app p) as [k| | |] eqn:E; try discriminate. intros H. apply N.eqb_eq in H. subst k.
  now apply c_strlen_ok in E.
Qed.

Ltac ands := repeat match goal with H : andb _ _ = true |- _ => apply andb_true_iff in H as [? ?] end.
Lemma event_okb_ok s v : event_okb s v = true -> event_ok s v.
Proof.
  destruct v; cbn [event_okb event_ok]; intros H; ands; auto using fd_okb_ok, transfer_okb_ok, c_stringb_ok;
    try (now apply N.ltb_lt); try (apply name_okb_ok; assumption).
  - split; [now apply Z.ltb_lt|]. split; [now apply name_okb_ok|]. intros n ->. now apply N.ltb_lt.
  - apply Forall_forall. intros x Hx. rewrite forallb_forall in H. specialize (H x Hx). ands. split; [now apply c_stringb_ok|]. now apply N.leb_le.
  - split; [now apply fd_okb_ok|]. split; [now apply transfer_okb_ok|].
    match goal with X : ((0 <=? ch)%Z = true) |- _ => apply Z.leb_le in X end. match goal with X : ((ch <? 256)%Z = true) |- _ => apply Z.ltb_lt in X end.
    split; [lia|]. match goal with X : orb _ _ = true |- _ => apply orb_true_iff in X as [X|X]; apply Z.eqb_eq in X end; auto.
Qed.

Lemma limitsb_ok p s : limitsb p s = true -> limits p s.
Proof.
  unfold limitsb, within_limitsb. intros H. ands. split.
  - repeat match goal with H : N.leb _ _ = true |- _ => apply N.leb_le in H end. now repeat split.
  - intros r E. rewrite E in *. match goal with H : N.leb (len (r_tab r)) _ = true |- _ => apply N.leb_le in H end. unfold room. lia.
Qed.

Lemma exec_events_ok base e evs : forall s0 evs0 p s p' s', proc_run base e s0 evs0 p s -> exec_events (argv_on e) p s evs = Ok (p', s') ->
  proc_run base e s0 (evs0 ++ evs) p' s'.
Proof.
  induction evs as [|v evs IH]; intros s0 evs0 p s p' s' R E; cbn [exec_events] in E.
  - injection E as <- <-. now rewrite app_nil_r.
  - destruct (event_okb s v) eqn:K; [|discriminate]. destruct (exec_event p v) as [p1| | |] eqn:X; try discriminate. cbn [bind] in E.
    destruct (limitsb p1 (estep (argv_on e) s v)) eqn:L; [|discriminate].
    change (v :: evs) with ([v] ++ evs). rewrite app_assoc. apply (IH s0 (evs0 ++ [v]) p1 (estep (argv_on e) s v)); [|exact E].
    apply pr_event with p; auto using event_okb_ok, exec_event_ok, limitsb_ok.
Qed.

Definition exec_run (base : N) (e : env) (evs : list event) : Res (proc * ast) :=
  do p <- cb_start proc_start e base 1 2 0 None None None;
  exec_events (argv_on e) p (fold_left (estep (argv_on e)) (stream_events e 1 2 0 None None None) a_init) evs.

Lemma exec_run_ok base e evs (check : proc -> ast -> bool) :
  match exec_run base e evs with Ok (p, s) => check p s | _ => false end = true ->
  exists s0 p s, proc_run base e s0 evs p s /\ check p s = true.
Proof.
  intros H. destruct (exec_run base e evs) as [[p s]| | |] eqn:E; try discriminate. eexists; exists p, s. split; [|exact H].
  unfold exec_run in E. destruct (cb_start proc_start e base 1 2 0 None None None) as [p0| | |] eqn:E0; try discriminate. cbn [bind] in E.
  refine (exec_events_ok base e evs _ [] p0 _ p s _ E). apply pr_start. apply boots_start; [exact E0|lia|]. intros n [Q|[Q|Q]]; discriminate.
Qed.
