(** An executable way to build concrete executions of instrumented programs, for the examples. *)
From Coq Require Import NArith ZArith List Bool Lia.
From Verif Require Import M_Base M_Memory M_Labels M_Functions M_CfLog M_Dfsan M_OutputFile M_Api M_Runtime M_Llvm M_DfsanPass M_DfsanRun
  S_Strings S_Functions S_OutputFile S_Dfsan S_Api S_Runtime S_DataFlow P_Base P_ApiDemo P_Runtime P_ProcDemo.
Import ListNotations.
Open Scope N_scope.

Definition lab3 {A} (x : Res (A * N * proc)) : Res (option N * N * proc) := do q <- x; Ok (None, snd (fst q), snd q).
Definition nolab (x : Res proc) : Res (option N * N * proc) := do p <- x; Ok (None, 0, p).

Definition exec_wrapped (p : proc) (vals : list N) (lab : N) (v : event) : Res (option N * N * proc) :=
  match v with
  | EOpen path fd size => lab3 (w_open p path fd size)
  | EClose fd ret => lab3 (w_close p fd ret)
  | ERead fd buff pos ret => lab3 (w_read p fd buff pos ret)
  | EFread fd buff size pos ret => lab3 (w_fread p fd buff size pos ret)
  | EFgets fd str app n pos => lab3 (w_fgets 1000 app p fd str pos true lab)
  | EGetc fd pos c dst => if dst =? VALUE then lab3 (w_getc p fd pos c) else UB
  | EMmap n fd pos addr => lab3 (w_mmap p n fd pos addr)
  | EMunmap addr n => lab3 (w_munmap p addr n 0)
  | EArgv app args => nolab (taint_argv 1000 app p (map fst args))
  | EBranch a => if a =? VALUE then nolab (cb_dfsw_cond_branch 1000 0 p (arg vals 0) lab) else UB
  | EWrite fd buff pos ret => lab3 (w_write pad0 p fd buff pos ret)
  | EFwrite fd buff size pos ret => lab3 (w_fwrite pad0 p fd buff size pos ret)
  | EPutc ch fd pos ret src => if src =? VALUE then lab3 (w_putc pad0 p ch fd pos ret lab) else UB
  | EEnter name => do q <- cb_func_entry 0 p name; Ok (Some (fst q), 0, snd q)
  | EExit i => nolab (cb_func_exit 0 p i)
  | ECfEnter f => nolab (cb_enter p f)
  | ECfLeave f => nolab (cb_leave p f)
  | ECfTainted f a => if a =? VALUE then do q <- cb_tainted_cf p (arg vals 0) f lab 0; Ok (Some (fst (fst q)), snd (fst q), snd q) else UB
  | _ => UB
  end.

Lemma exec_wrapped_ok p vals lab v x l p' : exec_wrapped p vals lab v = Ok (x, l, p') -> wrapped p vals lab v x l p'.
Proof.
  assert (Pd : forall i, is_bytes (pad0 i)) by (intros; constructor).
  assert (T : forall A (y : Res (A * N * proc)), lab3 y = Ok (x, l, p') -> x = None /\ exists a, y = Ok (a, l, p')).
  { unfold lab3. intros A [[[a b] q]| | |] H; try discriminate. cbn [bind fst snd] in H. injection H as <- <- <-. eauto. }
  assert (U : forall y, nolab y = Ok (x, l, p') -> x = None /\ l = 0 /\ y = Ok p').
  { unfold nolab. intros [q| | |] H; try discriminate. cbn [bind] in H. injection H as <- <- <-. auto. }
  destruct v; cbn [exec_wrapped]; intros H; try discriminate;
    try (apply T in H as (-> & y & H); econstructor; eassumption); try (apply U in H as (-> & -> & H); econstructor; eassumption).
  - destruct (N.eqb_spec dst VALUE) as [->|]; [|discriminate]. apply T in H as (-> & y & H). econstructor; eassumption.
  - destruct (N.eqb_spec a VALUE) as [->|]; [|discriminate]. apply U in H as (-> & -> & H). econstructor; eassumption.
  - destruct (N.eqb_spec src VALUE) as [->|]; [|discriminate]. apply T in H as (-> & y & H). econstructor; eassumption.
  - destruct (cb_func_entry 0 p name) as [[i q]| | |] eqn:E; try discriminate. cbn [bind fst snd] in H. injection H as <- <- <-. apply wr_enter with 0; [reflexivity|exact E].
  - apply U in H as (-> & -> & H). apply wr_exit with 0; [reflexivity|exact H].
  - destruct (N.eqb_spec a VALUE) as [->|]; [|discriminate].
    destruct (cb_tainted_cf p (arg vals 0) f lab 0) as [[[i j] q]| | |] eqn:E; try discriminate. cbn [bind fst snd] in H. injection H as <- <- <-.
    econstructor; eassumption.
Qed.

Definition exec_step (TP : tprog) (T : tstate) (a : answer) : Res tstate :=
  match t_frames T with
  | [] => UB
  | fr :: below =>
      let m := t_mem T in let p := t_proc T in let d := len below in
      match t_rest fr with
      | g :: rest =>
          match g_ins g with
          | ICall dst callee args =>
              do p1 <- run_code d (t_regs fr) p (g_pre g);
              do c <- value (t_regs fr) callee; do vals <- values (t_regs fr) args;
              match get TP c with
              | Some f => if tf_native f then UB else
                  do new <- tenter c f vals dst;
                  do p2 <- run_code (d + 1) (t_regs new) p1 (tf_entry f);
                  Ok (mkT (new :: goto fr rest (t_regs fr) (g_post g) :: below) m p2)
              | None => UB
              end
          | ILib dst k args =>
              do p1 <- run_code d (t_regs fr) p (g_pre g);
              do vals <- values (t_regs fr) args; do v <- lib_event k vals m a;
              do r1 <- live_rt p1;
              do q <- exec_wrapped p1 vals (r_shadow r1 VALUE) v;
              let x := fst (fst q) in let l := snd (fst q) in let p2 := snd q in
              if match x with Some i => lib_value k vals a =? i | None => true end then
                do r2 <- live_rt p2;
                do e' <- put_result (t_regs fr) dst (Some (lib_value k vals a));
                do p3 <- run_code d e' (set_rt p2 (rt_set_label r2 VALUE l)) (g_post g);
                Ok (mkT (goto fr rest e' [] :: below) (lib_mem k m a) p3)
              else UB
          | i =>
              do p1 <- run_code d (t_regs fr) p (g_pre g);
              do q <- app_exec i (t_regs fr) m a;
              do p2 <- run_code d (fst q) p1 (g_post g);
              Ok (mkT (goto fr rest (fst q) [] :: below) (snd q) p2)
          end
      | [] =>
          match t_term fr, below with
          | Ret v, [] =>
              do x <- match v with Some o => do x <- value (t_regs fr) o; Ok (Some x) | None => Ok None end;
              do p1 <- run_code 0 (t_regs fr) p (t_pre fr);
              Ok (mkT [] m p1)
          | Ret v, caller :: below' =>
              do x <- match v with Some o => do x <- value (t_regs fr) o; Ok (Some x) | None => Ok None end;
              do p1 <- run_code d (t_regs fr) p (t_pre fr);
              do e' <- put_result (t_regs caller) (t_dst fr) x;
              do p2 <- run_code (len below') e' p1 (t_after caller);
              Ok (mkT (goto caller (t_rest caller) e' [] :: below') m p2)
          | t, _ =>
              do b <- target (t_regs fr) t;
              do p1 <- run_code d (t_regs fr) p (t_pre fr);
              match get TP (t_fn fr) with
              | Some f =>
                  match get (tf_blocks f) b with
                  | Some blk =>
                      do inc <- tincoming (t_blk fr) (tb_phis blk);
                      do vs <- pairs (fun o => do v <- value (t_regs fr) o; Ok (Some v)) (fst inc);
                      do p2 <- phi_code d p1 (snd inc);
                      Ok (mkT (mkTf (t_fn fr) b (tb_body blk) (tb_pre blk) (tb_term blk) (assign (t_regs fr) vs) (t_dst fr) [] :: below) m p2)
                  | None => UB
                  end
              | None => UB
              end
          end
      end
  end.

Ltac unbind H := repeat match type of H with
  | bind ?e _ = Ok _ => destruct e eqn:?; try discriminate; cbn [bind fst snd] in H
  | match ?e with Some _ => _ | None => _ end = Ok _ => destruct e eqn:?; try discriminate
  | (if ?e then _ else _) = Ok _ => destruct e eqn:?; try discriminate
  end.

Lemma exec_step_ok TP T a T' : exec_step TP T a = Ok T' -> tstep TP T a T'.
Proof.
  assert (L : forall q r, live_rt q = Ok r -> p_tdag q = Live r).
  { unfold live_rt. intros q r H. destruct (p_tdag q); congruence. }
  destruct T as [[|fr below] m p]; [discriminate|]. unfold exec_step. cbn [t_frames t_mem t_proc]. intros H.
  destruct (t_rest fr) as [|g rest] eqn:Er.
  - destruct (t_term fr) as [b|c b1 b2|c cases dflt|v] eqn:Et.
    4: { destruct below as [|caller below']; unbind H; injection H as <-; econstructor; eauto. }
    all: unbind H; injection H as <-; econstructor; eauto; now rewrite Et.
  - destruct (g_ins g) eqn:Eg.
    11: { unbind H. injection H as <-. eapply t_call; eauto. }
    11: { unbind H. match goal with X : exec_wrapped _ _ _ _ = Ok ?q |- _ => destruct q as [[x l] p2]; cbn [fst snd] in *; unbind H; injection H as <-;
        eapply t_lib with (x := x) (l := l); eauto using exec_wrapped_ok end. intros i ->. now apply N.eqb_eq. }
    all: unbind H; injection H as <-; match goal with X : app_exec _ _ _ _ = Ok ?q |- _ => destruct q as [e' m'] end; cbn [fst snd] in *;
      eapply t_plain; eauto; rewrite Eg; auto.
Qed.

Definition roomyb (T : tstate) : bool := match p_tdag (t_proc T) with Live r => len (r_tab r) <=? 2147483584 | _ => true end.
Lemma roomyb_ok T : roomyb T = true -> roomy T.
Proof. unfold roomyb, roomy, room. intros H r E. rewrite E in H. apply N.leb_le in H. lia. Qed.

(** Both executions side by side, with the conditions of [behaved]. *)
Definition in_spaceb (v : event) : bool :=
  match v with
  | ERead _ buff _ ret => buff + Z.to_N ret <=? two64
  | EWrite _ buff _ ret => buff + Z.to_N ret <=? two64
  | EFread _ buff size _ ret | EFwrite _ buff size _ ret => buff + size * ret <=? two64
  | EFgets _ str _ n _ => str + n <=? two64
  | EMmap n _ _ (Some a) => a + pages n <=? two64
  | EMunmap a n => a + pages n <=? two64
  | EArgv _ args => forallb (fun an => fst an + snd an <=? two64) args
  | _ => true
  end.
Lemma in_spaceb_ok v : in_spaceb v = true -> in_space v.
Proof.
  destruct v; cbn [in_spaceb in_space]; intros H; auto; try (now apply N.leb_le).
  - destruct addr; [now apply N.leb_le|exact I].
  - apply Forall_forall. intros x Hx. rewrite forallb_forall in H. now apply N.leb_le, H.
Qed.

Fixpoint exec_both (lossy argv : bool) (P : prog) (S : sstate) (T : tstate) (as_ : list answer) : Res (sstate * tstate) :=
  match as_ with
  | [] => Ok (S, T)
  | a :: rest =>
      if match next_event S a with Some (s, v) => event_okb s v && in_spaceb v | None => true end then
        do S' <- sstep lossy argv P S a;
        do T' <- exec_step (instrument P) T a;
        if within_limitsb (s_ast S') && roomyb T' then exec_both lossy argv P S' T' rest else Exit
      else Exit
  end.

Lemma within_limitsb_ok s : within_limitsb s = true -> within_limits s.
Proof.
  unfold within_limitsb. intros H. ands. repeat match goal with H : N.leb _ _ = true |- _ => apply N.leb_le in H end. now repeat split.
Qed.
Lemma exec_both_ok lossy argv P T0 as_ : forall done S T S' T', trun (instrument P) T0 done T -> exec_both lossy argv P S T as_ = Ok (S', T') ->
  trun (instrument P) T0 (done ++ as_) T' /\ srun lossy argv P S as_ = Ok S' /\ behaved lossy argv P S as_.
Proof.
  induction as_ as [|a as_ IH]; intros done S T S' T' R E; cbn [exec_both] in E.
  - injection E as <- <-. rewrite app_nil_r. repeat split; assumption.
  - destruct (match next_event S a with Some (s, v) => event_okb s v && in_spaceb v | None => true end) eqn:K; [|discriminate].
    destruct (sstep lossy argv P S a) as [S1| | |] eqn:Es; try discriminate. cbn [bind] in E.
    destruct (exec_step (instrument P) T a) as [T1| | |] eqn:Et; try discriminate. cbn [bind] in E.
    destruct (within_limitsb (s_ast S1) && roomyb T1) eqn:L; [|discriminate]. apply andb_true_iff in L as [L1 L2].
    assert (R1 : trun (instrument P) T0 (done ++ [a]) T1).
    { apply tr_snoc with T; [exact R|now apply exec_step_ok|now apply roomyb_ok]. }
    destruct (IH _ _ _ _ _ R1 E) as (H1 & H2 & H3). rewrite <- app_assoc in H1. split; [exact H1|]. cbn [srun behaved]. rewrite Es. cbn [bind]. split; [exact H2|].
    split.
    + intros s v Q. rewrite Q in K. apply andb_true_iff in K as [K1 K2]. split; [now apply event_okb_ok|now apply in_spaceb_ok].
    + intros S2 Q. assert (S2 = S1) as -> by congruence. split; [now apply within_limitsb_ok|exact H3].
Qed.

Definition exec_start (TP : tprog) (main : N) (vals : list N) (m : mem) (p : proc) : Res tstate :=
  match get TP main with
  | Some f => do fr <- tenter main f vals None; do p1 <- run_code 0 (t_regs fr) p (tf_entry f); Ok (mkT [fr] m p1)
  | None => UB
  end.
Definition exec_prog (base : N) (e : env) (lossy : bool) (P : prog) (main : N) (vals : list N) (m : mem) (as_ : list answer) : Res (sstate * tstate) :=
  do p <- cb_start proc_start e base 1 2 0 None None None;
  do S0 <- sstart P main vals m (fold_left (estep (argv_on e)) (stream_events e 1 2 0 None None None) a_init);
  do T0 <- exec_start (instrument P) main vals m p;
  if roomyb T0 then exec_both lossy (argv_on e) P S0 T0 as_ else Exit.

Lemma exec_prog_ok base e lossy P main vals m as_ (check : sstate -> tstate -> bool) :
  match exec_prog base e lossy P main vals m as_ with Ok (s, t) => check s t | _ => false end = true ->
  exists p s0 T0 S0 T S, boots base e p s0 /\ tstart (instrument P) main vals m p T0 /\ trun (instrument P) T0 as_ T /\
    sstart P main vals m s0 = Ok S0 /\ behaved lossy (argv_on e) P S0 as_ /\ srun lossy (argv_on e) P S0 as_ = Ok S /\ check S T = true.
Proof.
  intros H. destruct (exec_prog base e lossy P main vals m as_) as [[Sf T]| | |] eqn:E; try discriminate. unfold exec_prog in E.
  destruct (cb_start proc_start e base 1 2 0 None None None) as [p| | |] eqn:E0; try discriminate. cbn [bind] in E.
  set (s0 := fold_left (estep (argv_on e)) (stream_events e 1 2 0 None None None) a_init) in *.
  destruct (sstart P main vals m s0) as [S0| | |] eqn:E1; try discriminate. cbn [bind] in E.
  destruct (exec_start (instrument P) main vals m p) as [T0| | |] eqn:E2; try discriminate. cbn [bind] in E.
  destruct (roomyb T0) eqn:Rm; [|discriminate].
  destruct (exec_both_ok lossy (argv_on e) P T0 as_ [] S0 T0 Sf T (tr_nil _ _ (roomyb_ok _ Rm)) E) as (R1 & R2 & R3).
  exists p, s0, T0, S0, T, Sf. split; [|split; [|split; [exact R1|split; [exact E1|split; [exact R3|split; [exact R2|exact H]]]]]].
  - apply boots_start; [exact E0|lia|]. intros n [Q|[Q|Q]]; discriminate.
  - unfold exec_start in E2. destruct (get (instrument P) main) as [f|] eqn:G; [|discriminate].
    destruct (tenter main f vals None) as [fr| | |] eqn:Ef; try discriminate. cbn [bind] in E2.
    destruct (run_code 0 (t_regs fr) p (tf_entry f)) as [p1| | |] eqn:Ep; try discriminate. cbn [bind] in E2. injection E2 as <-.
    now apply t_start with f.
Qed.
