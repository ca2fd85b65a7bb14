(** Executions of instrumented programs against executions of the programs. *)
From Coq Require Import NArith ZArith List Bool Lia.
From Verif Require Import M_Base M_Memory M_Sources M_Labels M_Bitmap M_OutputFile M_CfLog M_Dfsan M_Api M_Runtime M_Llvm M_DfsanPass M_DfsanRun
  S_Labels S_Provenance S_OutputFile S_Dfsan S_Api S_History S_Runtime S_DataFlow
  P_Base P_Api P_ApiRun P_Runtime P_Argv P_ProcRun P_DfsanCode P_DfsanFlow.
Import ListNotations.
Open Scope N_scope.

(** ** Arguments *)
Lemma arg_stores_flow d e args : forall off t, let t' := pcode d e t (arg_stores off args) in
  framed (fun a => exists i, off <= i /\ a = ARG i) t t' /\
  forall k o, get args k = Some o -> off + 4 * k + 4 <= 800 -> a_mem t' (ARG (off + 4 * k)) = pdep d t (sh o).
Proof.
  induction args as [|a args IH]; intros off t; cbv zeta.
  - split; [apply framed_refl|]. intros k o G. unfold get in G. destruct (N.to_nat k); discriminate.
  - cbn [arg_stores]. unfold ARG_TLS, SHADOW_BYTES. destruct (N.ltb_spec 800 (off + 4)) as [L|L].
    { split; [apply framed_refl|]. intros k o _ B. lia. }
    cbn [pcode fold_left psx]. change (fold_left (psx d e) ?c ?s) with (pcode d e s c).
    set (t1 := p_set t (ARG off) (pdep d t (sh a))). destruct (IH (off + 4) t1) as [F1 A1].
    split.
    + apply framed_trans with t1.
      * eapply framed_impl; [|apply framed_set]. intros x <-. exists off. split; [lia|reflexivity].
      * eapply framed_impl; [|exact F1]. intros x (i & Li & ->). exists i. split; [lia|reflexivity].
    + intros k o G B. destruct (N.eq_dec k 0) as [->|Nk].
      * rewrite get_cons_0 in G. injection G as ->. rewrite N.mul_0_r, N.add_0_r. rewrite (framed_mem _ _ _ _ F1).
        -- unfold t1. now rewrite set_mem, N.eqb_refl.
        -- intros (i & Li & E). apply cell_inj in E as [_ E]. lia.
      * rewrite get_cons_S in G by lia. replace (off + 4 * k) with (off + 4 + 4 * (k - 1)) by lia. rewrite (A1 (k - 1) o G) by lia.
        unfold t1. destruct o as [c|r]; cbn [sh pdep]; [reflexivity|]. rewrite set_mem.
        destruct (N.eqb_spec (REG d r) (ARG off)) as [E|_]; [now apply REG_ARG in E|reflexivity].
Qed.

Lemma agree_ext d e e' deps deps' t : (forall x, e x = e' x) -> (forall x, deps x = deps' x) -> agree d e deps t -> agree d e' deps' t.
Proof. intros H1 H2 A x v E. rewrite <- H2. apply (A x v). now rewrite H1. Qed.

Lemma agree_set d e deps t dst y bs bs' : agree d e deps t -> same bs bs' ->
  agree d (put e dst y) (put deps dst bs) (p_set t (REG d dst) bs').
Proof.
  intros Ag Sm x v. unfold put. rewrite set_mem. destruct (N.eqb_spec x dst) as [->|Nx].
  - intros _. rewrite N.eqb_refl. exact Sm.
  - intros Ex. destruct (N.eqb_spec (REG d x) (REG d dst)) as [E|_]; [now apply REG_inj in E|]. exact (Ag x v Ex).
Qed.

Lemma arg_loads_flow d e native params : forall off t e0 deps vals ds,
  length vals = length params -> length ds = length params -> agree d e0 deps t ->
  (forall k b, get ds k = Some b -> same b (if native || (800 <? off + 4 * k + 4) then [] else a_mem t (ARG (off + 4 * k)))) ->
  let t' := pcode d e t (arg_loads native off params) in
  agree d (assign e0 (combine params (map Some vals))) (assign deps (combine params ds)) t' /\ framed (fun a => exists x, a = REG d x) t t'.
Proof.
  induction params as [|x params IH]; intros off t e0 deps vals ds Lv Ld Ag H; cbv zeta.
  - split; [exact Ag|apply framed_refl].
  - destruct vals as [|v vals]; [discriminate|]. destruct ds as [|b ds]; [discriminate|]. cbn [length] in Lv, Ld.
    cbn [arg_loads map combine]. unfold assign, ARG_TLS, SHADOW_BYTES. cbn [fold_left fst snd pcode].
    change (fold_left (psx d e) ?c ?s) with (pcode d e s c).
    assert (H0 := H 0 b eq_refl). rewrite N.mul_0_r, N.add_0_r in H0.
    set (bs' := if native || (800 <? off + 4) then [] else a_mem t (ARG off)) in *.
    set (t1 := p_set t (REG d x) bs').
    replace (psx d e t (if native || (800 <? off + 4) then TSet x SZero else TArgLoad x off)) with t1
      by (unfold t1, bs'; destruct (native || (800 <? off + 4)); reflexivity).
    destruct (IH (off + 4) t1 (put e0 x (Some v)) (put deps x b) vals ds) as [A1 F1]; [lia|lia| | |].
    + now apply agree_set.
    + intros k b' G. specialize (H (k + 1) b'). rewrite get_cons_S in H by lia. replace (k + 1 - 1) with k in H by lia. specialize (H G).
      replace (off + 4 * (k + 1)) with (off + 4 + 4 * k) in H by lia. unfold t1.
      destruct (native || (800 <? off + 4 + 4 * k + 4)); [exact H|]. rewrite set_mem.
      destruct (N.eqb_spec (ARG (off + 4 + 4 * k)) (REG d x)) as [E|_]; [symmetry in E; now apply REG_ARG in E|exact H].
    + split; [exact A1|]. apply framed_trans with t1; [|exact F1]. eapply framed_impl; [|apply framed_set]. intros a <-. now exists x.
Qed.

Lemma arg_deps_get_aux ds : forall a k b, get (map (fun p => if fst p <? 200 then snd p else @nil byte_id) (combine (nseq a (length ds)) ds)) k = Some b ->
  exists x, get ds k = Some x /\ b = if a + k <? 200 then x else [].
Proof.
  induction ds as [|x ds IH]; intros a k b G; [unfold get in G; destruct (N.to_nat k); discriminate|].
  cbn [length nseq combine map fst snd] in G. destruct (N.eq_dec k 0) as [->|Nk].
  - rewrite get_cons_0 in G. injection G as <-. exists x. rewrite N.add_0_r. auto.
  - rewrite get_cons_S in G by lia. apply IH in G as (y & G & ->). exists y. rewrite get_cons_S by lia. split; [exact G|]. now replace (a + 1 + (k - 1)) with (a + k) by lia.
Qed.
Lemma arg_deps_get ds k b : get (arg_deps true ds) k = Some b -> exists x, get ds k = Some x /\ b = if k <? 200 then x else [].
Proof. intros G. now apply arg_deps_get_aux in G. Qed.
Lemma arg_deps_length ds : length (arg_deps true ds) = length ds.
Proof. unfold arg_deps. rewrite map_length, combine_length, nseq_length. lia. Qed.

Lemma values_length e os : forall vs, values e os = Ok vs -> length vs = length os.
Proof.
  induction os as [|o os IH]; intros vs E; cbn [values] in E; [injection E as <-; reflexivity|].
  destruct (value e o) as [v| | |]; try discriminate. cbn [bind] in E. destruct (values e os) as [ws| | |]; try discriminate. cbn [bind] in E.
  injection E as <-. cbn [length]. now rewrite (IH ws eq_refl).
Qed.

(** ** Phis *)
Lemma tincoming_spec from ps : forall inc, tincoming from (map visit_phi ps) = Ok inc ->
  exists l, incoming from ps = Ok l /\ fst inc = l /\ snd inc = map (fun p => (fst p, sh (snd p))) l.
Proof.
  induction ps as [|p ps IH]; intros inc E; cbn [map tincoming] in E.
  - injection E as <-. exists []. auto.
  - cbn [visit_phi tp_in tp_dst] in E.
    assert (Lk : lookup (map (fun q : N * operand => (fst q, (snd q, sh (snd q)))) (ph_in p)) from = option_map (fun o => (o, sh o)) (lookup (ph_in p) from)).
    { clear. induction (ph_in p) as [|[b o] l IH]; [reflexivity|]. cbn [map lookup fst snd]. destruct (b =? from); [reflexivity|exact IH]. }
    rewrite Lk in E. cbn [incoming]. destruct (lookup (ph_in p) from) as [o|]; [|discriminate]. cbn [option_map] in E.
    destruct (tincoming from (map visit_phi ps)) as [q| | |]; try discriminate. cbn [bind] in E. injection E as <-.
    destruct (IH q eq_refl) as (l & -> & E1 & E2). cbn [bind]. exists ((ph_dst p, o) :: l). cbn [fst snd map]. rewrite E1, E2. auto.
Qed.

Lemma phi1_flow d l : forall k t, let t' := fold_left (fun s kv => p_set s (SCRATCH (fst kv)) (pdep d s (snd kv))) (combine (nseq k (length l)) l) t in
  framed (fun a => exists i, k <= i /\ a = SCRATCH i) t t' /\ forall j v, get l j = Some v -> a_mem t' (SCRATCH (k + j)) = pdep d t v.
Proof.
  induction l as [|v l IH]; intros k t; cbv zeta.
  - split; [apply framed_refl|]. intros j v G. unfold get in G. destruct (N.to_nat j); discriminate.
  - cbn [length nseq combine fold_left fst snd]. set (t1 := p_set t (SCRATCH k) (pdep d t v)). destruct (IH (k + 1) t1) as [F1 A1]. split.
    + apply framed_trans with t1.
      * eapply framed_impl; [|apply framed_set]. intros x <-. exists k. split; [lia|reflexivity].
      * eapply framed_impl; [|exact F1]. intros x (i & Li & ->). exists i. split; [lia|reflexivity].
    + intros j w G. destruct (N.eq_dec j 0) as [->|Nj].
      * rewrite get_cons_0 in G. injection G as ->. rewrite N.add_0_r. rewrite (framed_mem _ _ _ _ F1).
        -- unfold t1. now rewrite set_mem, N.eqb_refl.
        -- intros (i & Li & E). apply cell_inj in E as [_ E]. lia.
      * rewrite get_cons_S in G by lia. replace (k + j) with (k + 1 + (j - 1)) by lia. rewrite (A1 (j - 1) w G).
        unfold t1. destruct w as [|r|]; cbn [pdep]; [reflexivity| |]; rewrite set_mem.
        -- destruct (N.eqb_spec (REG d r) (SCRATCH k)) as [E|_]; [now apply REG_SCRATCH in E|reflexivity].
        -- destruct (N.eqb_spec TMP (SCRATCH k)) as [E|_]; [now apply cell_inj in E|reflexivity].
Qed.

Lemma phi2_list d t t1 (l : list (N * sval)) : forall k, (forall j q, get l j = Some q -> a_mem t1 (SCRATCH (k + j)) = pdep d t (snd q)) ->
  map (fun p => (fst p, a_mem t1 (snd p))) (combine (map (fun x => REG d (fst x)) l) (map SCRATCH (nseq k (length l)))) =
  map (fun q => (REG d (fst q), pdep d t (snd q))) l.
Proof.
  induction l as [|q l IH]; intros k H; [reflexivity|]. cbn [length nseq map combine fst snd]. f_equal.
  - f_equal. assert (H0 := H 0 q eq_refl). now rewrite N.add_0_r in H0.
  - apply IH. intros j q' G. replace (k + 1 + j) with (k + (j + 1)) by lia. apply H. rewrite get_cons_S by lia. now replace (j + 1 - 1) with j by lia.
Qed.

Lemma assign_regs d (l : list (N * operand)) (vals : operand -> Res N) (dd bb : operand -> list byte_id) : forall e deps m vs,
  pairs (fun o => do v <- vals o; Ok (Some v)) l = Ok vs ->
  (forall o v, vals o = Ok v -> same (dd o) (bb o)) ->
  (forall x v, e x = Some v -> same (deps x) (m (REG d x))) ->
  forall x v, assign e vs x = Some v ->
    same (assign deps (map (fun p => (fst p, dd (snd p))) l) x) (assign m (map (fun p => (REG d (fst p), bb (snd p))) l) (REG d x)).
Proof.
  induction l as [|[y o] l IH]; intros e deps m vs E Hd Ag x v; cbn [pairs] in E.
  - injection E as <-. apply Ag.
  - destruct (vals o) as [w| | |] eqn:Ew; cbn [bind] in E; try discriminate.
    destruct (pairs (fun o => do v <- vals o; Ok (Some v)) l) as [vs'| | |] eqn:Ep; cbn [bind] in E; try discriminate.
    injection E as <-. unfold assign. cbn [map fold_left fst snd]. apply (IH (put e y (Some w)) _ _ vs' eq_refl Hd).
    intros z u. unfold put. destruct (N.eqb_spec z y) as [->|Nz].
    + intros _. rewrite N.eqb_refl. exact (Hd o w Ew).
    + intros Ez. destruct (N.eqb_spec (REG d z) (REG d y)) as [Q|_]; [now apply REG_inj in Q|]. exact (Ag z u Ez).
Qed.

Lemma phis_flow d e deps t l vs : agree d e deps t -> pairs (fun o => do v <- value e o; Ok (Some v)) l = Ok vs ->
  let t' := p_phis d t (map (fun p => (fst p, sh (snd p))) l) in
  agree d (assign e vs) (assign deps (map (fun p => (fst p, dep deps (snd p))) l)) t' /\
  framed (fun a => (exists i, a = SCRATCH i) \/ exists x, a = REG d x) t t'.
Proof.
  intros Ag E. cbv zeta. unfold p_phis. cbv zeta. set (q := map (fun p : N * operand => (fst p, sh (snd p))) l).
  destruct (phi1_flow d (map snd q) 0 t) as [F1 A1]. rewrite (map_length snd q) in F1, A1.
  set (t1 := fold_left (fun s kv => p_set s (SCRATCH (fst kv)) (pdep d s (snd kv))) (combine (nseq 0 (length q)) (map snd q)) t) in *.
  set (ps := combine (map (fun x => REG d (fst x)) q) (map SCRATCH (nseq 0 (length q)))).
  assert (Le : length (map (fun x => REG d (fst x)) q) = length (map SCRATCH (nseq 0 (length q)))) by (rewrite !map_length, nseq_length; reflexivity).
  assert (P1 : map fst ps = map (fun x => REG d (fst x)) q).
  { unfold ps. clear - Le. revert Le. generalize (map SCRATCH (nseq 0 (length q))). induction (map (fun x => REG d (fst x)) q) as [|x r IH]; intros [|y u] Le; try discriminate; [reflexivity|].
    cbn [combine map fst]. f_equal. apply IH. cbn [length] in Le. lia. }
  assert (P2 : forall x, In x (map snd ps) -> exists i, x = SCRATCH i).
  { intros x I. apply in_map_iff in I as ([a b] & <- & I). apply in_combine_r in I. apply in_map_iff in I as (i & <- & _). now exists i. }
  assert (Dj : forall x, In x (map fst ps) -> ~ In x (map snd ps)).
  { intros x I J. rewrite P1 in I. apply in_map_iff in I as (y & <- & _). apply P2 in J as (i & J). now apply REG_SCRATCH in J. }
  destruct (p_copies_mem ps t1 Dj) as [A2 F2]. split.
  - intros x v Ex. rewrite A2. unfold ps. rewrite (phi2_list d t t1 q 0).
    + unfold q. rewrite map_map. cbn [fst snd].
      apply (assign_regs d l (value e) (dep deps) (fun o => pdep d t (sh o)) e deps (a_mem t1) vs E) with v; [|clear x v Ex|exact Ex].
      * intros o v' Ev. exact (agree_op d e deps t o v' Ag Ev).
      * intros x v Ex. rewrite (framed_mem _ _ _ _ F1); [exact (Ag x v Ex)|]. intros (i & _ & Q). now apply REG_SCRATCH in Q.
    + intros j p G. rewrite (A1 j (snd p)); [reflexivity|]. rewrite get_map, G. reflexivity.
  - apply framed_trans with t1.
    + eapply framed_impl; [|exact F1]. intros a (i & _ & ->). left. now exists i.
    + eapply framed_impl; [|exact F2]. intros a I. cbv beta in I. rewrite P1 in I. apply in_map_iff in I as (y & <- & _). right. now exists (fst y).
Qed.

Lemma pairs_deps (f : operand -> list byte_id) l : pairs (fun o => Ok (f o)) l = Ok (map (fun p => (fst p, f (snd p))) l).
Proof. induction l as [|[x o] l IH]; [reflexivity|]. cbn [pairs bind map fst snd]. now rewrite IH. Qed.

(** ** Code is well formed *)
Lemma arg_stores_sized args : forall off, Forall sized (arg_stores off args).
Proof.
  induction args as [|a args IH]; intros off; cbn [arg_stores]; [constructor|]. destruct (_ <? _); constructor; [exact I|apply IH].
Qed.
Lemma arg_loads_sized n params : forall off, Forall sized (arg_loads n off params).
Proof.
  induction params as [|x params IH]; intros off; cbn [arg_loads]; constructor; [|apply IH]. destruct (_ || _); exact I.
Qed.
Lemma combine_sized avoid a b c v : combine_shadows avoid a b = (c, v) -> Forall sized c.
Proof.
  unfold combine_shadows. destruct (sval_eqb a SZero); [intros E; injection E as <- _; constructor|].
  destruct (sval_eqb b SZero); [intros E; injection E as <- _; constructor|]. destruct (sval_eqb a b); intros E; injection E as <- _; repeat constructor.
Qed.
Lemma combine_rest_sized avoid ops : forall acc c v, combine_rest avoid acc ops = (c, v) -> Forall sized c.
Proof.
  induction ops as [|o ops IH]; intros acc c v E; cbn [combine_rest] in E; [injection E as <- _; constructor|].
  destruct (combine_shadows avoid acc (sh o)) as [c1 v1] eqn:E1. destruct (combine_rest avoid v1 ops) as [c2 v2] eqn:E2. injection E as <- _.
  apply Forall_app. split; [exact (combine_sized _ _ _ _ _ E1)|exact (IH _ _ _ E2)].
Qed.
Lemma visit_sized avoid i : Forall sized (g_pre (visit avoid i)).
Proof.
  destruct i; cbn [visit g_pre]; try solve [repeat constructor].
  - destruct (combine_ops avoid ops) as [c v] eqn:E. cbn [g_pre]. apply Forall_app. split; [|repeat constructor].
    destruct ops as [|o ops]; cbn [combine_ops] in E; [injection E as <- _; constructor|exact (combine_rest_sized _ _ _ _ _ E)].
  - unfold load_code. destruct (N.eqb_spec size 0) as [->|Nz]; [repeat constructor|]. destruct const.
    + destruct (combine_shadows avoid SZero (sh ptr)) as [c v] eqn:E. cbn [app]. apply Forall_app. split; [exact (combine_sized _ _ _ _ _ E)|repeat constructor].
    + destruct (combine_shadows avoid STmp (sh ptr)) as [c v] eqn:E. constructor; [cbn [sized]; lia|]. apply Forall_app. split; [exact (combine_sized _ _ _ _ _ E)|repeat constructor].
  - unfold store_code. destruct (size =? 0); repeat constructor.
  - unfold rmw_code. destruct (size =? 0); repeat constructor.
  - unfold select_code. destruct (sval_eqb (sh a) (sh b)).
    + destruct (combine_shadows avoid (sh c) (sh a)) as [c2 v] eqn:E. apply Forall_app. split; [constructor|]. apply Forall_app. split; [exact (combine_sized _ _ _ _ _ E)|repeat constructor].
    + destruct (combine_shadows avoid (sh c) STmp) as [c2 v] eqn:E. apply Forall_app. split; [repeat constructor|]. apply Forall_app. split; [exact (combine_sized _ _ _ _ _ E)|repeat constructor].
  - destruct dst; repeat constructor.
  - apply arg_stores_sized.
  - destruct (label_op k args); repeat constructor.
Qed.

(** ** Custom functions *)
(** What the label stored for the result denotes. *)
Definition ret_dep (v : event) (t1 t2 : ast) : list byte_id :=
  match v with
  | EGetc _ _ _ _ => a_mem t2 VALUE
  | EFgets _ _ _ _ _ | ECfTainted _ _ => a_mem t1 VALUE
  | _ => []
  end.

Lemma label_bytes_out n : forall sh a l x, x < a \/ a + N.of_nat n <= x -> label_bytes sh a l n x = sh x.
Proof.
  induction n as [|n IH]; intros sh a l x L; cbn [label_bytes]; [reflexivity|]. rewrite IH by lia.
  destruct (N.eqb_spec x a); [lia|reflexivity].
Qed.
Lemma source_mem_out r fd addr off n x r' a : rt_source_mem r fd addr off n = Ok (x, r') -> a < addr \/ addr + n <= a ->
  r_shadow r' a = r_shadow r a.
Proof.
  unfold rt_source_mem. intros E L. destruct (mapping_idx (r_mem r) (r_src r) fd) as [[i|]| | |]; try discriminate; cbn [bind] in E.
  2: { injection E as _ <-. reflexivity. }
  destruct (read_offset r i off n) as [[o r1]| | |] eqn:Er; try discriminate. cbn [bind fst snd] in E.
  destruct (create_source_taint r1 i addr n o) as [[[f la] r2]| | |] eqn:Ec; try discriminate. cbn [bind] in E. injection E as _ <-.
  assert (S1 : r_shadow r1 = r_shadow r).
  { unfold read_offset in Er. destruct off; [injection Er as _ <-; reflexivity|]. destruct (stream_increase (r_rd r) i n) as [q| | |]; try discriminate.
    cbn [bind] in Er. injection Er as _ <-. reflexivity. }
  unfold create_source_taint in Ec. destruct (new_source_labels r1 i o n) as [[[f1 la1] r3]| | |] eqn:En; try discriminate. cbn [bind] in Ec.
  injection Ec as _ _ <-. cbn [set_shadow r_shadow]. rewrite label_bytes_out by lia. rewrite <- S1.
  unfold new_source_labels in En. destruct (create_source_labels (r_tab r1) i o n) as [[[f2 la2] t]| | |]; try discriminate. cbn [bind] in En.
  destruct (bm_set_range _ _ _ _) as [b| | |]; try discriminate. cbn [bind] in En. injection En as _ _ <-. reflexivity.
Qed.
Lemma c_string_unique app a n k : c_string app a n -> c_string app a k -> n = k.
Proof.
  intros [N1 N2] [K1 K2]. destruct (N.lt_trichotomy n k) as [Q|[Q|Q]]; [|exact Q|]; exfalso; [exact (K2 n Q N1)|exact (N2 k Q K1)].
Qed.

Lemma alive_alike base fl argv p s s2 : alive base fl argv p s -> alike s2 s -> alive base fl argv p s2.
Proof.
  intros (F & Ar & r & s' & Lv & h & R & Al & En & L) E. repeat (split; [assumption|]). exists r, s'. split; [exact Lv|]. exists h.
  split; [exact R|]. split; [exact (alike_trans _ _ _ E Al)|]. split; [exact En|]. now apply alike_limits_l with s.
Qed.
Lemma set_back_alike s dst : alike (p_set s dst (a_mem s dst)) s.
Proof.
  constructor; auto using same_refl; [|apply Forall2_self; auto using same_refl]. intros a. rewrite set_mem.
  destruct (N.eqb_spec a dst) as [->|]; apply same_refl.
Qed.

Lemma live_set p r r' : p_tdag p = Live r -> set_rt (set_rt p r) r' = set_rt p r'.
Proof. reflexivity. Qed.

Lemma wrapped_alive base fl argv p1 vals t1 r1 v x l p2 r2 : mapped base shipped ->
  alive base fl argv p1 t1 -> p_tdag p1 = Live r1 -> wrapped p1 vals (r_shadow r1 VALUE) v x l p2 ->
  S_Runtime.event_ok t1 v -> in_space v -> within_limits (estep argv t1 v) -> p_tdag p2 = Live r2 -> room r2 0 ->
  alive base (fl ++ flow_of t1 v) argv (set_rt p2 (rt_set_label r2 VALUE l)) (p_set (estep argv t1 v) VALUE (ret_dep v t1 (estep argv t1 v))).
Proof.
  intros M A Lv W K Sp L Lv2 Rm.
  assert (Lm : limits p2 (estep argv t1 v)). { split; [exact L|]. intros r E. assert (r = r2) as -> by congruence. exact Rm. }
  assert (St : pstep p1 v p2 -> alive base (fl ++ flow_of t1 v) argv p2 (estep argv t1 v)).
  { intros P. apply alive_sim. apply step_sim with p1; auto. now apply alive_sim. }
  assert (Zero : pstep p1 v p2 -> l = 0 -> alive base (fl ++ flow_of t1 v) argv (set_rt p2 (rt_set_label r2 VALUE l)) (p_set (estep argv t1 v) VALUE [])).
  { intros P ->. destruct (St P) as (F & Ar & r & s' & Lr & U). assert (r = r2) as -> by congruence.
    destruct (up_set base _ M r2 _ s' VALUE 0 [] U (den_zero base _ M _ _ _ U)) as (s2 & U2 & _). split; [exact F|]. split; [exact Ar|]. exists (rt_set_label r2 VALUE 0), s2. auto. }
  assert (Keep : pstep p1 v p2 -> l = r_shadow r1 VALUE -> r_shadow r2 VALUE = r_shadow r1 VALUE -> spares v VALUE ->
     alive base (fl ++ flow_of t1 v) argv (set_rt p2 (rt_set_label r2 VALUE l)) (p_set (estep argv t1 v) VALUE (a_mem t1 VALUE))).
  { intros P -> Es Spv. destruct (St P) as (F & Ar & r & s' & Lr & U). assert (r = r2) as -> by congruence.
    rewrite <- Es, <- (step_spares argv v t1 VALUE (N.le_refl _) Sp Spv).
    destruct (up_set base _ M r2 _ s' VALUE _ _ U (den_shadow base _ M _ _ _ VALUE U)) as (s2 & U2 & _). split; [exact F|]. split; [exact Ar|].
    exists (rt_set_label r2 VALUE (r_shadow r2 VALUE)), s2. auto. }
  destruct W; cbn [ret_dep].
  - apply Zero; [econstructor; eassumption|]. unfold w_open in H. destruct (if (0 <=? fd)%Z then _ else _) as [q| | |]; try discriminate. cbn [bind] in H. congruence.
  - apply Zero; [econstructor; eassumption|]. unfold w_close in H. destruct (if (ret =? 0)%Z then _ else _) as [q| | |]; try discriminate. cbn [bind] in H. congruence.
  - apply Zero; [econstructor; eassumption|]. unfold w_read in H. destruct (from_off_t pos) as [q| | |]; try discriminate. cbn [bind] in H.
    destruct (taint_source_buffer _ _ _ _ _) as [q'| | |]; try discriminate. cbn [bind] in H. congruence.
  - apply Zero; [econstructor; eassumption|]. unfold w_fread in H. destruct (from_off_t pos) as [q| | |]; try discriminate. cbn [bind] in H.
    destruct (from_returned_size_count size ret) as [q1| | |]; try discriminate. cbn [bind] in H.
    destruct (taint_source_buffer _ _ _ _ _) as [q'| | |]; try discriminate. cbn [bind] in H. congruence.
  - (* fgets *)
    assert (P : pstep p1 (EFgets fd str app n pos) p') by (econstructor; eassumption).
    unfold w_fgets in H. destruct (from_off_t pos) as [o| | |]; try discriminate. cbn [bind from_returned_string] in H.
    destruct (c_strlen fuel app str) as [k| | |] eqn:Ek; try discriminate. cbn [bind taint_source_buffer] in H.
    unfold get_tdag in H. rewrite Lv in H. cbn [bind] in H. destruct (rt_source_mem r1 fd str o k) as [[y r3]| | |] eqn:Es; try discriminate. cbn [bind snd] in H.
    assert (l = r_shadow r1 VALUE /\ p' = set_rt p1 r3) as [El ->] by (split; congruence).
    assert (r2 = r3) as -> by (unfold set_rt in Lv2; cbn [p_tdag] in Lv2; congruence).
    apply Keep; [exact P|exact El| |exact I].
    destruct K as (_ & _ & Cs). apply c_strlen_ok in Ek as [Ek _]. assert (n = k) as -> by (apply (c_string_unique app str); assumption).
    cbn [in_space] in Sp. apply (source_mem_out r1 fd str o k y r3); [exact Es|]. unfold VALUE. lia.
  - (* null *) unfold w_fgets in H. destruct (from_off_t pos) as [o| | |] eqn:Eo; try discriminate. cbn [bind from_returned_string taint_source_buffer] in H.
    assert (l = 0 /\ p' = p1) as [-> ->] by (split; congruence). apply Zero; [|reflexivity].
    apply ps_read with 0%Z 0. unfold w_read. rewrite Eo. reflexivity.
  - (* getc *) assert (Al := St). clear St.
    assert (P : pstep p1 (EGetc fd pos c VALUE) (set_rt p' (rt_set_label r2 VALUE l))) by (econstructor; eassumption).
    apply alive_alike with (estep argv t1 (EGetc fd pos c VALUE)); [|apply set_back_alike].
    apply alive_sim. apply step_sim with p1; auto; [now apply alive_sim|]. split; [exact L|]. intros r E. unfold set_rt in E. cbn [p_tdag] in E.
    assert (r = rt_set_label r2 VALUE l) as -> by congruence. exact Rm.
  - apply Zero; [econstructor; eassumption|]. unfold w_mmap in H. destruct (from_off_t pos) as [o| | |]; try discriminate. cbn [bind] in H.
    destruct (match addr with Some _ => _ | None => _ end) as [q| | |]; try discriminate. cbn [bind] in H. congruence.
  - apply Zero; [econstructor; eassumption|]. unfold w_munmap in H. congruence.
  - apply Zero; [econstructor; eassumption|reflexivity].
  - apply Zero; [econstructor; eassumption|reflexivity].
  - apply Zero; [econstructor; eassumption|]. unfold w_write in H0. destruct (from_off_t pos) as [q| | |]; try discriminate. cbn [bind] in H0.
    destruct (impl_taint_sink _ _ _ _ _ _) as [q'| | |]; try discriminate. cbn [bind] in H0. congruence.
  - apply Zero; [econstructor; eassumption|]. unfold w_fwrite in H0. destruct (from_off_t pos) as [q| | |]; try discriminate. cbn [bind] in H0.
    destruct (from_returned_size_count size ret) as [q1| | |]; try discriminate. cbn [bind] in H0.
    destruct (impl_taint_sink _ _ _ _ _ _) as [q'| | |]; try discriminate. cbn [bind] in H0. congruence.
  - apply Zero; [econstructor; eassumption|]. unfold w_putc in H0. destruct (from_off_t pos) as [q| | |]; try discriminate. cbn [bind] in H0.
    destruct (if (ret =? ch)%Z then _ else _) as [q'| | |]; try discriminate. cbn [bind] in H0. congruence.
  - apply Zero; [econstructor; eassumption|reflexivity].
  - apply Zero; [econstructor; eassumption|reflexivity].
  - apply Zero; [econstructor; eassumption|reflexivity].
  - apply Zero; [econstructor; eassumption|reflexivity].
  - (* decision *) assert (P : pstep p1 (ECfTainted f VALUE) p') by (econstructor; eassumption).
    unfold cb_tainted_cf in H. destruct A as (F & _). rewrite F in H. cbn [negb] in H.
    destruct (N.ltb_spec 0 (r_shadow r1 VALUE)) as [Q|Q].
    + unfold get_tdag in H. rewrite Lv in H. cbn [bind] in H. destruct (rt_cf r1 (CfTainted (r_shadow r1 VALUE) f)) as [r3| | |] eqn:Ec; try discriminate. cbn [bind] in H.
      assert (l = r_shadow r1 VALUE /\ p' = set_rt p1 r3) as [El ->] by (split; congruence).
      assert (r2 = r3) as -> by (unfold set_rt in Lv2; cbn [p_tdag] in Lv2; congruence).
      apply Keep; [exact P|exact El| |exact I]. unfold rt_cf in Ec. destruct (cf_log _ _ _) as [q| | |]; try discriminate. cbn [bind] in Ec. injection Ec as <-. reflexivity.
    + cbn [bind] in H. assert (l = r_shadow r1 VALUE /\ p' = p1) as [El ->] by (split; congruence).
      assert (r2 = r1) as -> by congruence. apply Keep; auto.
Qed.

(** ** Related states *)
Definition avoids (f : func) : bool := 1000 <? len (fn_blocks f).
Definition matches (P : prog) (fr : frame) (tf : tframe) : Prop :=
  t_fn tf = f_fn fr /\ t_blk tf = f_blk fr /\ t_regs tf = f_regs fr /\ t_dst tf = f_dst fr /\ t_term tf = f_term fr /\
  exists f, get P (f_fn fr) = Some f /\ t_rest tf = map (visit (avoids f)) (f_rest fr) /\ t_pre tf = visit_term (fn_native f) (f_term fr).

(** What the function above expects of the one that called it. *)
Definition called (P : prog) (fr : frame) (tfs : list tframe) : Prop :=
  match tfs with
  | [] => True
  | tc :: _ => t_after tc = match f_dst fr with Some x => [TRetLoad x] | None => [] end /\
      exists f, get P (f_fn fr) = Some f /\ fn_native f = false
  end.
Inductive stacked (P : prog) (t : ast) : list frame -> list tframe -> Prop :=
| st_nil : stacked P t [] []
| st_cons fr tf fs tfs : matches P fr tf -> agree (len tfs) (f_regs fr) (f_deps fr) t -> called P fr tfs -> stacked P t fs tfs ->
    stacked P t (fr :: fs) (tf :: tfs).

Lemma stacked_ext P t t' fs tfs : stacked P t fs tfs -> (forall d x, d < len tfs -> a_mem t' (REG d x) = a_mem t (REG d x)) -> stacked P t' fs tfs.
Proof.
  induction 1 as [|fr tf fs tfs Ma Ag Ca St IH]; intros H; constructor; auto.
  - intros x v E. rewrite H by (rewrite len_cons; lia). exact (Ag x v E).
  - apply IH. intros d x L. apply H. rewrite len_cons. lia.
Qed.
Lemma stacked_framed P t t' fs tfs (A : N -> Prop) : stacked P t fs tfs -> framed A t t' -> (forall d x, d < len tfs -> ~ A (REG d x)) -> stacked P t' fs tfs.
Proof. intros St F H. apply stacked_ext with t; [exact St|]. intros d x L. exact (framed_mem _ _ _ _ F (H d x L)). Qed.

Definition rel (base : N) (argv : bool) (P : prog) (S : sstate) (T : tstate) : Prop :=
  exists t, alive base (s_log S) argv (t_proc T) t /\ near low (s_ast S) t /\ t_mem T = s_mem S /\ stacked P t (s_frames S) (t_frames T).

Definition flow_like (x y : flow) : Prop :=
  match x, y with
  | FEnter a, FEnter b => a = b
  | FLeave a, FLeave b => a = b
  | FTainted a bs, FTainted b bs' => a = b /\ same bs bs'
  | _, _ => False
  end.
Lemma flow_near s t v : (forall a, reads v a -> same (a_mem s a) (a_mem t a)) -> Forall2 flow_like (flow_of s v) (flow_of t v).
Proof.
  intros H. destruct v; cbn [flow_of]; try (repeat constructor; fail).
  assert (S := H a eq_refl). destruct (a_mem s a) as [|x l], (a_mem t a) as [|y l'].
  - constructor.
  - exfalso. destruct (proj2 (S y)). now left.
  - exfalso. destruct (proj1 (S x)). now left.
  - constructor; [|constructor]. split; [reflexivity|exact S].
Qed.
Lemma alive_flow base fl fl' argv p s : Forall2 flow_like fl fl' -> alive base fl' argv p s -> alive base fl argv p s.
Proof.
  intros Q (F & Ar & r & s' & Lv & h & R & Al & En & L). repeat (split; [assumption|]). exists r, s'. split; [exact Lv|]. exists h.
  split; [exact R|]. split; [exact Al|]. split; [|exact L]. clear - Q En. revert Q. generalize (a_log s') En. clear En. intros es En Q. revert fl Q.
  induction En as [|x e fl' es Hx En IH]; intros fl Q; inversion Q as [|y ? fl0 ? Hy Q']; subst; constructor; auto.
  destruct y, x, e; cbn [flow_like entry_for] in *; try contradiction; try congruence.
  destruct Hy as [-> Sm], Hx as (-> & K & Sm'). split; [reflexivity|]. split; [exact K|]. exact (same_trans _ _ _ Sm Sm').
Qed.
Lemma flow_like_refl fl : Forall2 flow_like fl fl.
Proof. apply Forall2_self. intros []; cbn [flow_like]; auto using same_refl. Qed.

Lemma len_ge0 {A} (x : A) l : len (x :: l) = len l + 1.
Proof. rewrite len_cons. lia. Qed.

Lemma get_instrument P c f : get (instrument P) c = Some f -> exists g, get P c = Some g /\ f = visit_func g.
Proof.
  unfold instrument. rewrite get_map. destruct (get P c) as [g|]; [|discriminate]. intros E. exists g. split; [reflexivity|]. cbn [option_map] in E. congruence.
Qed.
Lemma enter_spec P c g vals dst new ds : get P c = Some g -> tenter c (visit_func g) vals dst = Ok new ->
  exists fr, enter c g vals ds dst = Ok fr /\ matches P fr new /\ f_fn fr = c /\ f_dst fr = dst /\
    length vals = length (fn_params g) /\
    f_regs fr = assign no_regs (combine (fn_params g) (map Some vals)) /\ f_deps fr = assign no_deps (combine (fn_params g) ds).
Proof.
  unfold tenter, enter, visit_func. cbn [tf_blocks tf_params]. intros G E. destruct (fn_blocks g) as [|b bs] eqn:Eb; [discriminate|]. cbn [map] in E.
  destruct (N.eqb_spec (len vals) (len (fn_params g))) as [Q|]; [|discriminate]. injection E as <-. eexists. split; [reflexivity|].
  cbn [f_fn f_dst f_regs f_deps]. split.
  - unfold matches. cbn [t_fn t_blk t_regs t_dst t_term t_rest t_pre visit_block tb_body tb_pre tb_term f_fn f_blk f_regs f_dst f_term f_rest].
    repeat (split; [reflexivity|]). exists g. split; [exact G|]. unfold avoids. rewrite Eb. split; reflexivity.
  - repeat (split; [reflexivity|]). split; [|split; reflexivity]. unfold len in Q. lia.
Qed.

Lemma entered d e native params t vals ds : length vals = length params -> length ds = length params ->
  (forall k b, get ds k = Some b -> same b (if native || (800 <? 4 * k + 4) then [] else a_mem t (ARG (4 * k)))) ->
  let t' := pcode d e t (arg_loads native 0 params) in
  agree d (assign no_regs (combine params (map Some vals))) (assign no_deps (combine params ds)) t' /\ framed (fun a => exists x, a = REG d x) t t'.
Proof.
  intros Lv Ld H. apply arg_loads_flow; auto. intros x v E. discriminate.
Qed.

Lemma result_room d x e p p' r2 l : run_code d e p (match x with Some y => [TResult y] | None => [] end) = Ok p' -> p_tdag p = Live (rt_set_label r2 VALUE l) ->
  (forall r, p_tdag p' = Live r -> room r 0) -> room r2 0.
Proof.
  intros E Lv H. destruct x; cbn [run_code] in E.
  - unfold get_tdag in E. rewrite Lv in E. cbn [bind sx] in E. injection E as <-. exact (H _ eq_refl).
  - injection E as <-. exact (H _ Lv).
Qed.

(** ** One step *)
Lemma lib_reads k vals m a v s t args e d deps : lib_event k vals m a = Ok v -> in_space v -> near low s t ->
  values e args = Ok vals -> agree d e deps t ->
  let s1 := p_set s VALUE (match passed k args with Some o => dep deps o | None => [] end) in
  let t1 := pcode d e t (match label_op k args with Some o => [TPass (sh o)] | None => [] end) in
  (forall x, reads v x -> same (a_mem s1 x) (a_mem t1 x)) /\ near low s1 t1 /\ framed (eq VALUE) t t1 /\
  (forall o, passed k args = Some o -> same (dep deps o) (a_mem t1 VALUE)).
Proof.
  intros E Sp Nr Ev Ag s1 t1.
  assert (F : framed (eq VALUE) t t1).
  { unfold t1. destruct (label_op k args); cbn [pcode fold_left psx]; [apply framed_set|apply framed_refl]. }
  assert (N1 : near low s1 t1).
  { apply near_update with t; [exact Nr|eapply framed_impl; [|exact F]; auto|]. intros x Lx.
    rewrite (framed_mem _ _ _ _ F) by (unfold VALUE; lia). unfold VALUE. destruct (N.eqb_spec x two64); [lia|]. now apply (nr_mem _ _ _ Nr). }
  assert (V : forall o, passed k args = Some o -> same (dep deps o) (a_mem t1 VALUE)).
  { intros o Q. unfold t1. assert (label_op k args = Some o) as -> by (destruct k; exact Q). cbn [pcode fold_left psx]. rewrite set_mem, N.eqb_refl.
    assert (exists x, value e o = Ok x) as (x & Ex).
    { destruct args as [|o' args]; [destruct k; discriminate|]. assert (o' = o) as -> by (destruct k; cbn [passed hd_error] in Q; congruence).
      cbn [values] in Ev. destruct (value e o) as [x| | |]; try discriminate. now exists x. }
    exact (agree_op d e deps t o x Ag Ex). }
  split; [|split; [exact N1|split; [exact F|exact V]]].
  intros x Rd. assert (Low : x < two64 -> same (a_mem s1 x) (a_mem t1 x)) by (intros Lx; now apply (nr_mem _ _ _ N1)).
  assert (Val : (exists o, passed k args = Some o) -> same (a_mem s1 VALUE) (a_mem t1 VALUE)).
  { intros (o & Q). unfold s1. rewrite set_mem, N.eqb_refl, Q. now apply V. }
  assert (Hd : 0 < len vals -> exists o, hd_error args = Some o).
  { intros L. apply values_length in Ev. destruct args as [|o args]; [|now exists o]. unfold len in L. rewrite Ev in L. cbn in L. lia. }
  unfold lib_event in E. destruct (N.ltb_spec (len vals) (arity k)) as [|Ar]; [discriminate|].
  destruct k; cbn [arity] in Ar; repeat match type of E with context [if ?c then _ else _] => destruct c end; try discriminate;
    assert (Ve := E); injection Ve as <-; cbn [reads in_space] in *; try contradiction.
  all: try (subst x; apply Val, Hd; lia).
  all: apply Low; lia.
Qed.

Lemma near_weak (D : N -> Prop) s t x : near D s t -> near (eq x) (p_set s x []) (p_set t x []).
Proof.
  intros Nr. apply near_impl with (D := fun a => a = x); [auto|]. assert (Nf : near (fun _ => False) s t) by (apply near_impl with (D := D); [tauto|exact Nr]).
  destruct Nf. constructor; auto. intros a ->. rewrite !set_mem, N.eqb_refl. apply same_refl.
Qed.

Lemma lib_result k vals m a v args s1 t1 argv ds : lib_event k vals m a = Ok v -> near low s1 t1 ->
  (forall o, passed k args = Some o -> same ds (a_mem t1 VALUE)) -> 0 < len args \/ arity k = 0 ->
  same (lib_deps k a ds (estep argv s1 v)) (ret_dep v t1 (estep argv t1 v)).
Proof.
  intros E Nr V Ar. assert (Hd : arity k <> 0 -> exists o, hd_error args = Some o).
  { intros Q. destruct args as [|o args]; [|now exists o]. unfold len in Ar. cbn in Ar. lia. }
  unfold lib_event in E. destruct (len vals <? arity k); [discriminate|].
  destruct k; cbn [arity passed lib_deps] in *; repeat match type of E with context [if ?c then _ else _] => destruct c eqn:? end; try discriminate;
    assert (Ve := E); injection Ve as <-; cbn [ret_dep]; try apply same_refl.
  all: try (destruct (Hd ltac:(lia)) as (o & Q); exact (V o Q)).
  cbn [estep]. destruct (an_ret a =? -1)%Z.
  - rewrite !set_mem, N.eqb_refl. apply same_refl.
  - apply (nr_mem (eq VALUE)); [|reflexivity]. apply near_read. now apply near_weak with low.
Qed.

Lemma local_below d d' x : d' < d -> ~ local d (REG d' x).
Proof.
  intros L [Q|[Q|[(i & Q)|(y & Q)]]].
  - assert (H := REG_high d' x). lia.
  - now apply REG_TMP in Q.
  - now apply REG_SCRATCH in Q.
  - apply REG_inj in Q. lia.
Qed.

Lemma code_alive2 base fl argv d e p p' s c : mapped base shipped -> alive base fl argv p s -> run_code d e p c = Ok p' ->
  Forall sized c -> alive base fl argv p' (pcode d e s c).
Proof. intros M A E F. exact (code_alive base fl M argv d e c p p' s A F E). Qed.

Section Step.
Variables (base : N) (argv : bool) (P : prog).
Hypothesis M : mapped base shipped.

Lemma step_flow S T a T' : rel base argv P S T -> tstep (instrument P) T a T' ->
  (forall s v, next_event S a = Some (s, v) -> S_Runtime.event_ok s v /\ in_space v) ->
  (forall S', sstep true argv P S a = Ok S' -> within_limits (s_ast S')) -> roomy T' ->
  exists S', sstep true argv P S a = Ok S' /\ rel base argv P S' T'.
Proof.
  intros (t & A & Nr & Em & St) H Be Wl Rm. destruct S as [fs m0 s log]. cbn [s_frames s_mem s_ast s_log] in *.
  destruct H as [fr below m p a g rest p1 e' m' p2 E1 Pl E2 E3 E4
    |fr below m p a g rest dst k args vals v p1 r1 x l p2 r2 e' p3 E1 E2 E3 E4 E5 E6 W Xv E7 E8 E9
    |fr below m p a g rest dst callee args c vals f new p1 p2 E1 E2 E3 E4 E5 E6 E7 E8 E9
    |fr caller below m p a v p1 x e' p2 E1 E2 E3 E4 E5 E6
    |fr m p a v p1 x E1 E2 E3 E4
    |fr below m p a b f blk inc vs p1 p2 E1 E2 E3 E4 E5 E6 E7 E8]; cbn [t_frames t_mem t_proc] in *; subst m0;
    inversion St as [|fr0 tf fs0 tfs Ma Ag Ca St0]; subst;
    destruct Ma as (M1 & M2 & M3 & M4 & M5 & fn & M6 & M7 & M8); unfold sstep in Wl |- *; cbn [s_frames s_mem s_ast s_log next_event] in *.
  - (* plain *)
    rewrite M7 in E1. destruct (f_rest fr0) as [|i is] eqn:Ei; [discriminate|]. cbn [map] in E1. assert (g = visit (avoids fn) i) as -> by congruence.
    assert (Er : rest = map (visit (avoids fn)) is) by congruence.
    assert (Gi : g_ins (visit (avoids fn) i) = i) by (destruct i; cbn [visit]; try reflexivity; destruct (combine_ops _ _); reflexivity).
    assert (Gp : plain i = true -> g_post (visit (avoids fn) i) = []) by (destruct i; cbn [visit plain]; try reflexivity; try discriminate; destruct (combine_ops _ _); reflexivity).
    rewrite Gi in Pl, E3. rewrite (Gp Pl) in E4. cbn [run_code] in E4. injection E4 as <-. rewrite M3 in E2, E3.
    destruct (plain_flow (avoids fn) (len below) i (f_regs fr0) m a e' m' (f_deps fr0) s t Pl E3 Nr Ag) as (deps' & s' & F1 & N1 & A1 & Fr).
    assert (A2 := code_alive base log M argv (len below) (f_regs fr0) _ p p1 t A (visit_sized _ i) E2).
    set (t' := pcode (len below) (f_regs fr0) t (g_pre (visit (avoids fn) i))) in *.
    assert (Q : sstep true argv P (mkS (fr0 :: fs0) m s log) a =
      Ok (mkS (mkFrame (f_fn fr0) (f_blk fr0) is (f_term fr0) e' deps' (f_dst fr0) :: fs0) m' s' log)).
    { unfold sstep. cbn [s_frames s_mem s_ast s_log]. rewrite Ei. destruct i; try discriminate; rewrite E3; cbn [bind fst snd]; rewrite F1; reflexivity. }
    unfold sstep in Q. cbn [s_frames s_mem s_ast s_log] in Q. rewrite Ei in Q. eexists. split; [exact Q|]. exists t'. cbn [s_frames s_mem s_ast s_log t_proc t_mem t_frames].
    split; [exact A2|]. split; [exact N1|]. split; [reflexivity|]. constructor.
    + unfold matches, goto. cbn. repeat (split; [assumption || reflexivity|]). exists fn. split; [exact M6|]. split; [exact Er|exact M8].
    + exact A1.
    + exact Ca.
    + apply stacked_framed with t (local (len below)); [exact St0|exact Fr|]. intros d x L. now apply local_below.
  - (* custom function *)
    rewrite M7 in E1. destruct (f_rest fr0) as [|i is] eqn:Ei; [discriminate|]. cbn [map] in E1. assert (g = visit (avoids fn) i) as -> by congruence.
    assert (Er : rest = map (visit (avoids fn)) is) by congruence.
    assert (i = ILib dst k args) as -> by (destruct i; cbn [visit g_ins] in E2; try discriminate; try exact E2; destruct (combine_ops _ _); discriminate).
    clear E1 E2. cbn [visit g_pre g_post] in E3, E9. rewrite M3 in E3, E4, E8. rewrite E4 in Be, Wl |- *. cbn [bind] in Wl |- *. rewrite E5 in Be, Wl |- *. cbn [bind] in Wl |- *.
    destruct (Be _ _ eq_refl) as [K Sp]. clear Be.
    assert (A1 := code_alive2 base log argv _ _ _ _ _ _ M A E3). specialize (A1 ltac:(destruct (label_op k args); repeat constructor)).
    destruct (lib_reads k vals m a v s t args (f_regs fr0) (len below) (f_deps fr0) E5 Sp Nr E4 Ag) as (Rd & N1 & F1 & V).
    set (ds := match passed k args with Some o => dep (f_deps fr0) o | None => [] end) in *.
    set (s1 := p_set s VALUE ds) in *. set (t1 := pcode (len below) (f_regs fr0) t _) in *.
    assert (N2 := near_step low argv v s1 t1 N1 Rd).
    set (s2 := estep argv s1 v) in *. set (t2 := estep argv t1 v) in *.
    assert (Sg : exists fr', set_result (mkFrame (f_fn fr0) (f_blk fr0) is (f_term fr0) (f_regs fr0) (f_deps fr0) (f_dst fr0))
                  (Some (lib_value k vals a)) (lib_deps k a ds s2) dst = Ok fr' /\
               fr' = mkFrame (f_fn fr0) (f_blk fr0) is (f_term fr0) e' (match dst with Some y => put (f_deps fr0) y (lib_deps k a ds s2) | None => f_deps fr0 end) (f_dst fr0)).
    { destruct dst as [y|]; cbn [put_result] in E8; injection E8 as <-; eexists; split; reflexivity. }
    destruct Sg as (fr' & Sg & Efr). rewrite Sg in Wl |- *. cbn [bind] in Wl |- *. eexists. split; [reflexivity|].
    specialize (Wl _ eq_refl). cbn [s_ast] in Wl.
    assert (Rm2 : room r2 0) by (exact (result_room _ _ _ _ _ r2 l E9 eq_refl Rm)).
    assert (A2 := wrapped_alive base log argv p1 vals t1 r1 v x l p2 r2 M A1 E6 W (near_event _ _ _ N1 K) Sp (near_limits _ _ N2 Wl) E7 Rm2).
    set (t3 := p_set t2 VALUE (ret_dep v t1 t2)) in *. fold t2 in A2. fold t3 in A2.
    assert (A3 := alive_flow base (log ++ flow_of s1 v) _ argv _ _ (Forall2_app (flow_like_refl log) (flow_near s1 t1 v Rd)) A2).
    assert (A4 := code_alive2 base _ argv _ _ _ _ _ _ M A3 E9). specialize (A4 ltac:(destruct dst; repeat constructor)).
    set (t4 := pcode (len below) e' t3 _) in *.
    assert (Ret : same (lib_deps k a ds s2) (ret_dep v t1 t2)).
    { apply (lib_result k vals m a v args s1 t1 argv ds E5 N1).
      - intros o Q. unfold ds. rewrite Q. exact (V o Q).
      - apply values_length in E4. unfold lib_event in E5. destruct (N.ltb_spec (len vals) (arity k)) as [|Ar]; [discriminate|].
        unfold len in Ar |- *. rewrite E4 in Ar. destruct (arity k); [now right|left; lia]. }
    assert (Sp4 : forall d y, a_mem t3 (REG d y) = a_mem t (REG d y)).
    { intros d y. unfold t3. rewrite set_mem. destruct (N.eqb_spec (REG d y) VALUE) as [Q|_]; [now apply REG_VALUE in Q|].
      unfold t2. rewrite (step_spares argv v t1).
      - apply (framed_mem _ _ _ _ F1). intros Q. symmetry in Q. now apply REG_VALUE in Q.
      - assert (Q := REG_high d y). lia.
      - exact Sp.
      - unfold lib_event in E5. destruct (len vals <? arity k); [discriminate|].
        destruct k; repeat match type of E5 with context [if ?c then _ else _] => destruct c end; try discriminate;
          assert (Ve := E5); injection Ve as <-; cbn [spares]; auto using REG_VALUE. }
    assert (F4 : framed (fun z => z = VALUE \/ exists y, z = REG (len below) y) t2 t4).
    { apply framed_trans with t3.
      - eapply framed_impl; [|apply framed_set]. intros z <-. now left.
      - unfold t4. destruct dst as [y|]; cbn [pcode fold_left psx]; [|apply framed_refl]. eapply framed_impl; [|apply framed_set]. intros z <-. right. now exists y. }
    exists t4. cbn [s_frames s_mem s_ast s_log t_proc t_mem t_frames].
    split; [exact A4|]. split; [|split; [reflexivity|]].
    + apply near_framed with t2; [exact N2|]. eapply framed_impl; [|exact F4]. intros z [->|(y & ->)]; [unfold VALUE; lia|]. assert (Q := REG_high (len below) y). lia.
    + subst fr'. constructor.
      * unfold matches, goto. cbn. repeat (split; [assumption || reflexivity|]). exists fn. split; [exact M6|]. split; [exact Er|exact M8].
      * cbn [f_regs f_deps]. assert (A0 : agree (len below) (f_regs fr0) (f_deps fr0) t3) by (intros y w Q; rewrite Sp4; exact (Ag y w Q)).
        unfold t4. destruct dst as [y|]; cbn [put_result] in E8; injection E8 as <-; cbn [pcode fold_left psx]; [|exact A0].
        apply agree_set; [exact A0|]. unfold t3. rewrite set_mem, N.eqb_refl. exact Ret.
      * exact Ca.
      * apply stacked_ext with t; [exact St0|]. intros d y L. rewrite <- (Sp4 d y). unfold t4.
        destruct dst as [z|]; cbn [pcode fold_left psx]; [|reflexivity]. rewrite set_mem. destruct (N.eqb_spec (REG d y) (REG (len below) z)) as [Q|_]; [apply REG_inj in Q; lia|reflexivity].
  - (* call *)
    rewrite M7 in E1. destruct (f_rest fr0) as [|i is] eqn:Ei; [discriminate|]. cbn [map] in E1. assert (g = visit (avoids fn) i) as -> by congruence.
    assert (Er : rest = map (visit (avoids fn)) is) by congruence.
    assert (i = ICall dst callee args) as -> by (destruct i; cbn [visit g_ins] in E2; try discriminate; try exact E2; destruct (combine_ops _ _); discriminate).
    clear E1 E2. cbn [visit g_pre g_post] in E3. rewrite M3 in E3, E4, E5. rewrite E4. cbn [bind]. rewrite E5. cbn [bind].
    apply get_instrument in E6 as (h & E6 & ->). rewrite E6. cbn [visit_func tf_native] in E7. rewrite E7.
    destruct (enter_spec P c h vals dst new (arg_deps true (map (dep (f_deps fr0)) args)) E6 E8) as (fr' & En & Ma & Efn & Edst & Lv & Rg & Dp).
    rewrite En. cbn [bind]. eexists. split; [reflexivity|].
    assert (A1 := code_alive base log M argv (len below) (f_regs fr0) _ p p1 t A (arg_stores_sized args 0) E3).
    destruct (arg_stores_flow (len below) (f_regs fr0) args 0 t) as [F1 G1]. set (t1 := pcode (len below) (f_regs fr0) t (arg_stores 0 args)) in *.
    cbn [visit_func tf_entry] in E9. rewrite E7 in E9.
    assert (A2 := code_alive base log M argv (len below + 1) (t_regs new) _ p1 p2 t1 A1 (arg_loads_sized _ _ _) E9).
    destruct (entered (len below + 1) (t_regs new) false (fn_params h) t1 vals (arg_deps true (map (dep (f_deps fr0)) args))) as [A3 F3].
    { exact Lv. }
    { rewrite arg_deps_length, map_length, <- Lv. symmetry. now apply values_length in E5. }
    { intros k b G. apply arg_deps_get in G as (ds & G & ->). rewrite get_map in G. destruct (get args k) as [o|] eqn:Go; [|discriminate]. cbn [option_map] in G. injection G as <-.
      cbn [orb]. destruct (N.ltb_spec k 200) as [Lk|Lk], (N.ltb_spec 800 (4 * k + 4)) as [L8|L8]; try lia; [|apply same_refl].
      specialize (G1 k o Go). rewrite !N.add_0_l in G1. rewrite G1 by lia.
      assert (exists w, value (f_regs fr0) o = Ok w) as (w & Ew).
      { clear - E5 Go. revert k vals E5 Go. induction args as [|o' args IH]; intros k vals E5 Go; [rewrite get_nil in Go; discriminate|].
        cbn [values] in E5. destruct (value (f_regs fr0) o') as [w| | |] eqn:Ew; try discriminate. cbn [bind] in E5.
        destruct (values (f_regs fr0) args) as [ws| | |]; try discriminate. destruct (N.eq_dec k 0) as [->|Nk].
        - rewrite get_cons_0 in Go. injection Go as <-. now exists w.
        - rewrite get_cons_S in Go by lia. exact (IH (k - 1) ws eq_refl Go). }
      exact (agree_op _ _ _ _ _ _ Ag Ew). }
    set (t2 := pcode (len below + 1) (t_regs new) t1 (arg_loads false 0 (fn_params h))) in *.
    assert (F : framed (fun z => (exists j, z = ARG j) \/ exists y, z = REG (len below + 1) y) t t2).
    { apply framed_trans with t1.
      - eapply framed_impl; [|exact F1]. intros z (j & _ & ->). left. now exists j.
      - eapply framed_impl; [|exact F3]. intros z Q. now right. }
    exists t2. cbn [s_frames s_mem s_ast s_log t_proc t_mem t_frames].
    split; [exact A2|]. split; [|split; [reflexivity|]].
    + apply near_framed with t; [exact Nr|]. eapply framed_impl; [|exact F]. intros z [(j & ->)|(y & ->)].
      * assert (Q := cell_above 0 j). unfold ARG. lia.
      * assert (Q := REG_high (len below + 1) y). lia.
    + assert (Bl : forall d y, d < len below + 1 -> ~ ((exists j, REG d y = ARG j) \/ exists z, REG d y = REG (len below + 1) z)).
      { intros d y L [(j & Q)|(z & Q)]; [now apply REG_ARG in Q|apply REG_inj in Q; lia]. }
      constructor; [exact Ma| | |].
      * rewrite len_ge0. rewrite Rg, Dp. exact A3.
      * cbn [called goto t_after]. rewrite Edst, Efn. split; [reflexivity|]. exists h. auto.
      * constructor.
        -- unfold matches, goto. cbn. repeat (split; [assumption || reflexivity|]). exists fn. split; [exact M6|]. split; [exact Er|exact M8].
        -- cbn [f_regs f_deps]. intros y w Q. rewrite (framed_mem _ _ _ _ F); [exact (Ag y w Q)|]. apply Bl. lia.
        -- exact Ca.
        -- apply stacked_framed with t (fun z => (exists j, z = ARG j) \/ exists y, z = REG (len below + 1) y); [exact St0|exact F|].
           intros d y L. apply Bl. lia.
  - (* return *)
    rewrite M7 in E1. destruct (f_rest fr0) as [|i is] eqn:Ei; [|discriminate]. rewrite M5 in E2. rewrite E2 in M8, Wl |- *.
    inversion St0 as [|cr tc fs1 tfs1 Mc Agc Cac St1]; subst. destruct Mc as (C1 & C2 & C3 & C4 & C5 & cn & C6 & C7 & C8).
    destruct Ca as (Af & gn & G1 & G2). assert (gn = fn) as -> by congruence. rewrite G2 in M8. cbn [visit_term] in M8.
    rewrite M3 in E3, E4. rewrite M4 in E5. rewrite C3 in E5. rewrite E4. cbn [bind].
    set (bs := match v with Some o => dep (f_deps fr0) o | None => [] end).
    assert (Sg : exists cr', set_result cr x bs (f_dst fr0) = Ok cr' /\
       cr' = mkFrame (f_fn cr) (f_blk cr) (f_rest cr) (f_term cr) e' (match f_dst fr0 with Some y => put (f_deps cr) y bs | None => f_deps cr end) (f_dst cr)).
    { unfold set_result, put_result in *. destruct (f_dst fr0) as [y|]; [destruct x as [x|]; [|discriminate]|]; injection E5 as <-; eexists; split; try reflexivity. now destruct cr. }
    destruct Sg as (cr' & Sg & Ecr). rewrite Sg. cbn [bind]. eexists. split; [reflexivity|].
    assert (A1 := code_alive2 base log argv _ _ _ _ _ _ M A E3). specialize (A1 ltac:(rewrite M8; destruct v; repeat constructor)).
    assert (A2 := code_alive2 base log argv _ _ _ _ _ _ M A1 E6). specialize (A2 ltac:(rewrite Af; destruct (f_dst fr0); repeat constructor)).
    rewrite M8 in A2. rewrite Af in A2.
    set (t1 := pcode (len (caller :: below)) (f_regs fr0) t _) in A2. set (t2 := pcode (len below) e' t1 _) in A2.
    assert (F1 : framed (eq RET) t t1) by (unfold t1; destruct v; cbn [pcode fold_left psx]; [apply framed_set|apply framed_refl]).
    assert (F2 : framed (fun z => z = RET \/ exists y, z = REG (len below) y) t t2).
    { apply framed_trans with t1; [eapply framed_impl; [|exact F1]; auto|]. unfold t2. destruct (f_dst fr0) as [y|]; cbn [pcode fold_left psx]; [|apply framed_refl].
      eapply framed_impl; [|apply framed_set]. intros z <-. right. now exists y. }
    exists t2. cbn [s_frames s_mem s_ast s_log t_proc t_mem t_frames].
    split; [exact A2|]. split; [|split; [reflexivity|]].
    + apply near_framed with t; [exact Nr|]. eapply framed_impl; [|exact F2]. intros z [->|(y & ->)].
      * assert (Q := cell_above 1 0). unfold RET. lia.
      * assert (Q := REG_high (len below) y). lia.
    + subst cr'. constructor.
      * unfold matches, goto. cbn. repeat (split; [assumption || reflexivity|]). exists cn. split; [exact C6|]. split; [exact C7|exact C8].
      * cbn [f_regs f_deps].
        assert (A0 : agree (len below) (f_regs cr) (f_deps cr) t1).
        { intros y w Q. rewrite (framed_mem _ _ _ _ F1); [exact (Agc y w Q)|]. intros Z. symmetry in Z. now apply REG_RET in Z. }
        unfold t2, put_result in *. destruct (f_dst fr0) as [y|]; [|injection E5 as <-; exact A0]. destruct x as [x|]; [|discriminate]. injection E5 as <-.
        cbn [pcode fold_left psx]. apply agree_set; [exact A0|]. unfold t1, bs. destruct v as [o|]; [|discriminate]. cbn [pcode fold_left psx].
        rewrite set_mem, N.eqb_refl. destruct (value (f_regs fr0) o) as [w| | |] eqn:Ew; try discriminate. exact (agree_op _ _ _ _ _ _ Ag Ew).
      * exact Cac.
      * apply stacked_framed with t (fun z => z = RET \/ exists y, z = REG (len below) y); [exact St1|exact F2|].
        intros d y L [Q|(z & Q)]; [now apply REG_RET in Q|apply REG_inj in Q; lia].
  - (* the end of main *)
    rewrite M7 in E1. destruct (f_rest fr0) as [|i is] eqn:Ei; [|discriminate]. rewrite M5 in E2. rewrite E2 in M8 |- *. rewrite M3 in E3, E4.
    inversion St0; subst fs0.
    assert (Q : exists w, match v with Some o => value (f_regs fr0) o | None => Ok 0 end = Ok w).
    { destruct v as [o|]; [|now exists 0]. destruct (value (f_regs fr0) o) as [w| | |]; try discriminate. now exists w. }
    destruct Q as (w & ->). cbn [bind]. eexists. split; [reflexivity|].
    assert (A1 := code_alive2 base log argv _ _ _ _ _ _ M A E4). specialize (A1 ltac:(rewrite M8; destruct v; cbn [visit_term]; [destruct (fn_native fn)|]; repeat constructor)).
    rewrite M8 in A1. eexists. cbn [s_frames s_mem s_ast s_log t_proc t_mem t_frames]. split; [exact A1|]. split; [|split; [reflexivity|constructor]].
    apply near_framed with t; [exact Nr|]. destruct v as [o|]; cbn [visit_term]; [destruct (fn_native fn)|]; cbn [pcode fold_left psx]; try apply framed_refl.
    eapply framed_impl; [|apply framed_set]. intros z <-. assert (Q := cell_above 1 0). unfold RET. lia.
  - (* jump *)
    rewrite M7 in E1. destruct (f_rest fr0) as [|i is] eqn:Ei; [|discriminate]. rewrite M5, M3 in E2. rewrite M3 in E3, E7. rewrite M1 in E4. rewrite M2 in E6.
    assert (Nt : visit_term (fn_native fn) (f_term fr0) = []) by (destruct (f_term fr0); [reflexivity..|discriminate]).
    rewrite M8, Nt in E3. cbn [run_code] in E3. injection E3 as <-.
    apply get_instrument in E4 as (h & E4 & ->). assert (h = fn) as -> by congruence. cbn [visit_func tf_blocks] in E5. rewrite get_map in E5.
    destruct (get (fn_blocks fn) b) as [blk0|] eqn:Eb; [|discriminate]. cbn [option_map] in E5. injection E5 as <-. cbn [visit_block tb_phis] in E6.
    destruct (tincoming_spec _ _ _ E6) as (il & I1 & I2 & I3). rewrite I2 in E7. rewrite I3 in E8.
    assert (Q : sstep true argv P (mkS (fr0 :: fs0) m s log) a =
      Ok (mkS (mkFrame (f_fn fr0) b (b_body blk0) (b_term blk0) (assign (f_regs fr0) vs) (assign (f_deps fr0) (map (fun p => (fst p, dep (f_deps fr0) (snd p))) il)) (f_dst fr0) :: fs0) m s log)).
    { unfold sstep. cbn [s_frames s_mem s_ast s_log]. rewrite Ei. destruct (f_term fr0); [..|discriminate]; rewrite E2; cbn [bind]; rewrite E4, Eb, I1; cbn [bind];
        rewrite E7; cbn [bind]; rewrite pairs_deps; reflexivity. }
    unfold sstep in Q. cbn [s_frames s_mem s_ast s_log] in Q. rewrite Ei in Q. eexists. split; [exact Q|].
    destruct (phis_flow (len below) (f_regs fr0) (f_deps fr0) t il vs Ag E7) as [A1 F1].
    assert (A2 := phi_alive base log M argv (len below) _ _ _ t A E8).
    set (t1 := p_phis (len below) t _) in *. exists t1. cbn [s_frames s_mem s_ast s_log t_proc t_mem t_frames].
    split; [exact A2|]. split; [|split; [reflexivity|]].
    + apply near_framed with t; [exact Nr|]. eapply framed_impl; [|exact F1]. intros z [(j & ->)|(y & ->)].
      * assert (Z := cell_above 2 j). unfold SCRATCH. lia.
      * assert (Z := REG_high (len below) y). lia.
    + constructor.
      * unfold matches. cbn. repeat (split; [assumption || reflexivity|]). split; [now rewrite M3|]. repeat (split; [assumption || reflexivity|]). exists fn. split; [exact M6|]. split; reflexivity.
      * exact A1.
      * exact Ca.
      * apply stacked_framed with t (fun z => (exists j, z = SCRATCH j) \/ exists y, z = REG (len below) y); [exact St0|exact F1|].
        intros d y L [(j & Z)|(z & Z)]; [now apply REG_SCRATCH in Z|apply REG_inj in Z; lia].
Qed.
End Step.

(** ** Executions *)
Lemma start_flow base e P main vals m p s0 T0 : mapped base shipped -> boots base e p s0 -> tstart (instrument P) main vals m p T0 ->
  exists S0, sstart P main vals m s0 = Ok S0 /\ rel base (argv_on e) P S0 T0.
Proof.
  intros M B [f fr p1 G E R]. apply get_instrument in G as (g & G & ->).
  destruct (enter_spec P main g vals None fr (map (fun _ => @nil byte_id) vals) G E) as (fr' & En & Ma & Efn & Edst & Lv & Rg & Dp).
  unfold sstart. rewrite G, En. cbn [bind]. eexists. split; [reflexivity|].
  assert (Cl : forall a, a_mem s0 a = []).
  { clear - B. destruct B as [fo fe fi so se si p0 E F Sz]. unfold stream_events. rewrite !fold_left_app.
    assert (K : forall b path fd size s, (forall a, a_mem s a = []) -> forall a, a_mem (fold_left (estep (argv_on e)) (if switched_on b then [EOpen path fd size] else []) s) a = []).
    { intros b path fd size s H a. destruct (switched_on b); cbn [fold_left estep]; [|apply H]. destruct (0 <=? fd)%Z; apply H. }
    repeat (apply K; try intros ?). reflexivity. }
  assert (A : alive base [] (argv_on e) p s0). { apply alive_sim. destruct B as [fo fe fi so se si p0 Eb F Sz]. now apply start_sim. }
  cbn [visit_func tf_entry] in R.
  assert (A1 := code_alive2 base [] (argv_on e) _ _ _ _ _ _ M A R (arg_loads_sized _ _ _)).
  destruct (entered 0 (t_regs fr) (fn_native g) (fn_params g) s0 vals (map (fun _ => @nil byte_id) vals)) as [A2 F2].
  { exact Lv. }
  { now rewrite map_length. }
  { intros k b Gb. rewrite get_map in Gb. destruct (get vals k); [|discriminate]. cbn [option_map] in Gb. injection Gb as <-. rewrite Cl. destruct (_ || _); apply same_refl. }
  eexists. cbn [s_frames s_mem s_ast s_log t_proc t_mem t_frames]. split; [exact A1|]. split; [|split; [reflexivity|]].
  - apply near_framed with s0; [constructor; auto using same_refl; apply Forall2_self; auto using same_refl|].
    eapply framed_impl; [|exact F2]. intros a (x & ->). assert (Q := REG_high 0 x). lia.
  - constructor; [exact Ma| |exact I|constructor]. rewrite Rg, Dp. exact A2.
Qed.

Lemma srun_app lossy argv P as_ : forall S bs, srun lossy argv P S (as_ ++ bs) = do S' <- srun lossy argv P S as_; srun lossy argv P S' bs.
Proof.
  induction as_ as [|a as_ IH]; intros S bs; [reflexivity|]. cbn [app srun]. destruct (sstep lossy argv P S a) as [S'| | |]; cbn [bind]; [apply IH|reflexivity..].
Qed.
Lemma behaved_app lossy argv P as_ : forall S bs, behaved lossy argv P S (as_ ++ bs) ->
  behaved lossy argv P S as_ /\ forall S', srun lossy argv P S as_ = Ok S' -> behaved lossy argv P S' bs.
Proof.
  induction as_ as [|a as_ IH]; intros S bs B; cbn [app behaved srun] in *.
  - split; [exact I|]. intros S' E. injection E as <-. exact B.
  - destruct B as [B1 B2]. split.
    + split; [exact B1|]. intros S' E. destruct (B2 S' E) as [L B3]. split; [exact L|]. now apply (IH S' bs).
    + intros S' E. destruct (sstep lossy argv P S a) as [S1| | |]; try discriminate. cbn [bind] in E. destruct (B2 S1 eq_refl) as [_ B3]. now apply (IH S1 bs B3).
Qed.

Lemma run_flow base argv P S0 T0 as_ T : mapped base shipped -> rel base argv P S0 T0 -> trun (instrument P) T0 as_ T ->
  behaved true argv P S0 as_ -> exists S, srun true argv P S0 as_ = Ok S /\ rel base argv P S T.
Proof.
  intros M R Tr. induction Tr as [Rm|as_ T a T' Tr IH St Rm]; intros B.
  - exists S0. split; [reflexivity|exact R].
  - apply behaved_app in B as [B1 B2]. destruct (IH B1) as (S & E & Rs). destruct (B2 S E) as [B3 B4].
    destruct (step_flow base argv P M S T a T' Rs St B3) as (S' & E' & R'); [intros S' Q; now apply B4|exact Rm|].
    exists S'. split; [|exact R']. rewrite srun_app, E. cbn [bind srun]. now rewrite E'.
Qed.

(** ** What related states say *)
Lemma rel_same base argv P S T : rel base argv P S T -> t_mem T = s_mem S /\
  map (fun tf => (t_fn tf, t_blk tf, map g_ins (t_rest tf), t_term tf, t_regs tf, t_dst tf)) (t_frames T) =
  map (fun fr => (f_fn fr, f_blk fr, f_rest fr, f_term fr, f_regs fr, f_dst fr)) (s_frames S).
Proof.
  intros (t & _ & _ & Em & St). split; [exact Em|]. induction St as [|fr tf fs tfs Ma Ag Ca St IH]; [reflexivity|]. cbn [map]. f_equal; [|exact IH].
  destruct Ma as (-> & -> & -> & -> & -> & f & _ & -> & _). rewrite map_map. repeat f_equal. rewrite <- (map_id (f_rest fr)) at 2. apply map_ext.
  intros i. destruct i; cbn [visit]; try reflexivity. destruct (combine_ops _ _); reflexivity.
Qed.

Lemma alive_label base fl argv p t r a : mapped base shipped -> alive base fl argv p t -> p_tdag p = Live r ->
  forall b, In b (a_mem t a) <-> r_shadow r a <> 0 /\ derives (view (r_tab r)) (r_shadow r a) b.
Proof.
  intros M (_ & _ & r' & s' & Lv & h & R & Al & _) E b. assert (r' = r) as -> by congruence.
  destruct (api_run_inv base h r s' M R) as (g & A). rewrite (al_mem _ _ Al a b). destruct (ai_mm _ _ _ _ A a) as [[-> ->]|[U Sm]].
  - cbn. split; [tauto|]. intros [Q _]. now apply Q.
  - rewrite (Sm b), (proj2 (ai_lab _ _ _ _ A) _ b U). split; [|tauto]. intros D. split; [|exact D]. destruct U. lia.
Qed.

Lemma rel_memory base argv P S T r a : mapped base shipped -> rel base argv P S T -> p_tdag (t_proc T) = Live r -> a < two64 ->
  forall b, In b (a_mem (s_ast S) a) <-> r_shadow r a <> 0 /\ derives (view (r_tab r)) (r_shadow r a) b.
Proof.
  intros M (t & A & Nr & _) E L b. rewrite (nr_mem _ _ _ Nr a L b). exact (alive_label base _ argv _ t r a M A E b).
Qed.
Lemma rel_register base argv P S T r : mapped base shipped -> rel base argv P S T -> p_tdag (t_proc T) = Live r ->
  forall above fr below x v, s_frames S = above ++ fr :: below -> f_regs fr x = Some v ->
  forall b, In b (f_deps fr x) <-> r_shadow r (REG (len below) x) <> 0 /\ derives (view (r_tab r)) (r_shadow r (REG (len below) x)) b.
Proof.
  intros M (t & A & _ & _ & St) E above fr below x v Ef Ex b. rewrite <- (alive_label base _ argv _ t r _ M A E b).
  assert (Sp : len below = len below) by reflexivity. revert b. change (same (f_deps fr x) (a_mem t (REG (len below) x))). rewrite Ef in St. clear Ef.
  revert St. generalize (t_frames T). induction above as [|y above IH]; intros tfs St; inversion St as [|fr0 tf fs0 tfs0 Ma Ag Ca St0]; subst.
  - assert (len below = len tfs0) as ->.
    { clear - St0. induction St0 as [|? ? ? ? ? ? ? ? IH]; [reflexivity|]. rewrite !len_cons. lia. }
    exact (Ag x v Ex).
  - exact (IH _ St0).
Qed.

(** ** Programs that lose nothing *)
Definition frames_ok (S : sstate) : Prop := Forall (fun fr => forallb lossless (f_rest fr) = true) (s_frames S).

Lemma lossless_exec i e d s : lossless i = true -> flow_exec false i e d s = flow_exec true i e d s.
Proof. destruct i; cbn [lossless flow_exec andb]; intros L; try reflexivity; try discriminate; destruct atomic; try discriminate; reflexivity. Qed.

Lemma arg_deps_lossless ds : len ds <= 200 -> arg_deps true ds = arg_deps false ds.
Proof.
  unfold arg_deps. intros L. assert (H : forall a, a + len ds <= 200 -> map (fun p => if fst p <? 200 then snd p else @nil byte_id) (combine (nseq a (length ds)) ds) = ds).
  { clear L. induction ds as [|x ds IH]; intros a L; [reflexivity|]. rewrite len_cons in L. cbn [length nseq combine map fst snd]. rewrite IH by lia.
    destruct (N.ltb_spec a 200); [reflexivity|lia]. }
  apply H. lia.
Qed.

Lemma get_in {A} (l : list A) i x : get l i = Some x -> In x l.
Proof. unfold get. apply nth_error_In. Qed.

Lemma enter_ok P c f vals ds dst fr : lossless_prog P -> get P c = Some f -> enter c f vals ds dst = Ok fr -> forallb lossless (f_rest fr) = true.
Proof.
  unfold enter. intros Lp G E. destruct (fn_blocks f) as [|b bs] eqn:Eb; [discriminate|]. destruct (len vals =? len (fn_params f)); [|discriminate].
  injection E as <-. cbn [f_rest]. apply (Lp f b (get_in _ _ _ G)). rewrite Eb. now left.
Qed.
Lemma set_result_ok fr v ds dst fr' : set_result fr v ds dst = Ok fr' -> f_rest fr' = f_rest fr.
Proof. unfold set_result. destruct dst; [destruct v; [|discriminate]|]; intros E; injection E as <-; reflexivity. Qed.

Lemma step_lossless argv P S a : lossless_prog P -> frames_ok S ->
  sstep false argv P S a = sstep true argv P S a /\ forall S', sstep true argv P S a = Ok S' -> frames_ok S'.
Proof.
  intros Lp Fo. destruct S as [[|fr below] m s log]; [split; [reflexivity|discriminate]|]. unfold frames_ok in Fo. cbn [s_frames] in Fo.
  apply Forall_cons_iff in Fo as [F1 F2]. unfold sstep. cbn [s_frames s_mem s_ast s_log].
  destruct (f_rest fr) as [|i rest] eqn:Er.
  - split; [reflexivity|]. intros S' E. destruct (f_term fr) as [b|c b1 b2|c cases dflt|v].
    4: { destruct below as [|caller below'].
      - destruct (match v with Some o => value (f_regs fr) o | None => Ok 0 end); try discriminate. injection E as <-. constructor.
      - match type of E with bind ?x _ = _ => destruct x as [r| | |] end; try discriminate. cbn [bind] in E.
        destruct (set_result caller r _ (f_dst fr)) as [c'| | |] eqn:Es; try discriminate. cbn [bind] in E. injection E as <-.
        apply Forall_cons_iff in F2 as [F2 F3]. constructor; [|exact F3]. rewrite (set_result_ok _ _ _ _ _ Es). exact F2. }
    all: match type of E with bind ?x _ = _ => destruct x as [t| | |] end; try discriminate; cbn [bind] in E;
      destruct (get P (f_fn fr)) as [f|] eqn:G; [|discriminate]; destruct (get (fn_blocks f) t) as [blk|] eqn:G2; [|discriminate];
      destruct (incoming (f_blk fr) (b_phis blk)); try discriminate; cbn [bind] in E;
      destruct (pairs (fun o => do v <- value (f_regs fr) o; Ok (Some v)) _); try discriminate; cbn [bind] in E; rewrite pairs_deps in E; cbn [bind] in E;
      injection E as <-; constructor; [exact (Lp f blk (get_in _ _ _ G) (get_in _ _ _ G2))|exact F2].
  - cbn [forallb] in F1. apply andb_true_iff in F1 as [L1 L2].
    assert (Plain : plain i = true -> (do em <- app_exec i (f_regs fr) m a; do ds <- flow_exec false i (f_regs fr) (f_deps fr) s;
         Ok (mkS (mkFrame (f_fn fr) (f_blk fr) rest (f_term fr) (fst em) (fst ds) (f_dst fr) :: below) (snd em) (snd ds) log)) =
       (do em <- app_exec i (f_regs fr) m a; do ds <- flow_exec true i (f_regs fr) (f_deps fr) s;
         Ok (mkS (mkFrame (f_fn fr) (f_blk fr) rest (f_term fr) (fst em) (fst ds) (f_dst fr) :: below) (snd em) (snd ds) log)) /\
       forall S', (do em <- app_exec i (f_regs fr) m a; do ds <- flow_exec true i (f_regs fr) (f_deps fr) s;
         Ok (mkS (mkFrame (f_fn fr) (f_blk fr) rest (f_term fr) (fst em) (fst ds) (f_dst fr) :: below) (snd em) (snd ds) log)) = Ok S' -> frames_ok S').
    { intros _. rewrite (lossless_exec i _ _ _ L1). split; [reflexivity|]. intros S' E. destruct (app_exec i (f_regs fr) m a); try discriminate. cbn [bind] in E.
      destruct (flow_exec true i (f_regs fr) (f_deps fr) s); try discriminate. cbn [bind] in E. injection E as <-. constructor; [exact L2|exact F2]. }
    destruct i; try (apply Plain; reflexivity); clear Plain.
    + cbn [lossless] in L1. apply N.leb_le in L1. destruct (value (f_regs fr) callee) as [c| | |]; cbn [bind]; try (split; [reflexivity|discriminate]).
      destruct (values (f_regs fr) args) as [vals| | |]; cbn [bind]; try (split; [reflexivity|discriminate]).
      rewrite (arg_deps_lossless (map (dep (f_deps fr)) args)) by (unfold len in *; now rewrite map_length). split; [reflexivity|]. intros S' E.
      destruct (get P c) as [f|] eqn:G; [|discriminate]. destruct (fn_native f); [discriminate|].
      destruct (enter c f vals _ dst) as [new| | |] eqn:En; try discriminate. cbn [bind] in E. injection E as <-.
      constructor; [exact (enter_ok _ _ _ _ _ _ _ Lp G En)|]. constructor; [exact L2|exact F2].
    + split; [reflexivity|]. intros S' E. destruct (values (f_regs fr) args) as [vals| | |]; try discriminate. cbn [bind] in E.
      destruct (lib_event k vals m a) as [v| | |]; try discriminate. cbn [bind] in E.
      match type of E with bind ?x _ = _ => destruct x as [fr'| | |] eqn:Es end; try discriminate. cbn [bind] in E. injection E as <-.
      constructor; [|exact F2]. rewrite (set_result_ok _ _ _ _ _ Es). exact L2.
Qed.

Lemma start_lossless P main vals m s S0 : lossless_prog P -> sstart P main vals m s = Ok S0 -> frames_ok S0.
Proof.
  unfold sstart. intros Lp E. destruct (get P main) as [f|] eqn:G; [|discriminate]. destruct (enter main f vals _ None) as [fr| | |] eqn:En; try discriminate.
  cbn [bind] in E. injection E as <-. constructor; [exact (enter_ok _ _ _ _ _ _ _ Lp G En)|constructor].
Qed.
Lemma run_lossless argv P as_ : lossless_prog P -> forall S, frames_ok S ->
  srun false argv P S as_ = srun true argv P S as_ /\ (behaved false argv P S as_ -> behaved true argv P S as_).
Proof.
  intros Lp. induction as_ as [|a as_ IH]; intros S Fo; [split; [reflexivity|auto]|]. cbn [srun behaved].
  destruct (step_lossless argv P S a Lp Fo) as [-> N]. destruct (sstep true argv P S a) as [S1| | |] eqn:E; cbn [bind].
  - destruct (IH S1 (N S1 eq_refl)) as [I1 I2]. split; [exact I1|]. intros [B1 B2]. split; [exact B1|]. intros S' Q. destruct (B2 S' Q) as [B3 B4].
    split; [exact B3|]. assert (S' = S1) as -> by congruence. now apply I2.
  - split; [reflexivity|]. intros [B1 B2]. split; [exact B1|]. discriminate.
  - split; [reflexivity|]. intros [B1 B2]. split; [exact B1|]. discriminate.
  - split; [reflexivity|]. intros [B1 B2]. split; [exact B1|]. discriminate.
Qed.
