(** Facts about whole runs. *)
From Coq Require Import NArith ZArith List Bool Lia Sorted.
From Verif Require Import M_Base M_Encoding M_Memory M_Labels M_Section M_StringTable M_Sources M_Functions M_CfLog M_Bitmap M_OutputFile
  M_PyNode M_PySections M_PyFile M_PyAnalysis M_Api S_Provenance S_Labels S_Section S_Strings S_Functions S_CallStack S_Bitmap S_OutputFile S_Api
  S_PyAnalysis S_History P_Base P_Encoding P_Labels P_PyNode P_ControlFlow P_History P_Memory P_Section P_PyBase P_Strings P_Functions P_CfLog P_Bitmap P_OutputFile
  P_ApiMem P_Api P_ApiFile P_PyAnalysis.
Import ListNotations.
Open Scope N_scope.

Lemma run_opened base h r s paths fnames : mapped base shipped -> api_run base h r s ->
  are_texts (map reg_name (a_regs s)) paths -> are_texts (a_names s) fnames ->
  exists g d bits, api_inv base r s g /\ py_open (trace_file base r) = Ok d /\ opened r s g d paths fnames bits.
Proof.
  intros M R T1 T2. destruct (api_run_inv base h r s M R) as (g & A). exists g.
  destruct (open_spec base r s g M A paths fnames T1 T2) as (d & bits & E & O). exists d, bits. auto.
Qed.

Lemma are_texts_len names texts : are_texts names texts -> len texts = len names.
Proof. unfold are_texts, len. induction 1; cbn [length]; [reflexivity|lia]. Qed.

(** Sources keep their index, so that the header lookup succeeds. *)
Lemma source_reg base r s g l cf i o : api_inv base r s g -> view (r_tab r) l = Some (TSource cf i o) ->
  In (i, o) (a_lab s l) /\ i < len (a_regs s) /\ o < 2 ^ 54.
Proof.
  intros A V. assert (I := reachable_inv _ (ai_tr _ _ _ _ A)). assert (U := view_in_use _ _ _ (proj1 I) V).
  assert (H : In (i, o) (a_lab s l)).
  { apply (proj2 (ai_lab _ _ _ _ A)); [exact U|]. exists l, cf. split; [constructor|exact V]. }
  split; [exact H|]. apply (ai_byt _ _ _ _ A) in H. exact H.
Qed.

Lemma header_at r s g d paths fnames bits i : opened r s g d paths fnames bits ->
  are_texts (map reg_name (a_regs s)) paths -> i < len (a_regs s) ->
  exists q text h, get (a_regs s) i = Some q /\ get paths i = Some text /\ td_fd_header d i = Ok (py_path_of text, h) /\
    fd_fd h = recorded_fd q /\ fd_size h = recorded_size q.
Proof.
  intros O T L. destruct (get_lt (a_regs s) i L) as (q & Gq).
  assert (Lp : i < len paths) by (rewrite (are_texts_len _ _ T), len_map; exact L).
  destruct (get_lt paths i Lp) as (text & Gt). destruct (op_fds _ _ _ _ _ _ _ O i q text Gq Gt) as (h & H). exists q, text, h. tauto.
Qed.

(** ** Source labels are the labels returned by reads *)
Definition is_source (t : table) (l : N) : Prop := exists cf i o, view t l = Some (TSource cf i o).

Lemma returned_snoc h c x l : returned (h ++ [(c, x)]) l <->
  returned h l \/ (exists f la, x = RRange (Some (f, la)) /\ f <= l <= la).
Proof.
  unfold returned. split.
  - intros (c' & f & la & H & L). apply in_app_or in H as [H|[H|[]]].
    + left. exists c', f, la. auto.
    + right. inversion H; subst. eauto.
  - intros [(c' & f & la & H & L)|(f & la & -> & L)].
    + exists c', f, la. split; [apply in_or_app; now left|exact L].
    + exists c, f, la. split; [apply in_or_app; right; now left|exact L].
Qed.

Lemma new_labels_sources r idx o n f la r' : linv (r_tab r) -> idx <= 255 -> o + n <= 2 ^ 54 ->
  new_source_labels r idx o n = Ok (f, la, r') ->
  forall l, is_source (r_tab r') l <-> is_source (r_tab r) l \/ f <= l <= la.
Proof.
  intros I Hi Ho E l. assert (Z : n = 0 \/ 1 <= n) by lia. destruct Z as [->|Hn].
  { destruct (new_labels_none r idx o f la r' (proj1 I) E) as (-> & -> & X). split; [now left|]. intros [H|H]; [exact H|lia]. }
  unfold new_source_labels in E.
  destruct (create_source_labels (r_tab r) idx o n) as [[[f0 la0] t']| | |] eqn:C; try discriminate. cbn [bind] in E.
  destruct (bm_set_range (r_mem r) (r_bm r) f0 n) as [[m bm]| | |] eqn:B; try discriminate. cbn [bind fst snd] in E.
  inversion E; subst f0 la0 r'. clear E. cbn [set_bm set_tab r_tab].
  assert (W := proj1 I). destruct (create_source_ok _ _ _ _ _ _ _ W Hi Hn Ho C) as (W' & Hf & Hl & Ln & Et).
  unfold is_source. split.
  - intros (cf & i & p & V). assert (U := view_in_use _ _ _ W' V). destruct U as [U1 U2].
    destruct (N.ltb_spec l (len (r_tab r))) as [L|L].
    + left. exists cf, i, p. rewrite Et, view_app in V by exact L. exact V.
    + right. lia.
  - intros [(cf & i & p & V)|H].
    + assert (U := view_in_use _ _ _ W V). destruct U as [U1 U2]. exists cf, i, p. rewrite Et, view_app by exact U2. exact V.
    + exists false, idx, (o + (l - f)).
      assert (V := create_source_view _ _ _ _ _ _ _ (l - f) W Hi Hn Ho C ltac:(lia)).
      replace (f + (l - f)) with l in V by lia. exact V.
Qed.

Lemma affects_sources fuel junk t l t' : linv t -> in_use t l -> affects_control_flow fuel junk t l = Ok t' ->
  forall k, is_source t' k <-> is_source t k.
Proof.
  intros I U E k. destruct (affects_ok fuel junk t l t' (proj1 I) (proj2 I) U E) as (Up & _ & _).
  assert (X := upto_agree (len t) _ _ Up). unfold is_source.
  assert (G : forall a b, upto a b -> is_source a k -> is_source b k).
  { intros a b Ub (cf & i & o & V). destruct (upto_view a b k _ Ub V) as (tn & V' & E'). destruct tn; cbn in E'; try discriminate.
    inversion E'; subst. unfold is_source. eauto. }
  split; [|apply G; exact Up]. intros (cf & i & o & V).
  destruct (view t k) as [tn|] eqn:Vt.
  - destruct (upto_view t t' k tn Up Vt) as (tn' & V' & E'). rewrite V in V'. inversion V'; subst tn'.
    destruct tn; cbn in E'; try discriminate. eauto.
  - exfalso. destruct Up as (W' & Ln & _). assert (U' := view_in_use _ _ _ W' V). unfold in_use in U'. rewrite Ln in U'.
    destruct (wf_view t k (proj1 I) U') as (tn & _ & V2 & _). congruence.
Qed.


Lemma step_sources base r s g c x r' : mapped base shipped -> api_inv base r s g -> call_ok s c -> api_step r c x r' ->
  within_limits (astep s c x) ->
  forall l, is_source (r_tab r') l <-> is_source (r_tab r) l \/ (exists f la, x = RRange (Some (f, la)) /\ f <= l <= la).
Proof.
  intros M A K S L l.
  assert (I := reachable_inv _ (ai_tr _ _ _ _ A)).
  assert (NoRange : forall y, (forall p, y <> RRange (Some p)) -> (is_source (r_tab r) l <-> is_source (r_tab r) l \/ (exists f la, y = RRange (Some (f, la)) /\ f <= l <= la))).
  { intros y Hy. split; [now left|]. intros [H|(f & la & E & _)]; [exact H|]. exfalso. eapply Hy; eauto. }
  assert (Fin : forall r1 idx o n f la r2, r_tab r1 = r_tab r -> idx < len (a_regs s) + 1 -> len (a_regs s) <= 255 -> o + n <= 2 ^ 54 ->
    new_source_labels r1 idx o n = Ok (f, la, r2) ->
    (is_source (r_tab r2) l <-> is_source (r_tab r) l \/ (exists f0 la0, RRange (Some (f, la)) = RRange (Some (f0, la0)) /\ f0 <= l <= la0))).
  { intros r1 idx o n f la r2 E1 Hi Hl Ho C. rewrite <- E1 in *. rewrite (new_labels_sources r1 idx o n f la r2 I ltac:(lia) Ho C l).
    split; (intros [H|H]; [now left|right]); [eauto|]. destruct H as (f0 & la0 & E & H). inversion E; subst. exact H. }
  assert (Lm := ai_lim _ _ _ _ A).
  destruct S; cbn [call_ok astep] in *.
  - unfold rt_open in H. destruct (add_source _ _ _ _ _ _) as [[[[o m] st] src]| | |]; try discriminate. cbn [bind] in H. inversion H; subst r'.
    apply NoRange. discriminate.
  - apply NoRange. discriminate.
  - destruct K as ([K2 _] & K3). unfold rt_source_mem in H.
    rewrite (inv_mapping_idx base r _ _ _ g fd M (ai_mem _ _ _ _ A) (ai_regs _ _ _ _ A) Lm ltac:(lia)) in H.
    cbn [bind] in H. destruct (last_with (a_regs s) fd) as [idx|] eqn:E.
    2: { inversion H; subst. apply NoRange. discriminate. }
    assert (Hi := last_with_bound _ _ _ E).
    destruct (read_offset r idx off n) as [[o r1]| | |] eqn:Ro; try discriminate. cbn [bind fst snd] in H.
    destruct (create_source_taint r1 idx addr n o) as [[[f la] r2]| | |] eqn:C; try discriminate. cbn [bind] in H.
    inversion H; subst x r2. clear H. unfold create_source_taint in C.
    destruct (new_source_labels r1 idx o n) as [[[f0 la0] r2]| | |] eqn:C'; try discriminate. cbn [bind] in C. inversion C; subst f0 la0 r'. clear C.
    destruct (inv_read_offset _ _ _ _ _ _ _ _ _ A (K3 _ E) Ro) as [-> A1]. cbn [set_shadow r_tab].
    eapply Fin; [|..|exact C']; try lia; [|exact (K3 _ E)]. unfold read_offset in Ro. destruct off; [inversion Ro; reflexivity|].
    destruct (stream_increase _ _ _) as [q| | |]; try discriminate. cbn [bind] in Ro. inversion Ro. reflexivity.
  - destruct K as ([K2 _] & K3). unfold rt_source_range in H.
    rewrite (inv_mapping_idx base r _ _ _ g fd M (ai_mem _ _ _ _ A) (ai_regs _ _ _ _ A) Lm ltac:(lia)) in H.
    cbn [bind] in H. destruct (last_with (a_regs s) fd) as [idx|] eqn:E.
    2: { inversion H; subst. apply NoRange. discriminate. }
    assert (Hi := last_with_bound _ _ _ E).
    destruct (read_offset r idx off n) as [[o r1]| | |] eqn:Ro; try discriminate. cbn [bind fst snd] in H.
    destruct (new_source_labels r1 idx o n) as [[[f la] r2]| | |] eqn:C; try discriminate. cbn [bind] in H.
    inversion H; subst x r2. clear H.
    destruct (inv_read_offset _ _ _ _ _ _ _ _ _ A (K3 _ E) Ro) as [-> A1].
    eapply Fin; [|..|exact C]; try lia; [|exact (K3 _ E)]. unfold read_offset in Ro. destruct off; [inversion Ro; reflexivity|].
    destruct (stream_increase _ _ _) as [q| | |]; try discriminate. cbn [bind] in Ro. inversion Ro. reflexivity.
  - destruct K as (K2 & K3). unfold rt_named in H.
    assert (Rg : reg_ok (mkReg name None None)) by (split; cbn; discriminate).
    assert (L' : within_limits (with_reg s (mkReg name None None) (a_open s))).
    { destruct x as [[f la]|]; exact L. }
    destruct (inv_reg base r s g (mkReg name None None) (a_open s) M A K2 Rg L' (fun z I => or_introl I))
      as (m & st & src & g' & E & A').
    unfold fd_value, size_value in E. cbn [reg_name reg_fd reg_size] in E. rewrite E in H. cbn [bind] in H.
    destruct (create_source_taint (set_files r m src st) (len (a_regs s)) addr n 0) as [[[f la] r2]| | |] eqn:C; try discriminate. cbn [bind] in H.
    inversion H; subst x r2. clear H. unfold create_source_taint in C.
    destruct (new_source_labels (set_files r m src st) (len (a_regs s)) 0 n) as [[[f0 la0] r2]| | |] eqn:C'; try discriminate. cbn [bind] in C. inversion C; subst f0 la0 r'. clear C.
    cbn [set_shadow r_tab]. eapply Fin; [|..|exact C']; try lia. reflexivity.
  - destruct K as [K1 K2]. apply (known_use base r s g) in K1, K2; try exact A. unfold rt_union in H.
    destruct (union_taint (r_tab r) l1 l2) as [[x0 t']| | |] eqn:C; try discriminate. cbn [bind fst snd] in H. inversion H; subst x0 r'. clear H.
    rewrite <- NoRange by discriminate. cbn [set_tab r_tab]. unfold is_source.
    split; intros (cf & i & o & V); exists cf, i, o; apply (union_sources _ _ _ _ _ (proj1 I) K1 K2 C); exact V.
  - apply NoRange. discriminate.
  - rewrite <- NoRange by discriminate.
    assert (Sl : forall n0 r0 idx a o i0, r_tab (sink_bytes_loop pad r0 idx a o i0 n0) = r_tab r0).
    { induction n0 as [|n0 IH]; intros; cbn [sink_bytes_loop]; [reflexivity|]. rewrite IH.
      destruct (0 <? r_shadow r0 a); [|reflexivity]. destruct (log_single _ _ _ _ _ _); reflexivity. }
    unfold rt_sink_mem in H0. destruct (mapping_idx _ _ _) as [[idx|]| | |]; try discriminate; cbn [bind] in H0; [|inversion H0; subst; tauto].
    destruct (write_offset r idx off n) as [[o r1]| | |] eqn:Ro; try discriminate. cbn [bind fst snd] in H0. inversion H0; subst r'.
    rewrite Sl. unfold write_offset in Ro. destruct off; [inversion Ro; tauto|].
    destruct (stream_increase _ _ _) as [q| | |]; try discriminate. cbn [bind] in Ro. inversion Ro. tauto.
  - rewrite <- NoRange by discriminate.
    assert (Sl : forall n0 r0 idx l0 o i0, r_tab (sink_label_loop pad r0 idx l0 o i0 n0) = r_tab r0).
    { induction n0 as [|n0 IH]; intros; cbn [sink_label_loop]; [reflexivity|].
      destruct (log_single _ _ _ _ _ _). rewrite IH. reflexivity. }
    unfold rt_sink_label in H0. destruct (mapping_idx _ _ _) as [[idx|]| | |]; try discriminate; cbn [bind] in H0; [|inversion H0; subst; tauto].
    destruct (write_offset r idx off n) as [[o r1]| | |] eqn:Ro; try discriminate. cbn [bind fst snd] in H0.
    assert (T1 : r_tab r1 = r_tab r).
    { unfold write_offset in Ro. destruct off; [inversion Ro; reflexivity|].
      destruct (stream_increase _ _ _) as [q| | |]; try discriminate. cbn [bind] in Ro. inversion Ro. reflexivity. }
    destruct (l0 =? 0); inversion H0; subst r'; rewrite ?Sl, T1; tauto.
  - rewrite <- NoRange by discriminate. apply (known_use base r s g) in K; [|exact A]. unfold rt_affects in H.
    destruct (affects_control_flow fuel junk (r_tab r) l0) as [t'| | |] eqn:C; try discriminate. cbn [bind] in H. inversion H; subst r'. clear H.
    cbn [set_tab r_tab]. eapply affects_sources; eauto.
  - rewrite <- NoRange by discriminate. unfold rt_cf in H. destruct (cf_log _ _ _) as [q| | |]; try discriminate. cbn [bind] in H. inversion H. tauto.
  - rewrite <- NoRange by discriminate. unfold rt_fn_entry in H0. destruct (add_mapping _ _ _ _ _) as [[[[[o m] st] fs] f]| | |]; try discriminate. cbn [bind] in H0.
    destruct o as [j|]; [|discriminate]. destruct (log_fn_event _ _ _ _ _) as [q| | |]; try discriminate. cbn [bind] in H0. inversion H0. tauto.
  - rewrite <- NoRange by discriminate. unfold rt_fn_exit in H0. destruct (log_fn_event _ _ _ _ _) as [q| | |]; try discriminate. cbn [bind] in H0. inversion H0. tauto.
Qed.

Lemma run_sources base h r s : mapped base shipped -> api_run base h r s -> forall l, is_source (r_tab r) l <-> returned h l.
Proof.
  intros M R. induction R as [r E|h r s c x r' R IH K S Rk L]; intros l.
  - destruct (rt_new_spec base M) as (r0 & E0 & _ & T & _). rewrite E in E0. inversion E0; subst r0. rewrite T.
    split; [|intros (c & f & la & [] & _)]. intros (cf & i & o & V).
    apply view_in_use in V; [|apply new_inv]. destruct V as [V1 V2]. change (len labels_new) with 1 in V2. lia.
  - destruct (api_run_inv base h r s M R) as (g & A). rewrite returned_snoc, <- IH. eapply step_sources; eauto.
Qed.

(** ** What a write logs *)
Lemma log_single_sinks base r s g pad o l i : mapped base shipped -> mem_inv base r (a_regs s) (a_names s) (a_log s) g -> Forall entry_ok (g_recs g) ->
  is_bytes pad -> len (g_recs g) < 2 ^ 20 -> entry_ok (pad, o, l, i) ->
  exists m sink g', log_single pad (r_mem r) (r_sink r) o l i = (m, sink) /\
    mem_inv base (set_sink r m sink) (a_regs s) (a_names s) (a_log s) g' /\ g_recs g' = g_recs g ++ [(pad, o, l, i)].
Proof.
  intros M I K Pb Lr Ke. destruct (inv_log_single base r _ _ _ g pad o l i M I Pb Lr) as (m & sink & E & I').
  exists m, sink. eexists. split; [exact E|]. split; [exact I'|reflexivity].
Qed.

Lemma sink_content_sinks base r s g : mem_inv base r (a_regs s) (a_names s) (a_log s) g -> Forall entry_ok (g_recs g) ->
  py_sinks (content (r_mem r) (r_sink r)) = Ok (map sink_of (g_recs g)).
Proof. intros I K. rewrite (holds_content _ _ _ (mi_sink _ _ _ _ _ _ I)). now apply py_sinks_spec. Qed.

Lemma bytes_loop_logs base pad s i n : mapped base shipped -> (forall k, is_bytes (pad k)) -> i < 256 ->
  forall r g addr o k, mem_inv base r (a_regs s) (a_names s) (a_log s) g -> Forall entry_ok (g_recs g) ->
  (forall a, r_shadow r a < 2 ^ 32) -> o + N.of_nat n <= 2 ^ 54 -> len (g_recs g) + len (logged (r_shadow r) i addr o n) <= 2 ^ 20 ->
  exists g', let r' := sink_bytes_loop pad r i addr o k n in
    mem_inv base r' (a_regs s) (a_names s) (a_log s) g' /\ Forall entry_ok (g_recs g') /\ r_shadow r' = r_shadow r /\
    map sink_of (g_recs g') = map sink_of (g_recs g) ++ logged (r_shadow r) i addr o n.
Proof.
  intros M Pb Hi. induction n as [|n IH]; intros r g addr o k I K Sh Ho Lr.
  - exists g. cbn [sink_bytes_loop logged]. rewrite app_nil_r. auto.
  - cbn [sink_bytes_loop logged]. cbv zeta.
    assert (Ad : add64 o 1 = o + 1).
    { apply add64_small. change (2 ^ 54) with 18014398509481984 in Ho. unfold two64. lia. }
    rewrite Ad. destruct (N.ltb_spec 0 (r_shadow r addr)) as [Z|Z].
    + assert (Ke : entry_ok (pad k, o, r_shadow r addr, i)).
      { unfold entry_ok. split; [lia|]. split; [apply Sh|exact Hi]. }
      destruct (log_single_sinks base r s g (pad k) o (r_shadow r addr) i M I K (Pb k)) as (m & sink & g1 & E & I1 & Eg); [|exact Ke|].
      { cbn [logged] in Lr. destruct (N.eqb_spec (r_shadow r addr) 0); [lia|]. rewrite len_app, len_cons, len_nil in Lr. lia. }
      cbn [logged] in Lr. destruct (N.eqb_spec (r_shadow r addr) 0); [lia|]. rewrite len_app, len_cons, len_nil in Lr.
      rewrite E. destruct (IH (set_sink r m sink) g1 (addr + 1) (o + 1) (k + 1) I1) as (g' & I' & K' & S' & E').
      * rewrite Eg. apply Forall_app. split; [exact K|]. constructor; [exact Ke|constructor].
      * exact Sh.
      * lia.
      * rewrite Eg, len_app, len_cons, len_nil. cbn [set_sink r_shadow]. lia.
      * exists g'. split; [exact I'|]. split; [exact K'|]. split; [exact S'|]. rewrite E', Eg, map_app, <- app_assoc.
        cbn [set_sink r_shadow map sink_of]. reflexivity.
    + cbn [logged] in Lr. destruct (N.eqb_spec (r_shadow r addr) 0); [|lia]. cbn [app] in Lr. destruct (IH r g (addr + 1) (o + 1) (k + 1) I K Sh) as (g' & Q); try lia.
      exists g'. exact Q.
Qed.

Lemma recs_entry_ok base r s g : api_inv base r s g -> Forall entry_ok (g_recs g).
Proof.
  intros A. assert (O := ai_out _ _ _ _ A). pose proof (ai_lim _ _ _ _ A) as Lm.
  assert (Cp : len (r_tab r) <= 2147483648) by apply (reachable_inv _ (ai_tr _ _ _ _ A)). clear - O Lm Cp.
  induction O as [|[[[pad o] l] i] [[i' o'] bs] l1 l2 H O IH]; constructor; auto.
  destruct H as (-> & -> & [_ U] & _ & H1 & H2). unfold entry_ok, two8, two32. lia.
Qed.
Lemma shadow_small base r s g : api_inv base r s g -> forall a, r_shadow r a < 2 ^ 32.
Proof.
  intros A a. assert (Cp : len (r_tab r) <= 2147483648) by apply (reachable_inv _ (ai_tr _ _ _ _ A)).
  change (2 ^ 32) with 4294967296. destruct (ai_mm _ _ _ _ A a) as [[-> _]|[[_ U] _]]; lia.
Qed.

Lemma label_loop_logs base pad s i l n o : mapped base shipped -> (forall k, is_bytes (pad k)) -> i < 256 -> l <> 0 -> l < 2 ^ 32 ->
  forall r g k a, mem_inv base r (a_regs s) (a_names s) (a_log s) g -> Forall entry_ok (g_recs g) ->
  o + k + N.of_nat n <= 2 ^ 54 -> len (g_recs g) + N.of_nat n <= 2 ^ 20 ->
  exists g', let r' := sink_label_loop pad r i l o k n in
    mem_inv base r' (a_regs s) (a_names s) (a_log s) g' /\ Forall entry_ok (g_recs g') /\
    map sink_of (g_recs g') = map sink_of (g_recs g) ++ logged (fun _ => l) i a (o + k) n.
Proof.
  intros M Pb Hi Hz Hl. induction n as [|n IH]; intros r g k a I K Ho Lr.
  - exists g. cbn [sink_label_loop logged]. rewrite app_nil_r. auto.
  - cbn [sink_label_loop logged]. cbv zeta.
    assert (Ad : add64 o k = o + k).
    { apply add64_small. change (2 ^ 54) with 18014398509481984 in Ho. unfold two64. lia. }
    rewrite Ad.
    assert (Ke : entry_ok (pad k, o + k, l, i)).
    { unfold entry_ok. split; [lia|]. split; [exact Hl|exact Hi]. }
    destruct (log_single_sinks base r s g (pad k) (o + k) l i M I K (Pb k) ltac:(lia) Ke) as (m & sink & g1 & E & I1 & Eg).
    rewrite E. destruct (IH (set_sink r m sink) g1 (k + 1) (a + 1) I1) as (g' & I' & K' & E').
    * rewrite Eg. apply Forall_app. split; [exact K|]. constructor; [exact Ke|constructor].
    * lia.
    * rewrite Eg, len_app, len_cons, len_nil. lia.
    * exists g'. split; [exact I'|]. split; [exact K'|]. rewrite E', Eg, map_app, <- app_assoc, N.add_assoc.
      cbn [map sink_of]. destruct (N.eqb_spec l 0); [lia|]. reflexivity.
Qed.

(** ** Registrations *)
Lemma run_regs base h r s : api_run base h r s -> a_regs s = registered h.
Proof.
  induction 1 as [r E|h r s c x r' R IH K S Rk L]; [reflexivity|].
  unfold registered in *. rewrite flat_map_app. cbn [flat_map]. rewrite app_nil_r, <- IH. unfold registration. cbn [fst].
  clear - S. destruct S; cbn [astep]; rewrite ?app_nil_r; try reflexivity.
  - destruct x as [[f la]|]; [|reflexivity]. destruct (last_with _ _); reflexivity.
  - destruct x as [[f la]|]; [|reflexivity]. destruct (last_with _ _); reflexivity.
  - destruct x as [[f la]|]; reflexivity.
  - destruct (last_with _ _); reflexivity.
  - destruct (last_with _ _); reflexivity.
Qed.

Lemma get_cons_succ {A} (x : A) l i : get (x :: l) (i + 1) = get l i.
Proof. unfold get. replace (N.to_nat (i + 1)) with (S (N.to_nat i)) by lia. reflexivity. Qed.

Lemma last_with_most_recent regs fd : forall i, last_with regs fd = Some i <-> most_recent regs fd i.
Proof.
  induction regs as [|g regs IH]; intros i; cbn [last_with].
  - split; [discriminate|]. intros [(g & G & _) _]. unfold get in G. destruct (N.to_nat i); discriminate.
  - destruct (last_with regs fd) as [j|] eqn:E.
    + assert (Mj := proj1 (IH j) eq_refl). destruct Mj as [(g1 & G1 & F1) M1]. split.
      * intros X. inversion X; subst i. split.
        -- exists g1. rewrite get_cons_succ. auto.
        -- intros k g2 Hk Gk. destruct (N.eq_dec k 0) as [->|Nz]; [lia|]. replace k with ((k - 1) + 1) in Gk by lia. rewrite get_cons_succ in Gk.
           apply (M1 (k - 1)); [lia|exact Gk].
      * intros [(g2 & G2 & F2) M2]. f_equal. destruct (N.lt_trichotomy (j + 1) i) as [H|[H|H]]; [|exact H|].
        -- exfalso. replace i with ((i - 1) + 1) in G2 by lia. rewrite get_cons_succ in G2. eapply (M1 (i - 1)); [lia|exact G2|exact F2].
        -- exfalso. eapply (M2 (j + 1)); [exact H|rewrite get_cons_succ; exact G1|exact F1].
    + assert (None_in : forall j g2, get regs j = Some g2 -> reg_fd g2 <> Some fd).
      { clear - E. intros j g2. revert j. induction regs as [|g0 regs IH]; intros j G; [unfold get in G; destruct (N.to_nat j); discriminate|].
        cbn [last_with] in E. destruct (last_with regs fd) eqn:E1; [discriminate|]. destruct (N.eq_dec j 0) as [->|Nz].
        - inversion G; subst. destruct (reg_fd g2) as [z|]; [|discriminate]. destruct (Z.eqb_spec z fd); congruence.
        - replace j with ((j - 1) + 1) in G by lia. rewrite get_cons_succ in G. eapply IH; eauto. }
      split.
      * intros X. assert (i = 0 /\ reg_fd g = Some fd) as [-> Fg].
        { destruct (reg_fd g) as [z|]; [|discriminate]. destruct (Z.eqb_spec z fd); [|discriminate]. inversion X; subst. auto. }
        split; [exists g; split; [reflexivity|exact Fg]|]. intros j g2 Hj Gj. replace j with ((j - 1) + 1) in Gj by lia.
        rewrite get_cons_succ in Gj. eapply None_in; eauto.
      * intros [(g2 & G2 & F2) _]. destruct (N.eq_dec i 0) as [->|Nz].
        -- inversion G2; subst g2. rewrite F2, Z.eqb_refl. reflexivity.
        -- exfalso. replace i with ((i - 1) + 1) in G2 by lia. rewrite get_cons_succ in G2. eapply None_in; eauto.
Qed.

(** ** A full source table *)
Lemma add_string_frame m st name o m' st' : section_ok st -> add_string m st name = Ok (o, m', st') ->
  section_ok st' /\ sbeg st' = sbeg st /\ send st' = send st /\ frame st m m'.
Proof.
  intros K. unfold add_string. destruct (st_max_string_len <? len name) eqn:El; [discriminate|].
  assert (Ls : len name <= 65535) by (apply N.ltb_ge in El; unfold st_max_string_len, st_max_offset in El; lia).
  assert (Al : allocated_len (len name) = 2 + len name + len name mod 2) by apply allocated_len_spec.
  assert (len name mod 2 < 2) by (apply N.mod_lt; lia).
  destruct (sect_write st (allocated_len (len name))) as [[p st1]|] eqn:W.
  - apply sect_write_some in W as (-> & -> & Ro & K'); [|exact K|unfold two64; lia].
    destruct (sect_offset _ _); try discriminate. cbn [bind]. intros E. inversion E; subst. clear E. cbn [sbeg send].
    split; [exact K'|]. split; [reflexivity|]. split; [reflexivity|]. destruct K as (K1 & K2 & K3).
    intros q Hq. unfold store_int. rewrite !store_other; [reflexivity| |].
    + rewrite len_le_bytes. change (N.of_nat 2) with 2. lia.
    + lia.
  - intros E. inversion E; subst. split; [exact K|]. split; [reflexivity|]. split; [reflexivity|]. apply frame_refl.
Qed.

Definition src_full (r : rt) : Prop :=
  section_ok (r_src r) /\ section_ok (r_st r) /\ send (r_src r) < wit (r_src r) + 16 /\
  (send (r_src r) <= sbeg (r_st r) \/ send (r_st r) <= sbeg (r_src r)).

Lemma open_full r fd path size r' : src_full r -> rt_open r fd path size = Ok r' ->
  src_full r' /\ r_src r' = r_src r /\ (forall a, sbeg (r_src r) <= a -> a < send (r_src r) -> r_mem r' a = r_mem r a).
Proof.
  intros (K1 & K2 & Fu & Dj) E. unfold rt_open in E. unfold add_source in E.
  destruct (add_string (r_mem r) (r_st r) path) as [[[o m1] st1]| | |] eqn:A; try discriminate. cbn [bind] in E.
  destruct (add_string_frame _ _ _ _ _ _ K2 A) as (K2' & B1 & B2 & Fr).
  assert (Cn : forall n s0 ofs f0, construct m1 (r_src r) (source_bytes ofs f0 n) = s0 -> s0 = None).
  { intros n s0 ofs f0 <-. unfold construct. 
    assert (L : len (source_bytes ofs f0 n) = 16) by (unfold source_bytes; rewrite !len_app, !len_le_bytes; reflexivity).
    rewrite L. assert (X := proj2 (sect_write_none (r_src r) 16 K1 ltac:(unfold two64; lia)) Fu). rewrite X. reflexivity. }
  assert (G : exists st0, r' = set_files r m1 (r_src r) st0 /\ st0 = st1).
  { destruct o as [ofs|]; cbn [bind] in E.
    - rewrite (Cn _ _ _ _ eq_refl) in E. cbn [bind] in E. inversion E. eauto.
    - inversion E. eauto. }
  destruct G as (st0 & -> & ->). cbn [set_files r_src r_mem r_st]. split.
  - unfold src_full. cbn [set_files r_src r_st]. rewrite B1, B2. auto.
  - split; [reflexivity|]. intros a H1 H2. apply Fr. lia.
Qed.

Lemma find_reverse_ext m m' s fd n : (forall i, i < N.of_nat n -> src_fd m' s i = src_fd m s i) ->
  find_reverse m' s fd n = find_reverse m s fd n.
Proof.
  induction n as [|n IH]; intros H; [reflexivity|]. cbn [find_reverse]. rewrite H by lia. rewrite IH; [reflexivity|].
  intros i Hi. apply H. lia.
Qed.

Lemma mapping_idx_same m m' s fd : section_ok s ->
  (forall a, sbeg s <= a -> a < send s -> m' a = m a) -> mapping_idx m' s fd = mapping_idx m s fd.
Proof.
  intros (K1 & K2 & K3) H. unfold mapping_idx. rewrite (find_reverse_ext m m'); [reflexivity|]. intros i Hi.
  assert (Hc : 16 * (i + 1) <= wit s - sbeg s).
  { rewrite Nnat.N2Nat.id in Hi. unfold sect_count, sect_size, source_entry_size in Hi.
    pose proof (N.div_mod (wit s - sbeg s) 16 ltac:(lia)). lia. }
  unfold src_fd, source_entry_size. f_equal. apply load_int_ext. intros x X1 X2. change (N.of_nat 4) with 4 in X2. apply H; lia.
Qed.

Lemma more_opens_full r r' : src_full r -> more_opens r r' ->
  src_full r' /\ r_src r' = r_src r /\ (forall a, sbeg (r_src r) <= a -> a < send (r_src r) -> r_mem r' a = r_mem r a).
Proof.
  intros F H. induction H as [r|r r1 r2 fd path size H IH E]; [auto|]. destruct (IH F) as (F1 & E1 & M1).
  destruct (open_full _ _ _ _ _ F1 E) as (F2 & E2 & M2). split; [exact F2|]. split; [congruence|].
  intros a A1 A2. rewrite M2 by (rewrite E1; assumption). now apply M1.
Qed.

Lemma full_after_255 base r s g : mapped base shipped -> api_inv base r s g -> len (a_regs s) = 255 -> src_full r.
Proof.
  intros [Bm Mp] A L. change (2 ^ 64) with two64 in Mp. pose proof (ai_mem _ _ _ _ A) as I.
  destruct I as [Hb P O Hs Hn Hf Hp Hk He Hc Hm Hst Hcl]. placed_facts P.
  assert (Ln := named_length _ _ _ Hn). rewrite map_length in Ln.
  destruct Hs as (K & W & _). rewrite (len_src_content _ _ Ln), L in W. destruct (fi_st _ _ _ _ _ _ _ Hf) as (K' & _).
  split; [exact K|]. split; [exact K'|]. lia.
Qed.

(** ** Lengths of logs *)
Lemma outputs_cons i o v vals : outputs i o (v :: vals) = (match v with [] => [] | _ => [(i, o, v)] end) ++ outputs i (o + 1) vals.
Proof.
  unfold outputs. cbn [length nseq combine map filter fst snd]. rewrite N.add_0_r.
  assert (E : map (fun kv : N * list byte_id => (i, o + fst kv, snd kv)) (combine (nseq (0 + 1) (length vals)) vals) =
              map (fun kv => (i, o + 1 + fst kv, snd kv)) (combine (nseq 0 (length vals)) vals)).
  { generalize 0 as k. induction vals as [|w vals IH]; intros k; [reflexivity|]. cbn [length nseq combine map fst snd].
    rewrite IH. f_equal. f_equal. f_equal. lia. }
  rewrite E. destruct v; reflexivity.
Qed.

Lemma outputs_logged base r s g i : api_inv base r s g -> forall n addr o,
  len (outputs i o (map (a_mem s) (nseq addr n))) = len (logged (r_shadow r) i addr o n).
Proof.
  intros A. induction n as [|n IH]; intros addr o; [reflexivity|]. cbn [nseq map logged]. rewrite outputs_cons, !len_app, IH. f_equal.
  destruct (ai_mm _ _ _ _ A addr) as [[-> ->]|[U Sm]]; [reflexivity|].
  assert (Ul : 1 <= r_shadow r addr) by apply U. destruct (N.eqb_spec (r_shadow r addr) 0); [lia|].
  destruct (a_mem s addr) as [|b bs] eqn:Em; [|reflexivity]. exfalso.
  assert (X := proj1 (proj1 (ai_lab _ _ _ _ A) _) U). destruct (a_lab s (r_shadow r addr)) as [|b bs]; [now apply X|].
  destruct (Sm b) as [_ Y]. destruct Y. now left.
Qed.

Lemma outputs_repeat i v n : v <> [] -> forall o, len (outputs i o (repeat v n)) = N.of_nat n.
Proof.
  intros V. induction n as [|n IH]; intros o; [reflexivity|]. cbn [repeat]. rewrite outputs_cons, len_app, IH.
  destruct v; [now destruct V|]. rewrite len_cons, len_nil. lia.
Qed.

Lemma recs_out base r s g : api_inv base r s g -> len (g_recs g) = len (a_out s).
Proof. intros A. assert (O := ai_out _ _ _ _ A). unfold len. f_equal. induction O; cbn; congruence. Qed.

Lemma decode_view base r s g d paths fnames bits l n : api_inv base r s g -> opened r s g d paths fnames bits ->
  td_decode_node d l = Ok n -> l = 0 /\ n = PyUntainted \/ exists tn, view (r_tab r) l = Some tn /\ n = node_of tn.
Proof.
  intros A O D. assert (I := reachable_inv _ (ai_tr _ _ _ _ A)).
  destruct (N.eq_dec l 0) as [->|Nz]; [left; inversion D; auto|right].
  destruct (N.ltb_spec l (len (r_tab r))) as [L|L].
  - assert (U : in_use (r_tab r) l) by (split; lia). destruct (wf_view _ _ (proj1 I) U) as (tn & _ & V & _).
    exists tn. split; [exact V|]. rewrite (op_dec _ _ _ _ _ _ _ O l tn V) in D. congruence.
  - rewrite (op_out _ _ _ _ _ _ _ O l L) in D. discriminate.
Qed.

(** ** The mapping *)
Lemma header_path r s g d paths fnames bits i p : opened r s g d paths fnames bits ->
  are_texts (map reg_name (a_regs s)) paths -> i < len (a_regs s) ->
  ((exists h, td_fd_header d i = Ok (p, h)) <-> path_at paths i p).
Proof.
  intros O T L. destruct (header_at r s g d paths fnames bits i O T L) as (q & text & h & Gq & Gt & Hd & _).
  split.
  - intros (h' & E). rewrite Hd in E. inversion E; subst. exists text. auto.
  - intros (text' & Gt' & ->). rewrite Gt in Gt'. inversion Gt'; subst. eauto.
Qed.

Lemma Forall2_in_l {X Y} (P : X -> Y -> Prop) l m x : Forall2 P l m -> In x l -> exists y, In y m /\ P x y.
Proof. induction 1 as [|a b l m H F IH]; intros []; [subst; exists b; split; [now left|exact H]|]. destruct IH as (y & Hy & Py); [assumption|]. exists y. split; [now right|exact Py]. Qed.
Lemma Forall2_in_r {X Y} (P : X -> Y -> Prop) l m y : Forall2 P l m -> In y m -> exists x, In x l /\ P x y.
Proof. induction 1 as [|a b l m H F IH]; intros []; [subst; exists a; split; [now left|exact H]|]. destruct IH as (x & Hx & Px); [assumption|]. exists x. split; [now right|exact Px]. Qed.

Lemma run_mapping base r s g d paths fnames bits : api_inv base r s g -> opened r s g d paths fnames bits ->
  are_texts (map reg_name (a_regs s)) paths ->
  exists F m, (forall np no sp so, In ((np, no), (sp, so)) m <-> depends s paths np no sp so) /\
    forall fuel, (F <= fuel)%nat -> py_mapping fuel d = Ok m.
Proof.
  intros A O T. assert (I := reachable_inv _ (ai_tr _ _ _ _ A)). assert (Out := ai_out _ _ _ _ A).
  destruct (mapping_loop_spec d (r_tab r) (proj1 I) (op_dec _ _ _ _ _ _ _ O)) with (sinks := map sink_of (g_recs g)) (acc0 := @nil (file_offset_in * file_offset_out))
    as (F & m & E & R).
  - intros l cf i o V. destruct (source_reg base r s g l cf i o A V) as (_ & L & _).
    destruct (header_at r s g d paths fnames bits i O T L) as (q & text & hd & _ & _ & Hd & _). eauto.
  - apply Forall_forall. intros k Hk. apply in_map_iff in Hk as ([[[pad o] l] i] & <- & Hk).
    destruct (Forall2_in_l _ _ _ _ Out Hk) as ([[i' o'] bs] & _ & (-> & -> & U & _ & L & _)). cbn [sink_of sk_label sk_fdidx].
    split; [exact U|]. destruct (header_at r s g d paths fnames bits i' O T L) as (q & text & hd & _ & _ & Hd & _). eauto.
  - exists F, m. split.
    + intros np no sp so. rewrite E. split.
      * intros [[]|(k & spx & i & o & Hk & Hsp & Dv & (npx & Hnp & Epair))]. inversion Epair; subst np no sp so. clear Epair.
        apply in_map_iff in Hk as ([[[pad pos] l] j] & <- & Hk). cbn [sink_of sk_label sk_fdidx sk_offset] in *.
        destruct (Forall2_in_l _ _ _ _ Out Hk) as ([[j' pos'] bs] & Hin & (-> & -> & U & Sm & Lj & _)).
        assert (Hb : In (i, o) (a_lab s l)) by (apply (proj2 (ai_lab _ _ _ _ A)); assumption).
        assert (Li := proj1 (ai_byt _ _ _ _ A _ _ Hb)). cbn [fst] in Li.
        exists j', pos', bs, i. split; [exact Hin|]. split; [now apply Sm|]. split; [reflexivity|].
        split; [apply (header_path r s g d paths fnames bits j' _ O T Lj)|apply (header_path r s g d paths fnames bits i _ O T Li)].
        -- exists (snd spx). rewrite Hsp. destruct spx; reflexivity.
        -- exists (snd npx). rewrite Hnp. destruct npx; reflexivity.
      * intros (i & pos & bs & j & Hin & Hb & -> & Pi & Pj). right.
        destruct (Forall2_in_r _ _ _ _ Out Hin) as ([[[pad pos'] l] i'] & Hk & (-> & -> & U & Sm & Li & _)).
        assert (Hb' : In (j, no) (a_lab s l)) by now apply Sm.
        assert (Lj := proj1 (ai_byt _ _ _ _ A _ _ Hb')). cbn [fst] in Lj.
        apply (header_path r s g d paths fnames bits i _ O T Li) in Pi as (hi & Hi).
        apply (header_path r s g d paths fnames bits j _ O T Lj) in Pj as (hj & Hj).
        exists (sink_of (pad, pos, l, i)), (sp, hi), j, no. cbn [sink_of sk_label sk_fdidx sk_offset].
        split; [apply in_map_iff; exists (pad, pos, l, i); auto|]. split; [exact Hi|].
        split; [apply (proj2 (ai_lab _ _ _ _ A)); assumption|]. exists (np, hj). split; [exact Hj|reflexivity].
    + intros fuel Hf. unfold py_mapping. rewrite (op_sinks _ _ _ _ _ _ _ O). cbn [bind]. now apply R.
Qed.

Lemma sink_bytes_shadow pad n : forall r i addr o k, r_shadow (sink_bytes_loop pad r i addr o k n) = r_shadow r.
Proof.
  induction n as [|n IH]; intros; cbn [sink_bytes_loop]; [reflexivity|]. rewrite IH.
  destruct (0 <? r_shadow r addr); [|reflexivity]. destruct (log_single _ _ _ _ _ _); reflexivity.
Qed.
Lemma sink_mem_shadow pad r fd off addr n r' : rt_sink_mem pad r fd off addr n = Ok r' -> r_shadow r' = r_shadow r.
Proof.
  unfold rt_sink_mem. destruct (mapping_idx _ _ _) as [[idx|]| | |]; try discriminate; cbn [bind]; [|intros E; inversion E; reflexivity].
  destruct (write_offset r idx off n) as [[o r1]| | |] eqn:Ro; try discriminate. cbn [bind fst snd]. intros E. inversion E; subst r'.
  rewrite sink_bytes_shadow. unfold write_offset in Ro. destruct off; [inversion Ro; reflexivity|].
  destruct (stream_increase _ _ _) as [q| | |]; try discriminate. cbn [bind] in Ro. inversion Ro. reflexivity.
Qed.

(** Following nodes in the opened file is following labels in the table. *)
Lemma opened_stands r s g d paths fnames bits l b : wf_table (r_tab r) -> opened r s g d paths fnames bits -> in_use (r_tab r) l ->
  node_leads_to d l b <-> derives (view (r_tab r)) l b.
Proof.
  intros W O U. split.
  - intros H. revert U. assert (K : forall l n, in_use (r_tab r) l -> td_decode_node d l = Ok n -> exists tn, view (r_tab r) l = Some tn /\ n = node_of tn).
    { intros l' n U D. destruct (wf_view _ _ W U) as (tn & _ & V & _). exists tn. split; [exact V|]. rewrite (op_dec _ _ _ _ _ _ _ O _ _ V) in D. congruence. }
    assert (St : forall l m b, component (view (r_tab r)) l m -> derives (view (r_tab r)) m b -> derives (view (r_tab r)) l b).
    { intros l1 m b1 C (k & cf & B & V). exists k, cf. split; [now apply bf_step with m|exact V]. }
    assert (Us : forall l m, component (view (r_tab r)) l m -> in_use (r_tab r) m).
    { intros l1 m C. apply (component_lt _ _ _ W) in C. split; lia. }
    induction H as [l i o cf D|l f la cf m b D I _ IH|l x y cf b D _ IH|l x y cf b D _ IH]; intros U;
      destruct (K _ _ U D) as ([cf' i' o'|cf' f' la'|cf' lo hi] & V & E); inversion E; subst.
    + exists l, cf'. split; [apply bf_refl|exact V].
    + assert (C := comp_range _ _ _ _ _ m V I). eauto.
    + assert (C := comp_higher _ _ _ _ _ V). eauto.
    + assert (C := comp_lower _ _ _ _ _ V). eauto.
  - intros (m & cf & B & V). clear U. induction B as [l|l m k C _ IH].
    + apply (op_dec _ _ _ _ _ _ _ O) in V. destruct b as [i o]. exact (sf_source _ _ _ _ _ V).
    + specialize (IH V). destruct C as [l cf' f la m Vl I|l cf' lo hi Vl|l cf' lo hi Vl]; apply (op_dec _ _ _ _ _ _ _ O) in Vl; cbn [node_of] in Vl.
      * exact (sf_range _ _ _ _ _ _ _ Vl I IH).
      * exact (sf_right _ _ _ _ _ _ Vl IH).
      * exact (sf_left _ _ _ _ _ _ Vl IH).
Qed.
