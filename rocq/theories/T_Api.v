(** C23, C25, C26, C29 (histories), C30: properties of whole runs of the runtime API, read
    back from the file.  Runs and their plain meaning are in S_Api. *)
From Coq Require Import NArith ZArith List Bool Lia Sorted.
From Verif Require Import M_Base M_Encoding M_Memory M_Labels M_Section M_Sources M_CfLog M_Bitmap M_OutputFile
  M_PyNode M_PySections M_PyFile M_PyAnalysis M_Api S_Provenance S_Labels S_Section S_Strings S_Functions S_CallStack S_OutputFile S_Api
  S_PyAnalysis S_History P_Base P_Labels P_ControlFlow P_History P_Memory P_Section P_OutputFile P_ApiMem P_Api P_ApiFile P_PyAnalysis P_ApiRun P_ApiDemo S_PyPath P_PyPath T_OutputFile.
Import ListNotations.
Open Scope N_scope.

(** ** C23: the sink log *)
(** After any run, the log read back has one record per tainted output byte of the plain
    semantics, in order, with the output file, the position, and a label that stands for
    exactly the input bytes the output byte depends on. *)
Theorem C23_sink_log : forall base h r s paths fnames,
  mapped base shipped -> api_run base h r s ->
  are_texts (map reg_name (registered h)) paths -> are_texts (a_names s) fnames ->
  exists d sinks, py_open (trace_file base r) = Ok d /\ td_sinks d = Ok sinks /\
    Forall2 (fun k out => let '(i, pos, bs) := out in
               sk_fdidx k = i /\ sk_offset k = Z.of_N pos /\
               forall b, In b (a_lab s (sk_label k)) <-> In b bs) sinks (a_out s).
Proof.
  intros base h r s paths fnames M R T1 T2. rewrite <- (run_regs _ _ _ _ R) in T1.
  destruct (run_opened base h r s paths fnames M R T1 T2) as (g & d & bits & A & E & O).
  exists d, (map sink_of (g_recs g)). split; [exact E|]. split; [exact (op_sinks _ _ _ _ _ _ _ O)|].
  assert (X := ai_out _ _ _ _ A). induction X as [|[[[pad o] l] i] [[i' o'] bs] l1 l2 Y X IH]; constructor; [|exact IH].
  destruct Y as (-> & -> & _ & Sm & _ & _). cbn [sink_of sk_fdidx sk_offset sk_label]. split; [reflexivity|]. split; [reflexivity|].
  intros b. symmetry. apply Sm.
Qed.

(** What one write appends to the log: one record for exactly those bytes whose label is
    not zero. *)
Theorem C23_write_memory : forall base h r s fd off addr n r' i,
  mapped base shipped -> api_run base h r s ->
  call_ok s (CWriteMem fd off addr n) -> api_step r (CWriteMem fd off addr n) RNone r' ->
  within_limits (astep s (CWriteMem fd off addr n) RNone) ->
  most_recent (registered h) fd i ->
  exists old, py_sinks (content (r_mem r) (r_sink r)) = Ok old /\
    py_sinks (content (r_mem r') (r_sink r')) =
      Ok (old ++ logged (r_shadow r) i addr (position (a_wr s) i off) (N.to_nat n)).
Proof.
  intros base h r s fd off addr n r' i M R K S L Mr. destruct (api_run_inv base h r s M R) as (g & A).
  rewrite <- (run_regs _ _ _ _ R) in Mr. apply last_with_most_recent in Mr.
  inversion S as [| | | | | | |pad fd0 off0 addr0 n0 r0 Hp H| | | | |]; subst. clear S. cbn [call_ok astep] in K, L.
  destruct K as ((K1 & _) & K2). rewrite Mr in L.
  unfold rt_sink_mem in H. rewrite (inv_mapping_idx base r _ _ _ g fd M (ai_mem _ _ _ _ A) (ai_regs _ _ _ _ A) (ai_lim _ _ _ _ A) ltac:(lia)), Mr in H.
  cbn [bind] in H. destruct (write_offset r i off n) as [[o r1]| | |] eqn:W; try discriminate. cbn [bind fst snd] in H. inversion H; subst r'. clear H.
  destruct (inv_write_offset _ _ _ _ _ _ _ _ _ A (K2 _ Mr) W) as [-> A1].
  assert (Sh : r_shadow r1 = r_shadow r /\ r_mem r1 = r_mem r /\ r_sink r1 = r_sink r).
  { unfold write_offset in W. destruct off; [inversion W; auto|]. destruct (stream_increase _ _ _) as [q| | |]; try discriminate.
    cbn [bind] in W. inversion W. auto. }
  destruct Sh as (Sh & Em & Es).
  assert (Ke := recs_entry_ok _ _ _ _ A).
  destruct (bytes_loop_logs base pad (with_out s (advance (a_wr s) i off n) []) i (N.to_nat n) M Hp) with (r := r1) (g := g) (addr := addr)
    (o := position (a_wr s) i off) (k := 0) as (g' & I' & K' & _ & E').
  - apply last_with_bound in Mr. pose proof (ai_lim _ _ _ _ A). lia.
  - exact (ai_mem _ _ _ _ A1).
  - exact Ke.
  - exact (shadow_small _ _ _ _ A1).
  - specialize (K2 _ Mr). lia.
  - destruct L as (_ & _ & L3 & _). cbn [with_out a_out] in L3. rewrite len_app, (outputs_logged _ _ _ _ _ A) in L3. rewrite Sh, (recs_out _ _ _ _ A). exact L3.
  - exists (map sink_of (g_recs g)). split; [exact (sink_content_sinks _ _ _ _ (ai_mem _ _ _ _ A) Ke)|].
    rewrite (sink_content_sinks _ _ _ _ I' K'), E', Sh. reflexivity.
Qed.

(** A write of [n] bytes that carry one label logs every position, or nothing when the
    label is zero. *)
Theorem C23_write_value : forall base h r s fd off l n r' i,
  mapped base shipped -> api_run base h r s ->
  call_ok s (CWriteVal fd off l n) -> api_step r (CWriteVal fd off l n) RNone r' ->
  within_limits (astep s (CWriteVal fd off l n) RNone) ->
  most_recent (registered h) fd i ->
  exists old, py_sinks (content (r_mem r) (r_sink r)) = Ok old /\
    py_sinks (content (r_mem r') (r_sink r')) =
      Ok (old ++ logged (fun _ => l) i 0 (position (a_wr s) i off) (N.to_nat n)).
Proof.
  intros base h r s fd off l n r' i M R K S L Mr. destruct (api_run_inv base h r s M R) as (g & A).
  rewrite <- (run_regs _ _ _ _ R) in Mr. apply last_with_most_recent in Mr.
  inversion S as [| | | | | | | |pad fd0 off0 l0 n0 r0 Hp H| | | |]; subst. clear S. cbn [call_ok astep] in K, L.
  destruct K as ((K1 & _) & K2 & K3). rewrite Mr in L.
  unfold rt_sink_label in H. rewrite (inv_mapping_idx base r _ _ _ g fd M (ai_mem _ _ _ _ A) (ai_regs _ _ _ _ A) (ai_lim _ _ _ _ A) ltac:(lia)), Mr in H.
  cbn [bind] in H. destruct (write_offset r i off n) as [[o r1]| | |] eqn:W; try discriminate. cbn [bind fst snd] in H.
  destruct (inv_write_offset _ _ _ _ _ _ _ _ _ A (K2 _ Mr) W) as [-> A1].
  assert (Sh : r_mem r1 = r_mem r /\ r_sink r1 = r_sink r).
  { unfold write_offset in W. destruct off; [inversion W; auto|]. destruct (stream_increase _ _ _) as [q| | |]; try discriminate.
    cbn [bind] in W. inversion W. auto. }
  destruct Sh as (Em & Es). assert (Ke := recs_entry_ok _ _ _ _ A).
  exists (map sink_of (g_recs g)). split; [exact (sink_content_sinks _ _ _ _ (ai_mem _ _ _ _ A) Ke)|].
  destruct (N.eqb_spec l 0) as [->|Nz].
  - inversion H; subst r'. rewrite Em, Es, (sink_content_sinks _ _ _ _ (ai_mem _ _ _ _ A) Ke). f_equal.
    generalize (position (a_wr s) i off) as o. generalize (N.to_nat n) as k. generalize 0 at 2 as a.
    assert (Z : forall k a o, logged (fun _ => 0) i a o k = []) by (induction k; intros; cbn; auto).
    intros a k o. rewrite Z, app_nil_r. reflexivity.
  - inversion H; subst r'. clear H. destruct K3 as [K3|K3]; [contradiction|].
    assert (U := known_use base r s g l A K3).
    destruct (label_loop_logs base pad (with_out s (advance (a_wr s) i off n) []) i l (N.to_nat n) (position (a_wr s) i off) M Hp)
      with (r := r1) (g := g) (k := 0) (a := 0) as (g' & I' & K' & E').
    + apply last_with_bound in Mr. pose proof (ai_lim _ _ _ _ A). lia.
    + exact Nz.
    + assert (Cp : len (r_tab r) <= 2147483648) by apply (reachable_inv _ (ai_tr _ _ _ _ A)).
      destruct U. change (2 ^ 32) with 4294967296. lia.
    + exact (ai_mem _ _ _ _ A1).
    + exact Ke.
    + specialize (K2 _ Mr). lia.
    + destruct L as (_ & _ & L3 & _). cbn [with_out a_out] in L3. rewrite len_app, outputs_repeat in L3 by exact K3.
      rewrite (recs_out _ _ _ _ A). exact L3.
    + rewrite (sink_content_sinks _ _ _ _ I' K'), E', N.add_0_r. reflexivity.
Qed.

(** Nothing is logged for a descriptor that was never registered. *)
Theorem C23_unopened : forall base h r s fd off c r',
  mapped base shipped -> api_run base h r s ->
  (exists addr n, c = CWriteMem fd off addr n) \/ (exists l n, c = CWriteVal fd off l n) ->
  call_ok s c -> api_step r c RNone r' -> (forall i, ~ most_recent (registered h) fd i) -> r' = r.
Proof.
  intros base h r s fd off c r' M R C K S Nm. destruct (api_run_inv base h r s M R) as (g & A).
  assert (Nl : last_with (a_regs s) fd = None).
  { destruct (last_with (a_regs s) fd) as [i|] eqn:E; [|reflexivity]. exfalso. apply (Nm i). rewrite <- (run_regs _ _ _ _ R).
    now apply last_with_most_recent. }
  assert (F : (0 <= fd)%Z) by (destruct C as [(addr & n & ->)|(l & n & ->)]; cbn [call_ok] in K; destruct K as ((K & _) & _); lia).
  assert (Mi := inv_mapping_idx base r _ _ _ g fd M (ai_mem _ _ _ _ A) (ai_regs _ _ _ _ A) (ai_lim _ _ _ _ A) F). rewrite Nl in Mi.
  destruct C as [(addr & n & ->)|(l & n & ->)]; inversion S; subst.
  - unfold rt_sink_mem in *. rewrite Mi in *. cbn [bind] in *. congruence.
  - unfold rt_sink_label in *. rewrite Mi in *. cbn [bind] in *. congruence.
Qed.

(** When the section is full a record is dropped without any sign of it. *)
Theorem C23_full_section_drops : forall pad m sk offset label i,
  section_ok sk -> send sk < wit sk + 16 -> log_single pad m sk offset label i = (m, sk).
Proof.
  intros pad m sk offset label i K F. unfold log_single, construct.
  change (sink_bytes pad offset label i) with (sink_rec (pad, offset, label, i)). rewrite len_sink_rec.
  assert (X := proj2 (sect_write_none sk 16 K ltac:(unfold two64; lia)) F). rewrite X. reflexivity.
Qed.

(** ** C25: descriptor lookup *)
Theorem C25_most_recent : forall base h r s fd, mapped base shipped -> api_run base h r s -> (0 <= fd)%Z ->
  exists o, mapping_idx (r_mem r) (r_src r) fd = Ok o /\ forall i, o = Some i <-> most_recent (registered h) fd i.
Proof.
  intros base h r s fd M R F. destruct (api_run_inv base h r s M R) as (g & A).
  exists (last_with (a_regs s) fd). split.
  - exact (inv_mapping_idx base r _ _ _ g fd M (ai_mem _ _ _ _ A) (ai_regs _ _ _ _ A) (ai_lim _ _ _ _ A) F).
  - rewrite <- (run_regs _ _ _ _ R). apply last_with_most_recent.
Qed.

(** A read is attributed to that registration: the labels it returns mean bytes of it, at
    the given or current position; a read from another descriptor returns nothing. *)
Theorem C25_reads_attributed : forall base h r s fd addr off n x r',
  mapped base shipped -> api_run base h r s ->
  call_ok s (CReadMem fd addr off n) -> api_step r (CReadMem fd addr off n) (RRange x) r' ->
  match x with
  | Some (f, la) => exists i, most_recent (registered h) fd i /\ la + 1 = f + n /\
      (forall a, a < addr \/ addr + n <= a -> r_shadow r' a = r_shadow r a) /\
      forall k, k < n -> r_shadow r' (addr + k) = f + k /\
        derives (view (r_tab r')) (f + k) (i, position (a_rd s) i off + k) /\
        forall b, derives (view (r_tab r')) (f + k) b -> b = (i, position (a_rd s) i off + k)
  | None => (forall i, ~ most_recent (registered h) fd i) /\ r' = r
  end.
Proof.
  intros base h r s fd addr off n x r' M R K S. destruct (api_run_inv base h r s M R) as (g & A).
  assert (I := reachable_inv _ (ai_tr _ _ _ _ A)).
  inversion S as [| |fd0 addr0 off0 n0 x0 r0 H| | | | | | | | | |]; subst. clear S. cbn [call_ok] in K.
  destruct K as ((K2 & _) & K3). unfold rt_source_mem in H.
  rewrite (inv_mapping_idx base r _ _ _ g fd M (ai_mem _ _ _ _ A) (ai_regs _ _ _ _ A) (ai_lim _ _ _ _ A) ltac:(lia)) in H.
  cbn [bind] in H. rewrite <- (run_regs _ _ _ _ R). destruct (last_with (a_regs s) fd) as [idx|] eqn:E.
  - destruct (read_offset r idx off n) as [[o r1]| | |] eqn:Ro; try discriminate. cbn [bind fst snd] in H.
    destruct (create_source_taint r1 idx addr n o) as [[[f la] r2]| | |] eqn:C; try discriminate. cbn [bind] in H. inversion H; subst x r2. clear H.
    exists idx. split; [now apply last_with_most_recent|].
    destruct (inv_read_offset _ _ _ _ _ _ _ _ _ A (K3 _ E) Ro) as [-> A1].
    assert (T1 : r_tab r1 = r_tab r).
    { unfold read_offset in Ro. destruct off; [inversion Ro; reflexivity|].
      destruct (stream_increase _ _ _) as [q| | |]; try discriminate. cbn [bind] in Ro. inversion Ro. reflexivity. }
    assert (Sh : r_shadow r1 = r_shadow r).
    { unfold read_offset in Ro. destruct off; [inversion Ro; reflexivity|].
      destruct (stream_increase _ _ _) as [q| | |]; try discriminate. cbn [bind] in Ro. inversion Ro. reflexivity. }
    assert (Hi := last_with_bound _ _ _ E). pose proof (ai_lim _ _ _ _ A) as Lm. assert (Hs : idx <= 255) by lia.
    assert (Z : n = 0 \/ 1 <= n) by lia. destruct Z as [->|K1].
    { unfold create_source_taint in C. destruct (new_source_labels r1 idx (position (a_rd s) idx off) 0) as [[[f0 la0] r2]| | |] eqn:C0; try discriminate.
      cbn [bind] in C. inversion C; subst f0 la0 r'. clear C.
      destruct (new_labels_none r1 idx _ f la r2 ltac:(rewrite T1; exact (proj1 I)) C0) as (-> & -> & La).
      split; [lia|]. split; [intros a _; cbn; now rewrite Sh|]. intros k Hk. lia. }
    unfold create_source_taint, new_source_labels in C.
    destruct (create_source_labels (r_tab r1) idx (position (a_rd s) idx off) n) as [[[f0 la0] t']| | |] eqn:Cs; try discriminate. cbn [bind] in C.
    destruct (bm_set_range _ _ _ _) as [b| | |]; try discriminate. cbn [bind] in C. inversion C; subst f0 la0 r'. clear C.
    cbn [set_shadow set_bm set_tab r_tab r_shadow]. rewrite T1 in Cs.
    destruct (create_source_ok _ _ _ _ _ _ _ (proj1 I) Hs K1 (K3 _ E) Cs) as (W' & Hf & Hl & Ln & Et).
    split; [lia|].
    split.
    { intros a Ha. rewrite label_bytes_spec, Sh.
      destruct (N.leb_spec addr a); [|reflexivity]. destruct (N.ltb_spec a (addr + N.of_nat (N.to_nat n))); [lia|reflexivity]. }
    intros k Hk.
    assert (V := create_source_view _ _ _ _ _ _ _ k (proj1 I) Hs K1 (K3 _ E) Cs Hk).
    split; [rewrite label_bytes_spec; destruct (N.leb_spec addr (addr + k)); [|lia]; destruct (N.ltb_spec (addr + k) (addr + N.of_nat (N.to_nat n))); [|lia]; cbn [andb]; lia|].
    split.
    + exists (f + k), false. split; [constructor|exact V].
    + intros b0 (m & cf & Hb & Vm). destruct b0 as [bi bo]. cbn [fst snd] in Vm.
      inversion Hb as [a Ea|a m1 x1 Hc Hb1 Ea]; subst; [congruence|].
      exfalso. inversion Hc; congruence.
  - inversion H; subst. split; [|reflexivity]. intros i Hm. apply last_with_most_recent in Hm. congruence.
Qed.

(** After 255 registrations newer ones are lost: no lookup changes any more. *)
Theorem C25_later_opens_lost : forall base h r s r' fd, mapped base shipped -> api_run base h r s ->
  len (registered h) = 255 -> more_opens r r' ->
  mapping_idx (r_mem r') (r_src r') fd = mapping_idx (r_mem r) (r_src r) fd.
Proof.
  intros base h r s r' fd M R L O. destruct (api_run_inv base h r s M R) as (g & A).
  rewrite <- (run_regs _ _ _ _ R) in L. assert (F := full_after_255 base r s g M A L).
  destruct (more_opens_full r r' F O) as (_ & E & Me). rewrite E. apply mapping_idx_same; [apply F|exact Me].
Qed.

(** ... so that a file opened then is not seen at all, or is taken for an older one: a run
    opens file "a" 255 times on descriptor 3 and then "b" on descriptor 3 or 4. *)
Theorem C25_unlimited_refuted : exists h r s r3 r4, api_run 8192 h r s /\ len (registered h) = 255 /\
  rt_open r 3 [98] None = Ok r3 /\ mapping_idx (r_mem r3) (r_src r3) 3 = Ok (Some 254) /\
  get (registered h) 254 = Some (mkReg [97] (Some 3%Z) None) /\
  rt_open r 4 [98] None = Ok r4 /\ mapping_idx (r_mem r4) (r_src r4) 4 = Ok None.
Proof.
  destruct (demo_run 8192 (repeat (COpen 3 [97] None) 255)
    (fun h r s => match rt_open r 3 [98] None, rt_open r 4 [98] None with
                  | Ok r3, Ok r4 =>
                      match mapping_idx (r_mem r3) (r_src r3) 3, mapping_idx (r_mem r4) (r_src r4) 4 with
                      | Ok (Some i), Ok None => (i =? 254) && (len (registered h) =? 255)
                      | _, _ => false
                      end
                  | _, _ => false
                  end)) as (h & r & s & R & C & T).
  - vm_compute. reflexivity.
  - destruct (rt_open r 3 [98] None) as [r3| | |] eqn:E3; try discriminate. destruct (rt_open r 4 [98] None) as [r4| | |] eqn:E4; try discriminate.
    destruct (mapping_idx (r_mem r3) (r_src r3) 3) as [[i|]| | |] eqn:M3; try discriminate.
    destruct (mapping_idx (r_mem r4) (r_src r4) 4) as [[j|]| | |] eqn:M4; try discriminate.
    apply andb_true_iff in T as [T1 T2]. apply N.eqb_eq in T1, T2. subst i.
    exists h, r, s, r3, r4. repeat (split; [solve [auto]|]). split; [|auto].
    assert (Rg : registered h = repeat (mkReg [97] (Some 3%Z) None) 255).
    { assert (G : forall k (h0 : list (call * ret)), map fst h0 = repeat (COpen 3 [97] None) k -> registered h0 = repeat (mkReg [97] (Some 3%Z) None) k).
      { induction k as [|k IH]; intros [|[c0 x0] h0] E; try discriminate; [reflexivity|]. cbn [map repeat fst] in E. inversion E; subst c0.
        cbn [registered flat_map registration fst app repeat]. f_equal. now apply IH. }
      apply G. exact C. }
    rewrite Rg. vm_compute. reflexivity.
Qed.

(** ** C26: the index of source labels *)
(** The labels listed by the index, read back from the file, are exactly the labels handed
    out by reads, in increasing order; and those are exactly the labels that decode to a
    source taint. *)
Theorem C26_source_index : forall base h r s paths fnames,
  mapped base shipped -> api_run base h r s ->
  are_texts (map reg_name (registered h)) paths -> are_texts (a_names s) fnames ->
  exists d labels, py_open (trace_file base r) = Ok d /\ td_input_labels d = Ok labels /\
    StronglySorted N.lt labels /\
    (forall l, In l labels <-> returned h l) /\
    (forall l, In l labels <-> exists i o cf, td_decode_node d l = Ok (PySource i o cf)).
Proof.
  intros base h r s paths fnames M R T1 T2. rewrite <- (run_regs _ _ _ _ R) in T1.
  destruct (run_opened base h r s paths fnames M R T1 T2) as (g & d & bits & A & E & O).
  exists d, bits. split; [exact E|]. split; [exact (op_labels _ _ _ _ _ _ _ O)|]. split; [exact (op_sorted _ _ _ _ _ _ _ O)|].
  split; intros l; rewrite (op_bits _ _ _ _ _ _ _ O).
  - apply (run_sources base h r s M R).
  - split.
    + intros (cf & i & o & V). exists i, o, cf. exact (op_dec _ _ _ _ _ _ _ O l _ V).
    + intros (i & o & cf & D). destruct (decode_view base r s g d paths fnames bits l _ A O D) as [[-> ?]|(tn & V & En)]; [discriminate|].
      destruct tn; cbn in En; try discriminate. eauto.
Qed.

(** ** C29: crashes in a history *)
(** Whatever happened so far, if the process dies before the orderly shutdown the file
    opens and every section is seen as empty; also if the crash leaves a mixture of the
    bytes of two states, such as those before and after a call. *)
Theorem C29_crash_in_history : forall base h r s h' r' s' m,
  mapped base shipped -> api_run base h r s -> api_run base h' r' s' -> torn (image r) (image r') m ->
  py_open (file_of base shipped m) =
  Ok (mkTd [(1, []); (2, []); (3, []); (4, []); (5, []); (6, []); (7, []); (8, [])] [] []).
Proof.
  intros base h r s h' r' s' m M R R' T. apply C29_crash_while_running; [exact M|]. intros a Ha.
  destruct (api_run_inv base h r s M R) as (g & A). destruct (api_run_inv base h' r' s' M R') as (g' & A').
  assert (O := image_only base r s g M A a Ha). assert (O' := image_only base r' s' g' M A' a Ha). destruct (T a); congruence.
Qed.

(** ** C30: end to end *)
(** For every run and shutdown: the file opens, the mapping terminates, and it contains a
    pair of input byte and output byte exactly when the output byte was derived from the
    input byte. *)
Theorem C30_end_to_end : forall base h r s paths fnames,
  mapped base shipped -> api_run base h r s ->
  are_texts (map reg_name (registered h)) paths -> are_texts (a_names s) fnames ->
  exists d fuel0 m, py_open (trace_file base r) = Ok d /\
    (forall fuel, (fuel0 <= fuel)%nat -> py_mapping fuel d = Ok m) /\
    forall np no sp so, In ((np, no), (sp, so)) m <-> depends s paths np no sp so.
Proof.
  intros base h r s paths fnames M R T1 T2. rewrite <- (run_regs _ _ _ _ R) in T1.
  destruct (run_opened base h r s paths fnames M R T1 T2) as (g & d & bits & A & E & O).
  destruct (run_mapping base r s g d paths fnames bits A O T1) as (F & m & X & Y). exists d, F, m. auto.
Qed.

(** The path shown for an input or output consists of the pieces of its recorded name that name
    something, in their order, and it is absolute exactly if the name starts with a slash. *)
Theorem C30_path : forall ps, ps <> [] -> Forall (fun p => ~ In 47 p) ps ->
  let '(root, l) := py_path_of (joined_by 47 ps) in
  kept ps l /\ (root = [] <-> nth 0 (joined_by 47 ps) 0 <> 47) /\
  (root = [47; 47] <-> exists rest, joined_by 47 ps = 47 :: 47 :: rest /\ nth 0 rest 0 <> 47) /\
  (root = [] \/ root = [47] \/ root = [47; 47]).
Proof.
  intros ps Ne F. unfold py_path_of. rewrite split_joined by assumption. split; [|split; [|split]].
  - clear. induction ps as [|p ps IH]; [constructor|]. cbn [filter]. destruct (useful p) eqn:U.
    + constructor; [now apply useful_iff|exact IH].
    + constructor; [|exact IH]. intros H. apply useful_iff in H. congruence.
  - generalize (joined_by 47 ps). intros s. unfold py_root, slash. destruct s as [|a [|b [|c s]]]; cbn [nth].
    + split; [discriminate|reflexivity].
    + destruct (N.eqb_spec a 47); split; congruence.
    + destruct (N.eqb_spec a 47); [destruct (b =? 47)|]; split; congruence.
    + destruct (N.eqb_spec a 47); [destruct ((b =? 47) && negb (c =? 47))|]; split; congruence.
  - generalize (joined_by 47 ps). intros s. unfold py_root, slash. destruct s as [|a [|b [|c s]]].
    + split; [discriminate|intros (r & H & _); discriminate].
    + destruct (a =? 47); (split; [discriminate|intros (r & H & _); discriminate]).
    + destruct (N.eqb_spec a 47) as [->|Na]; [|split; [discriminate|intros (r & H & _); congruence]].
      destruct (N.eqb_spec b 47) as [->|Nb]; (split; [|intros (r & H & _); congruence]); try discriminate.
      intros _. exists []. split; [reflexivity|discriminate].
    + destruct (N.eqb_spec a 47) as [->|Na]; [|split; [discriminate|intros (r & H & _); congruence]].
      destruct (N.eqb_spec b 47) as [->|Nb]; cbn [andb]; [|split; [discriminate|intros (r & H & _); congruence]].
      destruct (N.eqb_spec c 47) as [->|Nc]; cbn [negb].
      * split; [discriminate|]. intros (r & H & Hr). injection H as <-. cbn in Hr. congruence.
      * split; [|reflexivity]. intros _. exists (c :: s). split; [reflexivity|exact Nc].
  - generalize (joined_by 47 ps). intros s. unfold py_root, slash. destruct s as [|a [|b [|c s]]]; auto.
    + destruct (a =? 47); auto.
    + destruct (a =? 47); [destruct (b =? 47)|]; auto.
    + destruct (a =? 47); [destruct ((b =? 47) && negb (c =? 47))|]; auto.
Qed.
Print Assumptions C30_path.
Example C30_path_case : py_path_of [46; 47; 97; 47; 47; 98; 46; 116; 47] = ([], [[97]; [98; 46; 116]]) /\
  py_path_of [47; 46; 46; 47; 97] = ([47], [[46; 46]; [97]]).
Proof. split; reflexivity. Qed.

(** ** A concrete run *)
(** Two inputs and one output: bytes are read, combined, marked and written. *)
Definition demo_calls : list call :=
  [COpen 3 [97; 46; 116] (Some 10); CReadMem 3 1000 None 4; COpen 4 [47; 98] None; CReadVal 4 (Some 7) 2;
   CUnion 1 2; CUnion 7 5; CSet 1001 8; CNamed [99] 2000 1; CAffects 7;
   COpen 5 [111] None; CWriteMem 5 None 998 6; CWriteVal 5 None 8 2; CFnEntry [109]; CLog (CfTainted 1 8); CFnExit 0; CClose 3].

Definition demo_check (h : list (call * ret)) (r : rt) (s : ast) : bool :=
  match py_open (trace_file 8192 r) with
  | Ok d =>
      match td_sinks d, td_input_labels d, py_mapping 100 d with
      | Ok sinks, Ok labels, Ok m =>
          (len sinks =? 6) && (len labels =? 7) && (len (a_out s) =? 6) && (len m =? 12) && (len (registered h) =? 4)
      | _, _, _ => false
      end
  | _ => false
  end.

Example C30_case : mapped 8192 shipped /\ exists h r s,
  api_run 8192 h r s /\ map fst h = demo_calls /\ demo_check h r s = true /\
  are_texts (map reg_name (registered h)) [[97; 46; 116]; [47; 98]; [99]; [111]] /\ are_texts (a_names s) [[109]].
Proof.
  split; [split; vm_compute; reflexivity|].
  destruct (demo_run 8192 demo_calls (fun h r s => demo_check h r s &&
     list_eqb (list_eqb N.eqb) (map reg_name (registered h)) [[97; 46; 116]; [47; 98]; [99]; [111]] &&
     list_eqb (list_eqb N.eqb) (a_names s) [[109]])) as (h & r & s & R & C & T).
  - vm_compute. reflexivity.
  - exists h, r, s. apply andb_true_iff in T as [T T2]. apply andb_true_iff in T as [T T1].
    apply names_eqb_eq in T1, T2. rewrite T1, T2. repeat (split; [assumption|]).
    split; repeat (apply Forall2_cons || apply Forall2_nil); (split; [repeat (apply Forall_cons || apply Forall_nil); unfold scalar; lia|reflexivity]).
Qed.

(** The hypotheses of C23_write_memory: the last call of a run is a write of six bytes of
    which four are tainted. *)
Example C23_case : exists h r s r' i, api_run 8192 h r s /\
  call_ok s (CWriteMem 5 None 998 6) /\ api_step r (CWriteMem 5 None 998 6) RNone r' /\
  within_limits (astep s (CWriteMem 5 None 998 6) RNone) /\ most_recent (registered h) 5 i /\
  logged (r_shadow r) i 998 0 6 = [mkSink 2 1 3; mkSink 3 8 3; mkSink 4 3 3; mkSink 5 4 3].
Proof.
  destruct (demo_run 8192 (firstn 11 demo_calls) (fun h r s =>
     match last_with (registered h) 5, logged (r_shadow r) 3 998 0 6 with
     | Some 3, [mkSink 2 1 3; mkSink 3 8 3; mkSink 4 3 3; mkSink 5 4 3] => true
     | _, _ => false end)) as (h & r & s & R & C & T).
  - vm_compute. reflexivity.
  - destruct (run_last _ _ _ _ (firstn 10 demo_calls) (CWriteMem 5 None 998 6) R C) as (h0 & r0 & s0 & x & Eh & R0 & C0 & K & S & _ & L & _).
    assert (Hx : x = RNone) by (inversion S; reflexivity). subst x h.
    assert (Rg : registered (h0 ++ [(CWriteMem 5 None 998 6, RNone)]) = registered h0).
    { unfold registered. rewrite flat_map_app. cbn. now rewrite app_nil_r. }
    rewrite Rg in T. assert (Sh : r_shadow r = r_shadow r0).
    { inversion S; subst. eapply sink_mem_shadow; eauto. }
    rewrite Sh in T. exists h0, r0, s0, r, 3. repeat (split; [assumption|]).
    destruct (last_with (registered h0) 5) as [q|] eqn:Lq; [|discriminate].
    assert (q = 3) by (repeat match type of T with (match ?z with _ => _ end) = true => destruct z; try discriminate T; try reflexivity end). subst q.
    split; [now apply last_with_most_recent|].
    destruct (logged (r_shadow r0) 3 998 0 6) as [|[o1 l1 f1] [|[o2 l2 f2] [|[o3 l3 f3] [|[o4 l4 f4] [|]]]]]; try discriminate T;
    repeat match type of T with (match ?z with _ => _ end) = true => destruct z; try discriminate T; try reflexivity end.
Qed.

Print Assumptions C23_sink_log.
Print Assumptions C23_write_memory.
Print Assumptions C23_write_value.
Print Assumptions C23_unopened.
Print Assumptions C23_full_section_drops.
Print Assumptions C25_most_recent.
Print Assumptions C25_reads_attributed.
Print Assumptions C25_later_opens_lost.
Print Assumptions C25_unlimited_refuted.
Print Assumptions C26_source_index.
Print Assumptions C29_crash_in_history.
Print Assumptions C30_end_to_end.
