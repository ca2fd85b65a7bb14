(** Process runs against runs of the API. *)
From Coq Require Import NArith ZArith List Bool Lia.
From Verif Require Import M_Base M_Memory M_Encoding M_Labels M_Bitmap M_Section M_StringTable M_Sources M_Functions M_CfLog M_OutputFile
  M_Dfsan M_PySections M_Api M_Runtime
  S_Section S_Provenance S_Labels S_Strings S_Functions S_CallStack S_OutputFile S_Bitmap S_Dfsan S_Api S_History S_Runtime
  P_Base P_Labels P_History P_Bitmap P_ApiMem P_Api P_ApiRun P_Runtime P_Argv.
Import ListNotations.
Open Scope N_scope.

(** ** States that are alike *)
Lemma limits_alike s s' : alike s s' -> within_limits s -> within_limits s'.
Proof.
  intros [] L. unfold within_limits, strings_of in *. rewrite <- al_regs, <- al_names.
  replace (len (a_out s')) with (len (a_out s)); [exact L|]. unfold len. f_equal. exact (Forall2_len _ _ _ al_out).
Qed.
Lemma fd_alike s s' fd : alike s s' -> fd_ok s fd -> fd_ok s' fd.
Proof. intros [] F. unfold fd_ok in *. now rewrite <- al_open, <- al_regs. Qed.
Lemma rd_alike s s' fd off n : alike s s' -> transfer_ok s (a_rd s) fd off n -> transfer_ok s' (a_rd s') fd off n.
Proof.
  intros [] T i E. rewrite <- al_regs in E. specialize (T i E). unfold position in *. destruct off; [exact T|]. now rewrite <- al_rd.
Qed.
Lemma wr_alike s s' fd off n : alike s s' -> transfer_ok s (a_wr s) fd off n -> transfer_ok s' (a_wr s') fd off n.
Proof.
  intros [] T i E. rewrite <- al_regs in E. specialize (T i E). unfold position in *. destruct off; [exact T|]. now rewrite <- al_wr.
Qed.
Lemma advance_alike (f g : N -> N) i off n : (forall k, f k = g k) -> forall k, advance f i off n k = advance g i off n k.
Proof. intros H k. unfold advance. destruct off; [apply H|]. destruct (k =? i); now rewrite H. Qed.
Lemma position_alike (f g : N -> N) i off : (forall k, f k = g k) -> position f i off = position g i off.
Proof. intros H. unfold position. destruct off; auto. Qed.

Ltac flds := cbn [with_mem with_lab with_reg with_rd with_out a_regs a_open a_rd a_wr a_mem a_out a_cf a_names a_events] in *.

Lemma alike_labels s s' lab : alike s s' -> alike s (with_lab s' lab).
Proof. intros []. constructor; flds; auto. Qed.

Lemma alike_mem s s' m m' : alike s s' -> (forall a, same (m a) (m' a)) -> alike (with_mem s m) (with_mem s' m').
Proof. intros [] H. constructor; flds; auto. Qed.

(** ** Labels of memory *)
Lemma shadow_known base r s g a : api_inv base r s g -> r_shadow r a = 0 \/ S_Api.known s (r_shadow r a).
Proof. intros A. destruct (ai_mm _ _ _ _ A a) as [[E _]|[U _]]; [now left|]. right. now apply (ai_lab _ _ _ _ A). Qed.

Lemma lab_of_zero base r s g : api_inv base r s g -> a_lab s 0 = [].
Proof. intros A. apply (lab_zero _ _ 0 (ai_lab _ _ _ _ A)). intros [U _]. lia. Qed.

Lemma shadow_same base r s g a : api_inv base r s g -> same (a_mem s a) (a_lab s (r_shadow r a)).
Proof.
  intros A. destruct (ai_mm _ _ _ _ A a) as [[E1 E2]|[U H]]; [|exact H]. rewrite E1, E2, (lab_of_zero _ _ _ _ A). apply same_refl.
Qed.

(** ** Labels keep their meaning *)
Lemma read_offset_tab r i off n o r1 : read_offset r i off n = Ok (o, r1) -> r_tab r1 = r_tab r.
Proof.
  unfold read_offset. destruct off as [k|]; [intros E; injection E as _ <-; reflexivity|].
  destruct (stream_increase (r_rd r) i n) as [q| | |]; cbn [bind]; try discriminate. intros E. injection E as _ <-. reflexivity.
Qed.
Lemma create_taint_first r i addr n o f la r' : create_source_taint r i addr n o = Ok (f, la, r') -> f = len (r_tab r).
Proof.
  unfold create_source_taint, new_source_labels. intros E.
  destruct (create_source_labels (r_tab r) i o n) as [[[f0 la0] t]| | |] eqn:C; try discriminate. cbn [bind] in E.
  destruct (bm_set_range _ _ _ _) as [b| | |]; try discriminate. cbn [bind] in E. injection E as -> _ _.
  unfold create_source_labels in C. destruct (_ <=? _); [|discriminate]. destruct (_ <? _); [|discriminate]. injection C as <- _ _. reflexivity.
Qed.
(** The plain state is determined by the history. *)
Definition replay (h : list (call * ret)) : ast := fold_left (fun s c => astep s (fst c) (snd c)) h a_init.
Lemma run_replay base h r s : api_run base h r s -> s = replay h.
Proof. induction 1; [reflexivity|]. unfold replay. rewrite fold_left_app. cbn [fold_left fst snd]. now rewrite IHapi_run. Qed.
Lemma quiet_log s c x : match c with CLog _ => False | _ => True end -> a_log (astep s c x) = a_log s.
Proof.
  intros Q. destruct c; cbn [astep] in *; try reflexivity; try contradiction; destruct x as [|[[f la]|]| |]; try reflexivity;
    destruct (last_with _ _); reflexivity.
Qed.

Lemma step_keeps base h r s c x r' l : mapped base shipped -> api_run base h r s -> call_ok s c -> api_step r c x r' ->
  ret_ok x -> within_limits (astep s c x) -> S_Api.known s l -> same (a_lab s l) (a_lab (astep s c x) l).
Proof.
  intros M R K St Rk L Kl. destruct (api_run_inv base h r s M R) as (g & A).
  assert (Ul : in_use (r_tab r) l) by now apply (ai_lab _ _ _ _ A).
  assert (New : forall f i o n, f = len (r_tab r) -> same (a_lab s l) (add_labels (a_lab s) f i o n l)).
  { intros f i o n ->. unfold add_labels. destruct Ul. destruct (N.leb_spec (len (r_tab r)) l); [lia|]. apply same_refl. }
  destruct St; cbn [astep]; try apply same_refl.
  - destruct K as (K1 & K2). destruct x as [[f la]|]; [|apply same_refl]. destruct (last_with (a_regs s) fd) as [i|] eqn:El; [|apply same_refl].
    cbv zeta. cbn [with_mem with_lab with_reg with_rd a_lab]. apply New. unfold rt_source_mem in H. rewrite (mapping_of base r s g fd M A ltac:(destruct K1; lia)), El in H. cbn [bind] in H.
    destruct (read_offset r i off n) as [[o r1]| | |] eqn:Ro; try discriminate. cbn [bind fst snd] in H.
    destruct (create_source_taint r1 i addr n o) as [[[f0 la0] r2]| | |] eqn:C; try discriminate. cbn [bind] in H. injection H as -> -> _.
    destruct (inv_read_offset _ _ _ _ _ _ _ _ _ A (K2 _ El) Ro) as [-> A1].
    destruct (create_taint_tab base r1 _ g i addr _ n f la r2 M A1 (last_with_bound _ _ _ El) (K2 _ El) C) as (T1 & _).
    rewrite T1. apply read_offset_tab in Ro. now rewrite Ro.
  - destruct K as (K1 & K2). destruct x as [[f la]|]; [|apply same_refl]. destruct (last_with (a_regs s) fd) as [i|] eqn:El; [|apply same_refl].
    cbv zeta. cbn [with_mem with_lab with_reg with_rd a_lab]. apply New. unfold rt_source_range in H. rewrite (mapping_of base r s g fd M A ltac:(destruct K1; lia)), El in H. cbn [bind] in H.
    destruct (read_offset r i off n) as [[o r1]| | |] eqn:Ro; try discriminate. cbn [bind fst snd] in H.
    destruct (new_source_labels r1 i o n) as [[[f0 la0] r2]| | |] eqn:C; try discriminate. cbn [bind] in H. injection H as -> -> _.
    destruct (inv_read_offset _ _ _ _ _ _ _ _ _ A (K2 _ El) Ro) as [-> A1].
    destruct (new_labels_tab base r1 _ g i _ n f la r2 M A1 (last_with_bound _ _ _ El) (K2 _ El) C) as (T1 & _).
    rewrite T1. apply read_offset_tab in Ro. now rewrite Ro.
  - cbv zeta. destruct x as [[f la]|]; [|apply same_refl]. cbn [with_mem with_lab with_reg with_rd a_lab]. apply New.
    destruct K as (K1 & K2). unfold rt_named in H.
    destruct (add_source _ _ _ _ _ _) as [[[[o m] st] src]| | |]; try discriminate. cbn [bind] in H. destruct o as [idx|]; [|discriminate].
    destruct (create_source_taint (set_files r m src st) idx addr n 0) as [[[f0 la0] r2]| | |] eqn:C; try discriminate. cbn [bind] in H. injection H as -> -> _.
    now apply create_taint_first in C.
  - destruct K as [K1 K2]. unfold rt_union in H. destruct (union_taint (r_tab r) l1 l2) as [[x0 t']| | |] eqn:C; try discriminate. cbn [bind fst snd] in H.
    injection H as -> _. apply (ai_lab _ _ _ _ A) in K1, K2.
    destruct (lab_union _ _ _ _ _ _ (reachable_inv _ (ai_tr _ _ _ _ A)) (ai_lab _ _ _ _ A) K1 K2 C) as [_ Old].
    cbn [with_mem with_lab with_reg with_rd a_lab]. intros b. symmetry. apply (proj2 (Old l Ul)).
  - destruct (last_with _ _); apply same_refl.
  - destruct (last_with _ _); apply same_refl.
Qed.

(** ** Steps *)
(** Calls that log nothing in the control-flow log. *)
Definition quiet (h : list (call * ret)) : Prop := Forall (fun c => match fst c with CLog _ => False | _ => True end) h.
(** The run [h] can be continued by such calls to [r], which means [s]. *)
Definition leads (base : N) (h : list (call * ret)) (r : rt) (s : ast) : Prop :=
  exists h' s2, quiet h' /\ api_run base (h ++ h') r s2 /\ alike s s2.

Lemma leads_call base h r s1 s' c x r' : api_run base h r s' -> alike s1 (astep s' c x) -> match c with CLog _ => False | _ => True end ->
  call_ok s' c -> api_step r c x r' -> ret_ok x -> within_limits (astep s' c x) -> leads base h r' s1.
Proof.
  intros R Al Q K St Rk L. exists [(c, x)], (astep s' c x). split; [constructor; [exact Q|constructor]|]. split; [|exact Al].
  now apply ar_call with r.
Qed.
Lemma leads_more base h c x r s : match c with CLog _ => False | _ => True end -> leads base (h ++ [(c, x)]) r s -> leads base h r s.
Proof.
  intros Q (h' & s2 & Qt & R & Al). exists ((c, x) :: h'), s2. rewrite <- app_assoc in R. split; [constructor; assumption|]. split; assumption.
Qed.

Lemma quiet_keeps base h r s h' r2 s2 : mapped base shipped -> api_run base h r s -> quiet h' -> api_run base (h ++ h') r2 s2 ->
  a_log s2 = a_log s /\ forall l, S_Api.known s l -> S_Api.known s2 l /\ same (a_lab s l) (a_lab s2 l).
Proof.
  intros M R. revert r2 s2. induction h' as [|[c x] h' IH] using rev_ind; intros r2 s2 Q R2.
  - rewrite app_nil_r in R2. assert (s2 = s) as -> by (rewrite (run_replay _ _ _ _ R2), (run_replay _ _ _ _ R); reflexivity).
    split; [reflexivity|]. auto using same_refl.
  - apply Forall_app in Q as [Q1 Q2]. inversion Q2 as [|y z Q3 _]; subst. cbn [fst] in Q3.
    rewrite app_assoc in R2. remember ((h ++ h') ++ [(c, x)]) as hh eqn:Eh.
    destruct R2 as [r0 E0|h0 r0 s0 c0 x0 r' R0 K0 S0 X0 L0]; [now apply app_cons_not_nil in Eh|].
    apply app_inj_tail in Eh as [-> Eh]. injection Eh as -> ->.
    destruct (IH _ _ Q1 R0) as [I1 I2]. split.
    + rewrite <- I1. apply (quiet_log s0 c x Q3).
    + intros l Kl. destruct (I2 l Kl) as [K1 S1]. assert (S2 := step_keeps base _ _ _ _ _ _ l M R0 K0 S0 X0 L0 K1).
      assert (S3 : same (a_lab s l) (a_lab (astep s0 c x) l)) by (intros b; rewrite (S1 b); apply S2).
      split; [|exact S3]. unfold S_Api.known in *. destruct (a_lab s l) as [|b bs]; [now elim Kl|].
      intros Z. apply (in_nil (a := b)). rewrite <- Z. apply S3. now left.
Qed.

(** ** Events *)
(** An entry of the control-flow log against what it should say. *)
Definition entry_for (s : ast) (f : flow) (e : cf_event) : Prop :=
  match f, e with
  | FEnter f, CfEnter f' => f = f'
  | FLeave f, CfLeave f' => f = f'
  | FTainted f bs, CfTainted l f' => f = f' /\ S_Api.known s l /\ same bs (a_lab s l)
  | _, _ => False
  end.

(** [sim]: the process is up, and its state is that of a run of the API with the same plain
    meaning. *)
Definition sim (base : N) (argv : bool) (fl : list flow) (p : proc) (s : ast) : Prop :=
  p_flag p = true /\ p_argv p = argv /\ within_limits s /\
  exists h r s', p_tdag p = Live r /\ api_run base h r s' /\ alike s s' /\ Forall2 (entry_for s') fl (a_log s').

Lemma step_open base h r s s' fd path size r' :
  api_run base h r s' -> alike s s' -> (0 <= fd < 2 ^ 31)%Z -> name_ok path -> (forall n, size = Some n -> n < 2 ^ 64 - 1) ->
  rt_open r fd path size = Ok r' -> within_limits (with_reg s (mkReg path (Some fd) size) (fd :: a_open s)) ->
  leads base h r' (with_reg s (mkReg path (Some fd) size) (fd :: a_open s)).
Proof.
  intros R Al F Nk Sz E L.
  assert (Al2 : alike (with_reg s (mkReg path (Some fd) size) (fd :: a_open s)) (astep s' (COpen fd path size) RNone)).
  { cbn [astep]. destruct Al. constructor; flds; auto; congruence. }
  refine (leads_call _ _ _ _ _ _ _ _ R Al2 I _ _ _ _); [exact (conj F (conj Nk Sz))|constructor; exact E|exact I|].
  exact (limits_alike _ _ Al2 L).
Qed.

Lemma step_read base h r s s' fd addr off n x r' : mapped base shipped ->
  api_run base h r s' -> alike s s' -> fd_ok s fd -> transfer_ok s (a_rd s) fd off n ->
  rt_source_mem r fd addr off n = Ok (x, r') -> room r' 0 -> within_limits (p_read s fd addr off n) ->
  leads base h r' (p_read s fd addr off n).
Proof.
  intros M R Al F T E Rm L. destruct (api_run_inv base h r s' M R) as (g & A).
  assert (F' := fd_alike _ _ _ Al F). assert (T' := rd_alike _ _ _ _ _ Al T).
  assert (E0 := E). unfold rt_source_mem in E. rewrite (mapping_of base r s' g fd M A ltac:(destruct F'; lia)) in E. cbn [bind] in E.
  assert (S : api_step r (CReadMem fd addr off n) (RRange x) r') by (constructor; exact E0).
  assert (Lw : last_with (a_regs s) fd = last_with (a_regs s') fd) by (now rewrite (al_regs _ _ Al)).
  assert (Rk : ret_ok (RRange x)).
  { destruct (last_with (a_regs s') fd) as [idx|] eqn:El; [|inversion E; exact I].
    destruct (read_offset r idx off n) as [[o r1]| | |] eqn:Ro; try discriminate. cbn [bind fst snd] in E.
    destruct (create_source_taint r1 idx addr n o) as [[[f la] r2]| | |] eqn:C; try discriminate. cbn [bind] in E. inversion E; subst x r2.
    destruct (inv_read_offset _ _ _ _ _ _ _ _ _ A (T' _ El) Ro) as [-> A1].
    destruct (create_taint_tab base r1 _ g idx addr _ n f la r' M A1 (last_with_bound _ _ _ El) (T' _ El) C) as (T1 & T2 & T3 & _).
    cbn [ret_ok]. unfold room in Rm. change (2 ^ 31 - 64) with 2147483584 in *. lia. }
  assert (Al2 : alike (p_read s fd addr off n) (astep s' (CReadMem fd addr off n) (RRange x))).
  { unfold p_read. rewrite Lw. cbn [astep]. destruct (last_with (a_regs s') fd) as [idx|] eqn:El.
    - destruct (read_offset r idx off n) as [[o r1]| | |]; try discriminate. cbn [bind fst snd] in E.
      destruct (create_source_taint r1 idx addr n o) as [[[f la] r2]| | |]; try discriminate. cbn [bind] in E. inversion E; subst x r2.
      cbv zeta. destruct Al. rewrite (position_alike _ _ idx off al_rd). constructor; flds; auto.
      + intros k. now apply advance_alike.
      + intros a. unfold add_bytes. destruct (_ && _); auto using same_refl.
    - inversion E; subst x. exact Al. }
  refine (leads_call _ _ _ _ _ _ _ _ R Al2 I _ _ _ _); [exact (conj F' T')|exact S|exact Rk|]. exact (limits_alike _ _ Al2 L).
Qed.

Lemma step_set base h r s s' dst l bs : mapped base shipped ->
  api_run base h r s' -> alike s s' -> l = 0 \/ S_Api.known s' l -> same bs (a_lab s' l) -> within_limits s ->
  leads base h (rt_set_label r dst l) (p_set s dst bs).
Proof.
  intros M R Al K Sm L.
  assert (Al2 : alike (p_set s dst bs) (astep s' (CSet dst l) RNone)).
  { unfold p_set. cbn [astep]. apply alike_mem; [exact Al|]. intros a. destruct (a =? dst); [exact Sm|]. apply (al_mem _ _ Al). }
  refine (leads_call _ _ _ _ _ _ _ _ R Al2 I _ _ _ _); [exact K|constructor|exact I|].
  apply (limits_alike _ _ Al2). exact L.
Qed.

Lemma step_clear base n : mapped base shipped -> forall h r s s' addr, api_run base h r s' -> alike s s' -> within_limits s ->
  leads base h (clear_bytes r addr n) (with_mem s (fun a => if (addr <=? a) && (a <? addr + N.of_nat n) then [] else a_mem s a)).
Proof.
  intros M. induction n as [|n IH]; intros h r s s' addr R Al L; cbn [clear_bytes].
  - exists [], s'. split; [constructor|]. split; [rewrite app_nil_r; exact R|]. apply alike_trans with s; [|exact Al]. destruct s. constructor; flds; auto using same_refl.
    + intros a. destruct (N.leb_spec addr a), (N.ltb_spec a (addr + N.of_nat 0)); cbn [andb]; try apply same_refl. lia.
    + apply Forall2_self. auto using same_refl.
  - destruct (api_run_inv base h r s' M R) as (g & A).
    destruct (step_set base h r s s' addr 0 [] M R Al ltac:(auto)) as (h1 & s1 & Q1 & R1 & Al1);
      [rewrite (lab_of_zero _ _ _ _ A); apply same_refl|exact L|].
    destruct (IH (h ++ h1) _ _ s1 (addr + 1) R1 Al1 L) as (h2 & s2 & Q2 & R2 & Al2). exists (h1 ++ h2), s2.
    split; [apply Forall_app; auto|]. split; [rewrite app_assoc; exact R2|].
    apply alike_trans with (2 := Al2). unfold p_set. constructor; flds; auto using same_refl; [|apply Forall2_self; auto using same_refl].
    intros a. rewrite Nnat.Nat2N.inj_succ.
    destruct (N.leb_spec addr a), (N.leb_spec (addr + 1) a), (N.ltb_spec a (addr + N.succ (N.of_nat n))), (N.ltb_spec a (addr + 1 + N.of_nat n)), (N.eqb_spec a addr);
      cbn [andb]; try apply same_refl; lia.
Qed.

Lemma leads_after base h h1 r s : quiet h1 -> leads base (h ++ h1) r s -> leads base h r s.
Proof.
  intros Q (h2 & s2 & Q2 & R2 & Al2). exists (h1 ++ h2), s2. split; [apply Forall_app; auto|]. split; [rewrite app_assoc; exact R2|exact Al2].
Qed.
Lemma fresh_twice s addr n k : k <= n ->
  alike (p_fresh s addr n) (with_mem (p_fresh s addr n) (fun a => if (addr <=? a) && (a <? addr + k) then [] else a_mem (p_fresh s addr n) a)).
Proof.
  intros L. unfold p_fresh. constructor; flds; auto using same_refl; [|apply Forall2_self; auto using same_refl].
  intros a. destruct (N.leb_spec addr a), (N.ltb_spec a (addr + k)), (N.ltb_spec a (addr + n)); cbn [andb]; try apply same_refl. lia.
Qed.

Lemma outputs_alike i o vals vals' : Forall2 same vals vals' ->
  Forall2 (fun x y => fst x = fst y /\ same (snd x) (snd y)) (outputs i o vals) (outputs i o vals').
Proof.
  intros F. revert o. induction F as [|v v' vals vals' H F IH]; intros o; [constructor|]. rewrite !outputs_cons.
  apply Forall2_app; [|apply IH]. destruct v as [|b v], v' as [|b' v'].
  - constructor.
  - destruct (proj2 (H b') (or_introl eq_refl)).
  - destruct (proj1 (H b) (or_introl eq_refl)).
  - constructor; [|constructor]. split; [reflexivity|exact H].
Qed.

Lemma write_alike s s' fd off vals vals' n : alike s s' -> Forall2 same vals vals' -> len vals = n ->
  alike (p_write s fd off vals)
    match last_with (a_regs s') fd with
    | Some i => with_out s' (advance (a_wr s') i off n) (outputs i (position (a_wr s') i off) vals')
    | None => s'
    end.
Proof.
  intros Al F Ln. unfold p_write. rewrite (al_regs _ _ Al). destruct (last_with (a_regs s') fd) as [i|]; [|exact Al].
  destruct Al. rewrite Ln, (position_alike _ _ i off al_wr). constructor; flds; auto.
  - intros k. now apply advance_alike.
  - apply Forall2_app; [exact al_out|]. now apply outputs_alike.
Qed.

Lemma Forall2_map2 {A B} (P : B -> B -> Prop) (f f' : A -> B) l : (forall a, P (f a) (f' a)) -> Forall2 P (map f l) (map f' l).
Proof. intros H. induction l; constructor; auto. Qed.

Lemma bytes_at_len s addr n : len (bytes_at s addr n) = n.
Proof. unfold bytes_at, len. rewrite map_length, nseq_length. apply Nnat.N2Nat.id. Qed.

Lemma step_write base h r s s' pad fd off addr n r' : mapped base shipped ->
  api_run base h r s' -> alike s s' -> (forall i, is_bytes (pad i)) -> fd_ok s fd -> transfer_ok s (a_wr s) fd off n ->
  rt_sink_mem pad r fd off addr n = Ok r' -> within_limits (p_write s fd off (bytes_at s addr n)) ->
  leads base h r' (p_write s fd off (bytes_at s addr n)).
Proof.
  intros M R Al Pb F T E L.
  assert (Al2 : alike (p_write s fd off (bytes_at s addr n)) (astep s' (CWriteMem fd off addr n) RNone)).
  { cbn [astep]. apply write_alike; [exact Al| |apply bytes_at_len]. apply Forall2_map2. apply (al_mem _ _ Al). }
  refine (leads_call _ _ _ _ _ _ _ _ R Al2 I _ _ _ _); [exact (conj (fd_alike _ _ _ Al F) (wr_alike _ _ _ _ _ Al T))|apply as_write_mem with pad; assumption|exact I|].
  exact (limits_alike _ _ Al2 L).
Qed.

Lemma step_putc base h r s s' pad fd off src r' : mapped base shipped ->
  api_run base h r s' -> alike s s' -> (forall i, is_bytes (pad i)) -> fd_ok s fd -> transfer_ok s (a_wr s) fd off 1 ->
  rt_sink_label pad r fd off (r_shadow r src) 1 = Ok r' -> within_limits (p_write s fd off (bytes_at s src 1)) ->
  leads base h r' (p_write s fd off (bytes_at s src 1)).
Proof.
  intros M R Al Pb F T E L. destruct (api_run_inv base h r s' M R) as (g & A).
  assert (Al2 : alike (p_write s fd off (bytes_at s src 1)) (astep s' (CWriteVal fd off (r_shadow r src) 1) RNone)).
  { cbn [astep]. apply write_alike; [exact Al| |apply bytes_at_len].
    change (N.to_nat 1) with 1%nat. unfold bytes_at. cbn [N.to_nat Pos.to_nat Pos.iter_op Nat.add nseq map repeat].
    constructor; [|constructor]. intros b. rewrite (al_mem _ _ Al src b). apply (shadow_same _ _ _ _ src A). }
  refine (leads_call _ _ _ _ _ _ _ _ R Al2 I _ _ _ _); [ |apply as_write_val with pad; assumption|exact I|exact (limits_alike _ _ Al2 L)].
  exact (conj (fd_alike _ _ _ Al F) (conj (wr_alike _ _ _ _ _ Al T) (shadow_known _ _ _ _ src A))).
Qed.

Lemma step_branch base h r s s' fuel junk a r' : mapped base shipped ->
  api_run base h r s' -> alike s s' -> 0 < r_shadow r a -> rt_affects fuel junk r (r_shadow r a) = Ok r' ->
  within_limits (estep false s (EBranch a)) ->
  leads base h r' (estep false s (EBranch a)).
Proof.
  intros M R Al P E L. destruct (api_run_inv base h r s' M R) as (g & A).
  assert (Al2 : alike (estep false s (EBranch a)) (astep s' (CAffects (r_shadow r a)) RNone)).
  { cbn [estep astep]. assert (Q := shadow_same _ _ _ _ a A). destruct Al. constructor; flds; auto.
    intros b. rewrite !in_app_iff. rewrite (al_cf b), (al_mem a b), (Q b). tauto. }
  refine (leads_call _ _ _ _ _ _ _ _ R Al2 I _ _ _ _); [ |apply as_affects with fuel junk; exact E|exact I|exact (limits_alike _ _ Al2 L)].
  destruct (shadow_known _ _ _ _ a A); [lia|assumption].
Qed.

Lemma step_compute base h r s s' flag dst a b l t : mapped base shipped -> flag = true ->
  api_run base h r s' -> alike s s' -> within_limits s ->
  dfsan_union flag (r_tab r) (r_shadow r a) (r_shadow r b) = Ok (l, t) ->
  leads base h (rt_set_label (set_tab r t) dst l) (p_set s dst (a_mem s a ++ a_mem s b)).
Proof.
  intros M -> R Al L E. destruct (api_run_inv base h r s' M R) as (g & A).
  assert (Qa := shadow_same _ _ _ _ a A). assert (Qb := shadow_same _ _ _ _ b A).
  assert (Ka := shadow_known _ _ _ _ a A). assert (Kb := shadow_known _ _ _ _ b A). assert (Z := lab_of_zero _ _ _ _ A).
  assert (Tr : set_tab r (r_tab r) = r) by (destruct r; reflexivity).
  assert (Ma := al_mem _ _ Al a). assert (Mb := al_mem _ _ Al b).
  unfold dfsan_union, dfsan_union_ne, union_table in E.
  destruct (N.eqb_spec (r_shadow r a) (r_shadow r b)) as [Eq|Ne].
  { injection E as <- <-. rewrite Tr. apply step_set with s'; auto. intros x. rewrite in_app_iff, (Ma x), (Mb x), (Qa x), (Qb x), <- Eq. tauto. }
  destruct (N.eqb_spec (r_shadow r a) 0) as [E0|N0].
  { injection E as <- <-. rewrite Tr. apply step_set with s'; auto.
    intros x. rewrite in_app_iff, (Ma x), (Mb x), (Qa x), (Qb x), E0, Z. cbn [In]. tauto. }
  destruct (N.eqb_spec (r_shadow r b) 0) as [E1|N1].
  { injection E as <- <-. rewrite Tr. apply step_set with s'; auto.
    intros x. rewrite in_app_iff, (Ma x), (Mb x), (Qa x), (Qb x), E1, Z. cbn [In]. tauto. }
  destruct Ka as [|Ka]; [contradiction|]. destruct Kb as [|Kb]; [contradiction|].
  assert (U : rt_union r (r_shadow r a) (r_shadow r b) = Ok (l, set_tab r t)) by (unfold rt_union; rewrite E; reflexivity).
  assert (R1 : api_run base (h ++ [(CUnion (r_shadow r a) (r_shadow r b), RLabel l)]) (set_tab r t)
                 (astep s' (CUnion (r_shadow r a) (r_shadow r b)) (RLabel l))).
  { apply ar_call with r; [exact R|exact (conj Ka Kb)|constructor; exact U|exact I|]. apply (limits_alike s); [|exact L].
    cbn [astep]. now apply alike_labels. }
  apply (leads_more base h (CUnion (r_shadow r a) (r_shadow r b)) (RLabel l)); [exact I|]. eapply step_set; [exact M|exact R1|..]; auto.
  - cbn [astep]. now apply alike_labels.
  - right. unfold S_Api.known. cbn [astep with_lab a_lab]. rewrite N.eqb_refl. destruct (a_lab s' (r_shadow r a)) eqn:Q; [now elim Ka|discriminate].
  - cbn [astep with_lab a_lab]. rewrite N.eqb_refl. intros x. rewrite !in_app_iff, (Ma x), (Mb x), (Qa x), (Qb x). tauto.
Qed.

Lemma step_getc base h r s s' fd off dst x r' : mapped base shipped ->
  api_run base h r s' -> alike s s' -> fd_ok s fd -> transfer_ok s (a_rd s) fd off 1 ->
  rt_source_range r fd off 1 = Ok (x, r') -> room r' 0 -> within_limits s ->
  leads base h (rt_set_label r' dst match x with Some (f, _) => f | None => 0 end) (p_read (p_set s dst []) fd dst off 1).
Proof.
  intros M R Al F T E Rm L. destruct (api_run_inv base h r s' M R) as (g & A).
  assert (F' := fd_alike _ _ _ Al F). assert (T' := rd_alike _ _ _ _ _ Al T).
  assert (E0 := E). unfold rt_source_range in E. rewrite (mapping_of base r s' g fd M A ltac:(destruct F'; lia)) in E. cbn [bind] in E.
  assert (S : api_step r (CReadVal fd off 1) (RRange x) r') by (constructor; exact E0).
  unfold p_read, p_set. flds. rewrite (al_regs _ _ Al).
  destruct (last_with (a_regs s') fd) as [idx|] eqn:El.
  - destruct (read_offset r idx off 1) as [[o r1]| | |] eqn:Ro; try discriminate. cbn [bind fst snd] in E.
    destruct (new_source_labels r1 idx o 1) as [[[f la] r2]| | |] eqn:C; try discriminate. cbn [bind] in E. inversion E; subst x r2.
    destruct (inv_read_offset _ _ _ _ _ _ _ _ _ A (T' _ El) Ro) as [-> A1].
    destruct (new_labels_tab base r1 _ g idx _ 1 f la r' M A1 (last_with_bound _ _ _ El) (T' _ El) C) as (T1 & T2 & T3).
    assert (R1 : api_run base (h ++ [(CReadVal fd off 1, RRange (Some (f, la)))]) r' (astep s' (CReadVal fd off 1) (RRange (Some (f, la))))).
    { apply ar_call with r; [exact R|exact (conj F' T')|exact S| |].
      - cbn [ret_ok]. unfold room in Rm. change (2 ^ 31 - 64) with 2147483584 in *. lia.
      - cbn [astep]. rewrite El. cbv zeta. exact (limits_alike _ _ Al L). }
    assert (Al1 : alike (with_rd s (advance (a_rd s) idx off 1)) (astep s' (CReadVal fd off 1) (RRange (Some (f, la))))).
    { cbn [astep]. rewrite El. cbv zeta. destruct Al. constructor; flds; auto. intros k. now apply advance_alike. }
    apply (leads_more base h (CReadVal fd off 1) (RRange (Some (f, la)))); [exact I|].
    destruct (step_set base _ r' _ _ dst f [(idx, position (a_rd s) idx off)] M R1 Al1) as (h2 & s2 & Q2 & R2 & Al2).
    + right. unfold S_Api.known. cbn [astep]. rewrite El. cbv zeta. cbn [with_rd with_lab a_lab]. unfold add_labels.
      destruct (N.leb_spec f f); [|lia]. destruct (N.ltb_spec f (f + 1)); [|lia]. discriminate.
    + cbn [astep]. rewrite El. cbv zeta. cbn [with_rd with_lab a_lab]. unfold add_labels.
      destruct (N.leb_spec f f); [|lia]. destruct (N.ltb_spec f (f + 1)); [|lia]. cbn [andb]. rewrite N.sub_diag, N.add_0_r.
      rewrite (position_alike _ _ idx off (al_rd _ _ Al)). apply same_refl.
    + exact L.
    + exists h2, s2. split; [exact Q2|]. split; [exact R2|]. apply alike_trans with (2 := Al2). unfold p_set. constructor; flds; auto using same_refl.
      * intros a. unfold add_bytes. destruct (N.eqb_spec a dst) as [->|Na].
        -- destruct (N.leb_spec dst dst); [|lia]. destruct (N.ltb_spec dst (dst + 1)); [|lia]. cbn [andb]. rewrite N.sub_diag, N.add_0_r. apply same_refl.
        -- destruct (N.leb_spec dst a), (N.ltb_spec a (dst + 1)); cbn [andb]; try apply same_refl. lia.
      * apply Forall2_self. auto using same_refl.
  - inversion E; subst x r'.
    assert (R1 : api_run base (h ++ [(CReadVal fd off 1, RRange None)]) r (astep s' (CReadVal fd off 1) (RRange None))).
    { apply ar_call with r; [exact R|exact (conj F' T')|exact S|exact I|]. exact (limits_alike _ _ Al L). }
    apply (leads_more base h (CReadVal fd off 1) (RRange None)); [exact I|]. apply (step_set base _ r s _ dst 0 [] M R1 Al); [now left|cbn [astep]; rewrite (lab_of_zero _ _ _ _ A); apply same_refl|exact L].
Qed.

Lemma step_argv base h r s s' fuel app args r' : mapped base shipped ->
  api_run base h r s' -> alike s s' -> Forall (fun an => c_string app (fst an) (snd an) /\ snd an <= 2 ^ 54) args ->
  taint_argv_loop fuel app r 0 (map fst args) = Ok r' -> room r' 0 -> within_limits (p_args s 0 args) ->
  leads base h r' (p_args s 0 args).
Proof.
  intros M R Al F E Rm L. assert (X := args_alike args _ _ 0 Al). assert (L' := limits_alike _ _ X L).
  assert (Li : 0 + len args < 2 ^ 31).
  { enough (len args <= 255) by lia. destruct L' as (L1 & _). revert L1. clear. enough (len (a_regs s') + len args <= len (a_regs (p_args s' 0 args))) by lia.
    generalize 0. revert s'. induction args as [|[a n] args IH]; intros s' k; cbn [p_args]; [rewrite len_nil; lia|]. cbv zeta.
    specialize (IH (with_mem (with_reg s' (mkReg (argv_name k) None None) (a_open s')) (add_bytes (a_mem s') a (len (a_regs s')) 0 n)) (k + 1)).
    cbn [with_mem with_reg a_regs] in IH. rewrite len_app, len_cons, (len_nil (A := reg)) in IH. rewrite len_cons. lia. }
  destruct (argv_loop base app fuel args M 0 h r s' r' R Li F L' E Rm) as (h' & s2 & R2 & _ & Al2 & _ & _ & Q2).
  exists h', s2. split; [eapply Forall_impl; [|exact Q2]; intros [c x] (nm & a & n & Ec); cbn [fst] in *; subst c; exact I|].
  split; [exact R2|]. exact (alike_trans _ _ _ X Al2).
Qed.

Lemma sim_run base argv fl p s h r0 s' r : mapped base shipped -> p_flag p = true -> p_argv p = argv -> within_limits s ->
  api_run base h r0 s' -> Forall2 (entry_for s') fl (a_log s') -> leads base h r s -> sim base argv fl (set_rt p r) s.
Proof.
  intros M F Ar L R En (h' & s2 & Q & R2 & Al). split; [exact F|]. split; [exact Ar|]. split; [exact L|]. exists (h ++ h'), r, s2.
  split; [reflexivity|]. split; [exact R2|]. split; [exact Al|].
  destruct (quiet_keeps base h r0 s' h' r s2 M R Q R2) as [-> Kp]. eapply Forall2_impl'; [|exact En].
  intros [f|f|f bs] [f'|f'|l f']; cbn [entry_for]; auto. intros (-> & K & Sb). destruct (Kp l K) as [K2 S2].
  split; [reflexivity|]. split; [exact K2|]. intros b. rewrite (Sb b). apply S2.
Qed.

Lemma sim_log base argv fl p s h r s' e f r' : mapped base shipped -> p_flag p = true -> p_argv p = argv -> within_limits s ->
  api_run base h r s' -> alike s s' -> Forall2 (entry_for s') fl (a_log s') -> cf_ok e -> rt_cf r e = Ok r' -> entry_for s' f e ->
  sim base argv (fl ++ [f]) (set_rt p r') s.
Proof.
  intros M F Ar L R Al En K E Ef.
  assert (Al2 : alike s (astep s' (CLog e) RNone)) by (cbn [astep]; destruct Al; constructor; flds; auto).
  split; [exact F|]. split; [exact Ar|]. split; [exact L|]. exists (h ++ [(CLog e, RNone)]), r', (astep s' (CLog e) RNone).
  split; [reflexivity|]. split; [|split; [exact Al2|]].
  - apply ar_call with r; [exact R|exact K|constructor; exact E|exact I|exact (limits_alike _ _ Al2 L)].
  - cbn [astep a_log]. apply Forall2_app; [exact En|constructor; [exact Ef|constructor]].
Qed.

Lemma alike_limits_l s s' : alike s s' -> within_limits s' -> within_limits s.
Proof.
  intros [] L. unfold within_limits, strings_of in *. rewrite al_regs, al_names.
  replace (len (a_out s)) with (len (a_out s')); [exact L|]. unfold len. f_equal. symmetry. exact (Forall2_len _ _ _ al_out).
Qed.

Lemma step_sim base argv fl p s v p' : mapped base shipped -> sim base argv fl p s -> S_Runtime.event_ok s v -> pstep p v p' ->
  limits p' (estep argv s v) -> sim base argv (fl ++ flow_of s v) p' (estep argv s v).
Proof.
  intros M Sm Ok St [L Rm]. assert (Sm0 := Sm). destruct Sm as (Fl & Ar & Ls & h & r & s' & Lv & R & Al & En).
  destruct St; cbn [S_Runtime.event_ok] in Ok; cbn [estep flow_of] in L |- *; rewrite ?app_nil_r.
  - (* open *) destruct Ok as (O1 & O2 & O3). unfold w_open in H. destruct (Z.leb_spec 0 fd) as [P|P].
    + unfold get_tdag in H. rewrite Lv in H. cbn [bind] in H. destruct (rt_open r fd path size) as [r1| | |] eqn:E; try discriminate. cbn [bind] in H.
      assert (p' = set_rt p r1) as -> by congruence. apply sim_run with h r s'; auto. apply step_open with r s'; auto; lia.
    + cbn [bind] in H. assert (p' = p) as -> by congruence. exact Sm0.
  - (* close *) unfold w_close in H. destruct (Z.eqb_spec ret 0) as [P|P].
    + unfold get_tdag in H. rewrite Lv in H. cbn [bind] in H. assert (p' = set_rt p (rt_close r fd)) as -> by congruence. apply sim_run with h r s'; auto.
      assert (Al2 : alike (astep s (CClose fd) RNone) (astep s' (CClose fd) RNone)).
      { cbn [astep]. destruct Al. constructor; flds; auto. congruence. }
      refine (leads_call _ _ _ _ _ _ _ _ R Al2 I _ _ _ _); [exact I|constructor|exact I|exact (limits_alike _ _ Al2 L)].
    + cbn [bind] in H. assert (p' = p) as -> by congruence. exact Sm0.
  - (* read *) destruct Ok as (O1 & O2). unfold w_read in H. destruct (from_off_t pos) as [o| | |] eqn:Eo; try discriminate. cbn [bind] in H.
    apply from_off_t_ok in Eo as [-> _]. unfold from_returned_size in H. destruct (0 <? ret)%Z; cbn [taint_source_buffer] in H.
    + unfold get_tdag in H. rewrite Lv in H. cbn [bind] in H. destruct (rt_source_mem r fd buff (offset_of pos) (Z.to_N ret)) as [[y r1]| | |] eqn:E; try discriminate.
      cbn [bind snd] in H. assert (p' = set_rt p r1) as -> by congruence. apply sim_run with h r s'; auto. apply step_read with r s' y; auto.
    + cbn [bind] in H. assert (p' = p) as -> by congruence. exact Sm0.
  - (* fread *) destruct Ok as (O1 & O2). unfold w_fread in H. destruct (from_off_t pos) as [o| | |] eqn:Eo; try discriminate. cbn [bind] in H.
    apply from_off_t_ok in Eo as [-> _]. destruct (from_returned_size_count size ret) as [k| | |] eqn:Ek; try discriminate. cbn [bind] in H.
    apply size_count_some in Ek. destruct (N.ltb_spec 0 (size * ret)) as [P|P].
    + destruct (N.eqb_spec (size * ret) 0); [lia|]. subst k. cbn [taint_source_buffer] in H.
      unfold get_tdag in H. rewrite Lv in H. cbn [bind] in H. destruct (rt_source_mem r fd buff (offset_of pos) (size * ret)) as [[y r1]| | |] eqn:E; try discriminate.
      cbn [bind snd] in H. assert (p' = set_rt p r1) as -> by congruence. apply sim_run with h r s'; auto. apply step_read with r s' y; auto.
    + destruct (N.eqb_spec (size * ret) 0); [|lia]. subst k. cbn [taint_source_buffer bind] in H. assert (p' = p) as -> by congruence. exact Sm0.
  - (* fgets *) destruct Ok as (O1 & O2 & O3). unfold w_fgets in H. destruct (from_off_t pos) as [o| | |] eqn:Eo; try discriminate. cbn [bind from_returned_string] in H.
    apply from_off_t_ok in Eo as [-> _]. destruct (c_strlen fuel app str) as [k| | |] eqn:C; try discriminate. cbn [bind taint_source_buffer] in H.
    apply c_strlen_ok in C as [[C1 C2] _].
    assert (k = n).
    { destruct O3 as [F1 F2]. destruct (N.lt_trichotomy k n) as [Q|[Q|Q]]; [|exact Q|]; exfalso.
      - exact (F2 k Q C1).
      - exact (C2 n Q F1). }
    subst k. unfold get_tdag in H. rewrite Lv in H. cbn [bind] in H.
    destruct (rt_source_mem r fd str (offset_of pos) n) as [[y r1]| | |] eqn:E; try discriminate.
    cbn [bind snd] in H. assert (p' = set_rt p r1) as -> by congruence. apply sim_run with h r s'; auto. apply step_read with r s' y; auto.
  - (* getc *) destruct Ok as (O1 & O2). unfold w_getc in H. destruct (from_off_t pos) as [o| | |] eqn:Eo; try discriminate. cbn [bind] in H.
    apply from_off_t_ok in Eo as [-> _]. destruct (api_run_inv base h r s' M R) as (g & A). destruct (Z.eqb_spec c (-1)) as [P|P].
    + assert (p' = p) as -> by congruence. assert (l = 0) as -> by congruence. assert (r0 = r) as -> by congruence.
      apply sim_run with h r s'; auto. apply step_set with s'; auto. rewrite (lab_of_zero _ _ _ _ A). apply same_refl.
    + unfold get_tdag in H. rewrite Lv in H. cbn [bind] in H. destruct (rt_source_range r fd (offset_of pos) 1) as [[y r1]| | |] eqn:E; try discriminate.
      cbn [bind fst snd] in H. assert (p' = set_rt p r1) as -> by congruence. assert (l = match y with Some (f, _) => f | None => 0 end) as -> by congruence.
      cbn [set_rt p_tdag] in H0. assert (r0 = r1) as -> by congruence. apply sim_run with h r s'; auto. apply step_getc with r s'; auto.
      apply (Rm (rt_set_label r1 dst match y with Some (f, _) => f | None => 0 end)). reflexivity.
  - (* mmap *) destruct Ok as (O1 & O2). unfold w_mmap in H. destruct (from_off_t pos) as [o| | |] eqn:Eo; try discriminate. cbn [bind] in H.
    apply from_off_t_ok in Eo as [-> _]. destruct addr as [a|].
    + unfold get_tdag, clear in H. rewrite Lv in H. cbn [set_rt p_tdag bind] in H.
      destruct (step_clear base (N.to_nat (round_up n)) M h r s s' a R Al Ls) as (h1 & s1 & Q1 & R1 & Al1). rewrite Nnat.N2Nat.id, round_up_pages in Al1.
      destruct (rt_source_mem (clear_bytes r a (N.to_nat (round_up n))) fd a (offset_of pos) n) as [[y r1]| | |] eqn:E; try discriminate.
      cbn [bind snd] in H. assert (p' = set_rt p r1) as -> by (unfold set_rt in *; cbn [p_flag p_argv] in *; congruence). apply sim_run with h r s'; auto.
      apply leads_after with h1; [exact Q1|]. apply step_read with (clear_bytes r a (N.to_nat (round_up n))) s1 y; auto.
    + cbn [bind] in H. assert (p' = p) as -> by congruence. exact Sm0.
  - (* munmap *) unfold w_munmap, clear in H. cbn [Z.eqb] in H. rewrite Lv in H. cbn [set_rt p_tdag] in H.
    assert (p' = set_rt p (clear_bytes (clear_bytes r addr (N.to_nat (round_up n))) addr (N.to_nat n))) as -> by (unfold set_rt in *; cbn [p_flag p_argv] in *; congruence).
    apply sim_run with h r s'; auto.
    destruct (step_clear base (N.to_nat (round_up n)) M h r s s' addr R Al Ls) as (h1 & s1 & Q1 & R1 & Al1).
    destruct (step_clear base (N.to_nat n) M _ _ _ s1 addr R1 Al1 Ls) as (h2 & s2 & Q2 & R2 & Al2).
    exists (h1 ++ h2), s2. split; [apply Forall_app; auto|]. split; [rewrite app_assoc; exact R2|].
    apply alike_trans with (2 := Al2). rewrite !Nnat.N2Nat.id, round_up_pages. apply fresh_twice. apply pages_le.
  - (* argv *) unfold taint_argv in H. rewrite Ar in H. destruct argv; cbn [negb] in H.
    + destruct args as [|[a n] args].
      * cbn [map] in H. assert (p' = p) as -> by congruence. exact Sm0.
      * cbn [map fst] in H. unfold get_tdag in H. rewrite Lv in H. cbn [bind] in H.
        destruct (taint_argv_loop fuel app r 0 (a :: map fst args)) as [r1| | |] eqn:E; try discriminate. cbn [bind] in H.
        assert (p' = set_rt p r1) as -> by congruence. apply sim_run with h r s'; auto. apply step_argv with r s' fuel app; auto.
    + assert (p' = p) as -> by congruence. exact Sm0.
  - (* copy *) assert (r0 = r) as -> by congruence. destruct (api_run_inv base h r s' M R) as (g & A). apply sim_run with h r s'; auto. apply step_set with s'; auto.
    + apply (shadow_known _ _ _ _ src A).
    + intros b. rewrite (al_mem _ _ Al src b). apply (shadow_same _ _ _ _ src A).
  - (* compute *) assert (r0 = r) as -> by congruence. apply sim_run with h r s'; auto. apply step_compute with s' (p_flag p); auto.
  - (* const *) assert (r0 = r) as -> by congruence. destruct (api_run_inv base h r s' M R) as (g & A). apply sim_run with h r s'; auto. apply step_set with s'; auto.
    rewrite (lab_of_zero _ _ _ _ A). apply same_refl.
  - (* branch *) assert (r0 = r) as -> by congruence. unfold cb_dfsw_cond_branch, cb_cond_branch in H0. rewrite Fl in H0. cbn [negb] in H0.
    destruct (N.ltb_spec 0 (r_shadow r a)) as [P|P].
    + unfold get_tdag in H0. rewrite Lv in H0. cbn [bind] in H0. destruct (rt_affects fuel junk r (r_shadow r a)) as [r1| | |] eqn:E; try discriminate.
      cbn [bind] in H0. assert (p' = set_rt p r1) as -> by congruence. apply sim_run with h r s'; auto. apply (step_branch base h r s s' fuel junk a r1); auto.
    + assert (p' = p) as -> by congruence. rewrite <- (set_rt_same p r Lv). apply sim_run with h r s'; auto. exists [], s'. split; [constructor|]. split; [rewrite app_nil_r; exact R|].
      destruct (api_run_inv base h r s' M R) as (g & A). assert (Q := shadow_same _ _ _ _ a A). replace (r_shadow r a) with 0 in Q by lia.
      rewrite (lab_of_zero _ _ _ _ A) in Q. destruct Al. constructor; flds; auto. intros b. rewrite in_app_iff, (al_cf b), (al_mem a b), (Q b). cbn [In]. tauto.
  - (* write *) destruct Ok as (O1 & O2). unfold w_write in H0. destruct (from_off_t pos) as [o| | |] eqn:Eo; try discriminate. cbn [bind] in H0.
    apply from_off_t_ok in Eo as [-> _]. unfold from_returned_size in H0. destruct (0 <? ret)%Z; cbn [impl_taint_sink] in H0.
    + unfold get_tdag in H0. rewrite Lv in H0. cbn [bind] in H0. destruct (rt_sink_mem pad r fd (offset_of pos) buff (Z.to_N ret)) as [r1| | |] eqn:E; try discriminate.
      cbn [bind] in H0. assert (p' = set_rt p r1) as -> by congruence. apply sim_run with h r s'; auto. apply step_write with r s' pad; auto.
    + cbn [bind] in H0. assert (p' = p) as -> by congruence. exact Sm0.
  - (* fwrite *) destruct Ok as (O1 & O2). unfold w_fwrite in H0. destruct (from_off_t pos) as [o| | |] eqn:Eo; try discriminate. cbn [bind] in H0.
    apply from_off_t_ok in Eo as [-> _]. destruct (from_returned_size_count size ret) as [k| | |] eqn:Ek; try discriminate. cbn [bind] in H0.
    apply size_count_some in Ek. destruct (N.ltb_spec 0 (size * ret)) as [P|P].
    + destruct (N.eqb_spec (size * ret) 0); [lia|]. subst k. cbn [impl_taint_sink] in H0.
      unfold get_tdag in H0. rewrite Lv in H0. cbn [bind] in H0. destruct (rt_sink_mem pad r fd (offset_of pos) buff (size * ret)) as [r1| | |] eqn:E; try discriminate.
      cbn [bind] in H0. assert (p' = set_rt p r1) as -> by congruence. apply sim_run with h r s'; auto. apply step_write with r s' pad; auto.
    + destruct (N.eqb_spec (size * ret) 0); [|lia]. subst k. cbn [impl_taint_sink bind] in H0. assert (p' = p) as -> by congruence. exact Sm0.
  - (* putc *) destruct Ok as (O1 & O2 & _). assert (r0 = r) as -> by congruence. unfold w_putc in H1. destruct (from_off_t pos) as [o| | |] eqn:Eo; try discriminate. cbn [bind] in H1.
    apply from_off_t_ok in Eo as [-> _]. destruct (ret =? ch)%Z.
    + unfold get_tdag in H1. rewrite Lv in H1. cbn [bind] in H1. destruct (rt_sink_label pad r fd (offset_of pos) (r_shadow r src) 1) as [r1| | |] eqn:E; try discriminate.
      cbn [bind] in H1. assert (p' = set_rt p r1) as -> by congruence. apply sim_run with h r s'; auto. apply step_putc with r s' pad; auto.
    + cbn [bind] in H1. assert (p' = p) as -> by congruence. exact Sm0.
  - (* enter *) unfold cb_func_entry in H0. rewrite Fl in H0. cbn [negb] in H0. unfold get_tdag in H0. rewrite Lv in H0. cbn [bind] in H0.
    destruct (rt_fn_entry pad r name) as [[k r1]| | |] eqn:E; try discriminate. cbn [bind fst snd] in H0. assert (p' = set_rt p r1) as -> by congruence.
    apply sim_run with h r s'; auto.
    assert (Al2 : alike (astep s (CFnEntry name) RNone) (astep s' (CFnEntry name) (RIndex k))).
    { cbn [astep]. cbv zeta. destruct Al. rewrite al_names, al_events. constructor; flds; auto. }
    refine (leads_call _ _ _ _ _ _ _ _ R Al2 I _ _ _ _); [exact Ok|apply as_fn_entry with pad; auto|exact I|exact (limits_alike _ _ Al2 L)].
  - (* exit *) unfold cb_func_exit in H0. rewrite Fl in H0. cbn [negb] in H0. unfold get_tdag in H0. rewrite Lv in H0. cbn [bind] in H0.
    destruct (rt_fn_exit pad r i) as [r1| | |] eqn:E; try discriminate. cbn [bind] in H0. assert (p' = set_rt p r1) as -> by congruence.
    apply sim_run with h r s'; auto.
    assert (Al2 : alike (astep s (CFnExit i) RNone) (astep s' (CFnExit i) RNone)).
    { cbn [astep]. destruct Al. rewrite al_events. constructor; flds; auto. }
    refine (leads_call _ _ _ _ _ _ _ _ R Al2 I _ _ _ _); [exact Ok|apply as_fn_exit with pad; auto|exact I|exact (limits_alike _ _ Al2 L)].
  - (* cf enter *) unfold cb_enter in H. rewrite Fl in H. cbn [negb] in H. unfold get_tdag in H. rewrite Lv in H. cbn [bind] in H.
    destruct (rt_cf r (CfEnter f)) as [r1| | |] eqn:E; try discriminate. cbn [bind] in H. assert (p' = set_rt p r1) as -> by congruence.
    apply sim_log with h r s' (CfEnter f); auto. reflexivity.
  - unfold cb_leave in H. rewrite Fl in H. cbn [negb] in H. unfold get_tdag in H. rewrite Lv in H. cbn [bind] in H.
    destruct (rt_cf r (CfLeave f)) as [r1| | |] eqn:E; try discriminate. cbn [bind] in H. assert (p' = set_rt p r1) as -> by congruence.
    apply sim_log with h r s' (CfLeave f); auto. reflexivity.
  - assert (r0 = r) as -> by congruence. unfold cb_tainted_cf in H0. rewrite Fl in H0. cbn [negb] in H0.
    destruct (api_run_inv base h r s' M R) as (g & A). assert (Q := shadow_same _ _ _ _ a A). assert (Ma := al_mem _ _ Al a).
    destruct (N.ltb_spec 0 (r_shadow r a)) as [P|P].
    + unfold get_tdag in H0. rewrite Lv in H0. cbn [bind] in H0.
      destruct (rt_cf r (CfTainted (r_shadow r a) f)) as [r1| | |] eqn:E; try discriminate. cbn [bind] in H0. assert (p' = set_rt p r1) as -> by congruence.
      destruct (shadow_known _ _ _ _ a A) as [Z|K]; [lia|].
      assert (Sb : same (a_mem s a) (a_lab s' (r_shadow r a))) by (intros b; rewrite (Ma b); apply Q).
      destruct (a_mem s a) as [|b bs] eqn:Em.
      { exfalso. unfold S_Api.known in K. destruct (a_lab s' (r_shadow r a)) as [|b bs]; [now elim K|]. apply (in_nil (a := b)). apply Sb. now left. }
      apply sim_log with h r s' (CfTainted (r_shadow r a) f); auto.
      * split; [exact (shadow_small _ _ _ _ A a)|exact Ok].
      * cbn [entry_for]. auto.
    + cbn [bind] in H0. assert (p' = p) as -> by congruence. replace (r_shadow r a) with 0 in Q by lia. rewrite (lab_of_zero _ _ _ _ A) in Q.
      destruct (a_mem s a) as [|b bs]; [rewrite app_nil_r; exact Sm0|]. exfalso. apply (in_nil (a := b)). apply Q, Ma. now left.
Qed.

(** ** Start *)
Lemma switched_one v : switched_on v = is_one v.
Proof.
  destruct v as [[|c [|c' l]]|]; unfold is_one; cbn [switched_on bytes_eqb]; try reflexivity.
  all: destruct (c =? 49); reflexivity.
Qed.
Lemma start_stream_run base h r s fd on path size r' : api_run base h r s ->
  (fd < 2 ^ 31)%Z -> name_ok path -> (forall n, size = Some n -> n < 2 ^ 64 - 1) ->
  start_stream r fd on path size = Ok r' ->
  let s2 := fold_left (estep false) (if is_one on then [EOpen path fd size] else []) s in
  within_limits s2 -> exists h', api_run base h' r' s2.
Proof.
  intros R F Nk Sz E. cbv zeta. unfold start_stream in E. destruct (is_one on).
  - cbn [fold_left estep]. destruct (Z.leb_spec 0 fd) as [P|P]; cbn [andb] in E.
    + intros L. eexists. apply (ar_call base h r s (COpen fd path size) RNone r' R); [exact (conj (conj P F) (conj Nk Sz))|constructor; exact E|exact I|exact L].
    + intros _. inversion E; subst. eauto.
  - rewrite andb_false_r in E. intros _. cbn [fold_left]. inversion E; subst. eauto.
Qed.

Lemma stream_step_argv e : forall evs s, Forall (fun v => exists path fd size, v = EOpen path fd size) evs ->
  fold_left (estep e) evs s = fold_left (estep false) evs s.
Proof.
  induction evs as [|v evs IH]; intros s F; [reflexivity|]. inversion F as [|x l (path & fd & size & ->) F']; subst. cbn [fold_left]. now apply IH.
Qed.

Definition opens (s : ast) (k n : N) : Prop := len (a_regs s) <= k /\ names_size (strings_of s) <= n /\ a_out s = [] /\ a_names s = [].
Lemma opens_step s on path fd size k n : opens s k n -> opens (fold_left (estep false) (if is_one on then [EOpen path fd size] else []) s) (k + 1) (n + names_size [path]).
Proof.
  intros (O1 & O2 & O3 & O4).
  assert (Z : opens s (k + 1) (n + names_size [path])) by (repeat split; auto; lia).
  destruct (is_one on); [|exact Z]. cbn [fold_left estep]. destruct (0 <=? fd)%Z; [|exact Z].
  unfold opens, strings_of in *. cbn [with_reg a_regs a_out a_names]. rewrite O4 in *. rewrite app_nil_r in *.
  rewrite map_app, names_size_app, len_app, len_cons, len_nil. cbn [map reg_name]. repeat split; auto; lia.
Qed.
Lemma opens_limits s k n : opens s k n -> k <= 255 -> n <= 2 ^ 20 -> within_limits s.
Proof. intros (O1 & O2 & O3 & O4) H1 H2. unfold within_limits. rewrite O3, O4. split; [lia|]. split; [lia|]. split; vm_compute; congruence. Qed.

Lemma dev_ok : name_ok dev_stdout /\ name_ok dev_stderr /\ name_ok dev_stdin.
Proof. split; [|split]; (split; [repeat constructor; lia|vm_compute; congruence]). Qed.

Lemma start_sim base e fo fe fi so se si p : mapped base shipped ->
  cb_start proc_start e base fo fe fi so se si = Ok p ->
  (fo < 2 ^ 31 /\ fe < 2 ^ 31 /\ fi < 2 ^ 31)%Z ->
  (forall n, so = Some n \/ se = Some n \/ si = Some n -> n < 2 ^ 64 - 1) ->
  sim base (argv_on e) [] p (fold_left (estep (argv_on e)) (stream_events e fo fe fi so se si) a_init).
Proof.
  intros M E (F1 & F2 & F3) Sz.
  rewrite stream_step_argv.
  2: { unfold stream_events. rewrite !switched_one. repeat (apply Forall_app; split); destruct (is_one _); repeat constructor; eauto. }
  unfold cb_start, taint_start in E. cbv zeta in E.
  destruct (rt_new base) as [r0| | |] eqn:E0; try discriminate. cbn [bind] in E.
  destruct (start_stream r0 fo (e_stdout e) dev_stdout so) as [r1| | |] eqn:E1; try discriminate. cbn [bind] in E.
  destruct (start_stream r1 fe (e_stderr e) dev_stderr se) as [r2| | |] eqn:E2; try discriminate. cbn [bind] in E.
  destruct (start_stream r2 fi (e_stdin e) dev_stdin si) as [r3| | |] eqn:E3; try discriminate. cbn [bind] in E.
  destruct dev_ok as (D1 & D2 & D3).
  unfold stream_events. rewrite !switched_one, !fold_left_app.
  set (s1 := fold_left (estep false) (if is_one (e_stdout e) then [EOpen dev_stdout fo so] else []) a_init).
  set (s2 := fold_left (estep false) (if is_one (e_stderr e) then [EOpen dev_stderr fe se] else []) s1).
  set (s3 := fold_left (estep false) (if is_one (e_stdin e) then [EOpen dev_stdin fi si] else []) s2).
  assert (P0 : opens a_init 0 0) by (repeat split; vm_compute; congruence).
  assert (P1 := opens_step a_init (e_stdout e) dev_stdout fo so 0 0 P0). fold s1 in P1.
  assert (P2 := opens_step s1 (e_stderr e) dev_stderr fe se _ _ P1). fold s2 in P2.
  assert (P3 := opens_step s2 (e_stdin e) dev_stdin fi si _ _ P2). fold s3 in P3.
  assert (L1 : within_limits s1) by (apply (opens_limits _ _ _ P1); vm_compute; congruence).
  assert (L2 : within_limits s2) by (apply (opens_limits _ _ _ P2); vm_compute; congruence).
  assert (L3 : within_limits s3) by (apply (opens_limits _ _ _ P3); vm_compute; congruence).
  assert (R0 := ar_start base r0 E0).
  destruct (start_stream_run base [] r0 a_init fo (e_stdout e) dev_stdout so r1 R0 F1 D1 ltac:(intros n Hn; apply Sz; auto) E1 L1) as (h1 & R1).
  destruct (start_stream_run base h1 r1 s1 fe (e_stderr e) dev_stderr se r2 R1 F2 D2 ltac:(intros n Hn; apply Sz; auto) E2 L2) as (h2 & R2).
  destruct (start_stream_run base h2 r2 s2 fi (e_stdin e) dev_stdin si r3 R2 F3 D3 ltac:(intros n Hn; apply Sz; auto) E3 L3) as (h3 & R3).
  inversion E; subst p. split; [reflexivity|]. split.
  { cbn [p_argv]. unfold argv_on, starts_with_one. destruct (e_argv e) as [[|c l]|]; reflexivity. }
  split; [exact L3|]. exists h3, r3, s3. split; [reflexivity|]. split; [exact R3|]. split; [apply alike_refl|].
  replace (a_log s3) with ([] : list cf_event); [constructor|]. unfold s3, s2, s1.
  assert (Lg : forall on path fd size s, a_log (fold_left (estep false) (if is_one on then [EOpen path fd size] else []) s) = a_log s).
  { intros on path fd size s. destruct (is_one on); [|reflexivity]. cbn [fold_left estep]. now destruct (0 <=? fd)%Z. }
  now rewrite !Lg.
Qed.

(** The plain state in which the events of an execution begin. *)
Lemma flows_app argv evs : forall s evs', flows argv s (evs ++ evs') = flows argv s evs ++ flows argv (fold_left (estep argv) evs s) evs'.
Proof. induction evs as [|v evs IH]; intros s evs'; [reflexivity|]. cbn [app flows fold_left]. rewrite IH. apply app_assoc. Qed.

Lemma run_sim base e s0 evs p s : mapped base shipped -> proc_run base e s0 evs p s ->
  s = fold_left (estep (argv_on e)) evs s0 /\ sim base (argv_on e) (flows (argv_on e) s0 evs) p s.
Proof.
  intros M H. induction H as [p B|evs p s v p' H IH Ok St L].
  - split; [reflexivity|]. destruct B as [fo fe fi so se si p E F Sz]. now apply start_sim.
  - destruct IH as (-> & Sm). split; [now rewrite fold_left_app|].
    rewrite flows_app. cbn [flows]. rewrite app_nil_r. now apply step_sim with p.
Qed.
