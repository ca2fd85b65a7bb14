(** Lemmas about programs that fork. *)
From Coq Require Import ZArith NArith List Bool Lia ZifyBool ZifyNat ZifyN.
From Verif Require Import M_Base M_Encoding M_Union M_LabelDeq M_Labels M_Fork
  S_Provenance S_Labels S_Fork P_Base P_Encoding P_Labels P_LabelDeq P_ControlFlow P_History.
Import ListNotations.
Open Scope N_scope.

(** ** Marking keeps the shape of a table, whatever flags are set before *)
Lemma add_to_q_wf t l b t' : wf_table t -> in_use t l -> add_to_q t l = Ok (b, t') ->
  wf_table t' /\ len t' = len t.
Proof.
  intros W U H. destruct (wf_view t l W U) as (tn & _ & V & _).
  destruct (add_to_q_spec t l tn W V) as (A & B & C).
  destruct (cf_of tn) eqn:F; [rewrite A in H by auto; inversion H; subst; auto|].
  destruct (is_src tn) eqn:S.
  - destruct (C eq_refl eq_refl) as (t1 & E & S1). rewrite E in H. inversion H; subst.
    destruct (set_flag_spec t l tn W V) as (t2 & S2 & W2 & L2 & _). rewrite S1 in S2. inversion S2; subst. auto.
  - rewrite B in H by auto. inversion H; subst; auto.
Qed.

Lemma in_use_len t t' l : len t' = len t -> in_use t l -> in_use t' l.
Proof. unfold in_use. intros ->. auto. Qed.

Lemma visit_labels_wf ls : forall t q t' q', wf_table t -> Forall (in_use t) q -> Forall (in_use t) ls ->
  visit_labels_l t q ls = Ok (t', q') ->
  wf_table t' /\ len t' = len t /\ Forall (in_use t) q'.
Proof.
  induction ls as [|l ls IH]; intros t q t' q' W Q L H; cbn [visit_labels_l] in H.
  - inversion H; subst. auto.
  - inversion L; subst. apply bind_ok in H. destruct H as ([t1 q1] & E & H).
    unfold visit_label_l in E. apply bind_ok in E. destruct E as ([b t2] & E & K).
    destruct (add_to_q_wf _ _ _ _ W H2 E) as [W2 L2]. cbn [fst snd] in *.
    assert (Q1 : t1 = t2 /\ Forall (in_use t) q1).
    { destruct b; inversion K; subst; split; auto. apply Forall_app; split; [exact Q|constructor; auto]. }
    destruct Q1 as [-> Q1].
    destruct (IH t2 q1 t' q' W2) as (A & B & C); auto.
    + eapply Forall_impl; [|exact Q1]. intros x Hx; revert Hx; apply in_use_len; congruence.
    + eapply Forall_impl; [|exact H3]. intros x Hx; revert Hx; apply in_use_len; congruence.
    + split; [exact A|]. split; [congruence|]. eapply Forall_impl; [|exact C]. intros x Hx; revert Hx; apply in_use_len; congruence.
Qed.

Lemma visit_order_in_use t l tn : in_use t l -> wf_taint l tn -> Forall (in_use t) (visit_order tn).
Proof.
  intros [U1 U2] Wt. destruct tn; cbn in *; auto.
  - apply Forall_forall. intros x Hx. apply in_nseq in Hx. unfold in_use. lia.
  - repeat constructor; unfold in_use; lia.
Qed.

Lemma cf_loop_wf f : forall t q t', wf_table t -> Forall (in_use t) q -> cf_loop_l f t q = Ok t' ->
  wf_table t' /\ len t' = len t.
Proof.
  induction f as [|f IH]; intros t q t' W Q H; destruct q as [|l q]; cbn [cf_loop_l] in H.
  { injection H as <-. auto. } { discriminate H. } { injection H as <-. auto. }
  inversion Q; subst. destruct (wf_view t l W H2) as (tn & G & V & Wt & Vt).
  apply bind_ok in H. destruct H as (w & E1 & H). unfold read_word in E1. rewrite G in E1. inversion E1; subst w.
  apply bind_ok in H. destruct H as (t1 & E2 & H).
  destruct (set_flag_spec t l tn W V) as (t2 & S2 & W2 & L2 & _). rewrite E2 in S2. inversion S2; subst t2.
  apply bind_ok in H. destruct H as (tn' & E3 & H). rewrite decode_encode in E3 by assumption.
  inversion E3; subst tn'.
  apply bind_ok in H. destruct H as ([t3 q3] & E4 & H). cbn [fst snd] in H.
  destruct (visit_labels_wf _ _ _ _ _ W2 (Forall_impl _ (fun x => in_use_len t t1 x L2) H3)
    (Forall_impl _ (fun x => in_use_len t t1 x L2) (visit_order_in_use t l tn H2 Wt)) E4) as (W3 & L3 & Q3).
  destruct (IH t3 q3 t' W3) as [A B]; auto.
  - eapply Forall_impl; [|exact Q3]. intros x Hx; revert Hx; apply in_use_len; congruence.
  - split; [exact A|congruence].
Qed.

Lemma mark_wf t l fuel junk t' : wf_table t -> in_use t l ->
  affects_control_flow fuel junk t l = Ok t' -> wf_table t' /\ len t' = len t.
Proof.
  intros W U H. rewrite affects_rel in H. unfold affects_l in H.
  apply bind_ok in H. destruct H as ([b t1] & E & H). cbn [fst snd] in H.
  destruct (add_to_q_wf _ _ _ _ W U E) as [W1 L1]. destruct b.
  - destruct (cf_loop_wf _ _ _ _ W1 ltac:(constructor; [eapply in_use_len; eauto|constructor]) H). split; [auto|congruence].
  - inversion H; subst. auto.
Qed.

(** ** One operation *)
Lemma lstep_wf t o res t' : wf_table t -> lop_ok t o -> lstep t o res t' ->
  wf_table t' /\ len t <= len t'.
Proof.
  intros W K S. destruct S as [src off n f la t' H|l r y t' H|l fuel junk t' H]; cbn in K.
  - destruct K as (K1 & K2 & K3).
    destruct (create_source_ok _ _ _ _ _ _ _ W K1 K2 K3 H) as (W' & _ & _ & L & _). split; [exact W'|lia].
  - destruct K as (K1 & K2). destruct (union_taint_ok _ _ _ _ _ W K1 K2 H) as (W' & _ & _ & [->|(_ & tn & -> & _)] & _).
    + split; [auto|lia].
    + split; [auto|]. rewrite len_app. lia.
  - destruct (mark_wf _ _ _ _ _ W K H) as [A B]. split; [auto|lia].
Qed.

(** ** Prefixes of the file *)
Lemma len_firstn_min {A} n (l : list A) : len (firstn (N.to_nat n) l) = N.min n (len l).
Proof. unfold len. rewrite firstn_length. lia. Qed.

Lemma get_firstn_lt (t : table) n i : i < n -> get (firstn (N.to_nat n) t) i = get t i.
Proof. intros H. apply get_firstn. lia. Qed.

Lemma wf_firstn t n : 1 <= n -> wf_table t -> wf_table (firstn (N.to_nat n) t).
Proof.
  intros Hn (W0 & Wc & W). split; [|split].
  - rewrite get_firstn_lt by lia. exact W0.
  - rewrite len_firstn_min. lia.
  - intros i H1 H2. rewrite len_firstn_min in H2. rewrite get_firstn_lt by lia. apply W; lia.
Qed.

Lemma len_store (t f : table) : len (t ++ skipn (length t) f) = N.max (len t) (len f).
Proof. rewrite len_app. unfold len. rewrite skipn_length. lia. Qed.

Lemma get_store_r (t f : table) i : len t <= i -> get (t ++ skipn (length t) f) i = get f i.
Proof.
  intros H. rewrite get_app_r by assumption. unfold get, len in *.
  replace (N.to_nat i) with (length t + N.to_nat (i - N.of_nat (length t)))%nat by lia.
  remember (N.to_nat (i - N.of_nat (length t))) as k. clear.
  revert f. induction (length t) as [|n IH]; intros f; [reflexivity|].
  destruct f as [|x f]; cbn [skipn Nat.add nth_error]; [destruct k; reflexivity|apply IH].
Qed.

Lemma wf_store t f : wf_table t -> wf_table f -> wf_table (t ++ skipn (length t) f).
Proof.
  intros (W0 & Wc & W) (V0 & Vc & V). split; [|split].
  - rewrite get_app_l; [exact W0|]. now apply get_some in W0.
  - rewrite len_store. lia.
  - intros i H1 H2. destruct (N.ltb_spec i (len t)).
    + rewrite get_app_l by assumption. auto.
    + rewrite get_store_r by assumption. apply V; auto. rewrite len_store in H2. lia.
Qed.

(** ** The invariant of all histories *)
Definition winv (w : world) : Prop :=
  wf_table (file w) /\ fsize w <= len (file w) /\
  forall p c, get (procs w) p = Some (Some c) -> 1 <= c /\ c <= len (file w).

Lemma table_of_wf w p t : winv w -> table_of w p = Some t ->
  wf_table t /\ exists c, get (procs w) p = Some (Some c) /\ t = firstn (N.to_nat c) (file w) /\ len t = c.
Proof.
  intros (W & _ & P) H. unfold table_of in H.
  destruct (get (procs w) p) as [[c|]|] eqn:G; inversion H; subst.
  destruct (P p c G) as [A B]. split; [apply wf_firstn; auto|].
  exists c. repeat split. rewrite len_firstn_min. lia.
Qed.

Lemma pstep_winv w p o res w' : winv w -> pstep w p o res w' -> winv w'.
Proof.
  intros I S. assert (I0 := I). destruct I0 as (W & F & P). destruct S.
  - destruct (table_of_wf _ _ _ I H) as (Wt & c & G & -> & L).
    destruct (lstep_wf _ _ _ _ Wt H0 H1) as [W' L'].
    split; [|split]; cbn [file procs fsize store].
    + now apply wf_store.
    + rewrite len_store. lia.
    + intros q d. rewrite get_upd. rewrite len_store.
      destruct ((p =? q) && (q <? len (procs w))).
      * intros K. inversion K; subst. assert (Z := P p _ G). lia.
      * intros K. specialize (P q d K). lia.
  - unfold do_fork in H. destruct (get (procs w) p) as [[c|]|] eqn:G; inversion H; subst.
    split; [auto|split; auto]. cbn [file procs]. intros x d K.
    destruct (N.ltb_spec x (len (procs w))).
    + rewrite get_app_l in K by assumption. eauto.
    + assert (x = len (procs w)) by (apply get_some in K; rewrite len_app in K; cbn in K; lia). subst x.
      rewrite get_app_last in K. inversion K; subst. eauto.
  - unfold do_exit in H. destruct (get (procs w) p) as [[c|]|] eqn:G; inversion H; subst.
    split; [auto|split]; cbn [file procs fsize]; [apply P in G; lia|].
    intros q d. rewrite get_upd. destruct ((p =? q) && (q <? len (procs w))); [discriminate|]. eauto.
  - unfold do_quit in H. destruct (get (procs w) p) as [[c|]|] eqn:G; inversion H; subst.
    split; [auto|split]; cbn [file procs fsize]; [lia|].
    intros q d. rewrite get_upd. destruct ((p =? q) && (q <? len (procs w))); [discriminate|]. eauto.
Qed.

Lemma phist_winv h w : phist h w -> winv w.
Proof.
  induction 1; [|eapply pstep_winv; eauto].
  split; [apply wf_new|]. split; [cbn; lia|]. intros p c H. cbn [procs world_new] in H.
  assert (L := get_some _ _ _ H). cbn in L. assert (p = 0) by lia. subst. cbn in H. inversion H; subst. cbn. lia.
Qed.

(** ** Histories with one writer at a time *)
Lemma alone_phist h w : phist_alone h w -> phist h w.
Proof. induction 1; econstructor; eauto. Qed.

Lemma calls_snoc h e : calls (h ++ [e]) = calls h ++ calls [e].
Proof. unfold calls. now rewrite flat_map_app. Qed.

Lemma alone_trace h w : phist_alone h w -> ltrace (calls h) (file w).
Proof.
  induction 1 as [|h w p o res w' T IH S A]; [constructor|].
  rewrite calls_snoc. assert (I := phist_winv _ _ (alone_phist _ _ T)). destruct S.
  - destruct (A o eq_refl) as (t1 & E1 & L1). rewrite H in E1. inversion E1; subst t1.
    destruct (table_of_wf _ _ _ I H) as (Wt & c & G & Et & L).
    assert (t = file w).
    { rewrite Et. apply firstn_all2. unfold len in *. lia. }
    destruct (lstep_wf _ _ _ _ Wt H0 H1) as [_ L'].
    cbn [file store]. rewrite skipn_all2 by (subst t; unfold len in *; lia).
    rewrite app_nil_r. cbn. rewrite H2 in H0, H1. econstructor; eauto.
  - cbn. rewrite app_nil_r. unfold do_fork in H. destruct (get (procs w) p) as [[c|]|]; inversion H; subst. exact IH.
  - cbn. rewrite app_nil_r. unfold do_exit in H. destruct (get (procs w) p) as [[c|]|]; inversion H; subst. exact IH.
  - cbn. rewrite app_nil_r. unfold do_quit in H. destruct (get (procs w) p) as [[c|]|]; inversion H; subst. exact IH.
Qed.

Lemma firstn_derives f n l b : wf_table f -> 1 <= n -> in_use (firstn (N.to_nat n) f) l ->
  (derives (view (firstn (N.to_nat n) f)) l b <-> derives (view f) l b).
Proof.
  intros W Hn [U1 U2]. eapply (agree_derives (len (firstn (N.to_nat n) f))); auto using wf_firstn.
  intros i Hi. rewrite <- (firstn_skipn (N.to_nat n) f) at 2. now rewrite view_app.
Qed.
