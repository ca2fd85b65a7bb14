(** Facts about whole histories of the label table. *)
From Coq Require Import NArith List Bool Lia.
From Verif Require Import M_Base M_Encoding M_Union M_LabelDeq M_Labels S_Encoding S_Provenance S_Labels
  P_Base P_Encoding P_Labels P_ControlFlow.
Import ListNotations.
Open Scope N_scope.

Lemma new_inv : linv labels_new.
Proof.
  split; [apply wf_new|]. intros x m (tn & V & _) _. exfalso.
  apply view_in_use in V; [|apply wf_new]. destruct V as [A B]. change (len labels_new) with 1 in B. lia.
Qed.

Lemma ltrace_inv h t : ltrace h t -> linv t.
Proof. induction 1; [apply new_inv|]. now destruct (lstep_inv _ _ _ _ IHltrace H0 H1). Qed.

Lemma reachable_inv t : reachable t -> linv t.
Proof. intros [h H]. eauto using ltrace_inv. Qed.

Lemma reachable_wf t : reachable t -> wf_table t.
Proof. intros H. now apply reachable_inv in H as [W _]. Qed.

Lemma lsteps_reachable t ops t' : reachable t -> lsteps t ops t' -> reachable t'.
Proof.
  intros R S. revert R. induction S; auto. intros [h T]. apply IHS. eexists. eapply tr_snoc; eauto.
Qed.

Lemma lsteps_extends t ops t' : reachable t -> lsteps t ops t' -> extends t t'.
Proof.
  intros R S. revert R. induction S; intros R; [apply extends_refl|].
  destruct (lstep_inv _ _ _ _ (reachable_inv _ R) H H0) as [I E].
  eapply extends_trans; [exact E|]. apply IHS. destruct R as [h T]. eexists. eapply tr_snoc; eauto.
Qed.

Lemma extends_derives t t' l b : linv t -> linv t' -> extends t t' -> l < len t ->
  (derives (view t) l b <-> derives (view t') l b).
Proof.
  intros [W _] [W' _] E L. apply (agree_derives (len t)); auto. now apply extends_agree.
Qed.

(** What every recorded call guarantees about a later table. *)
Definition event_ok (t : table) (e : lop * N) : Prop :=
  match e with
  | (LSource src off n, f) =>
      1 <= f /\ f + n <= len t /\
      forall i, i < n -> exists cf, view t (f + i) = Some (TSource cf src (off + i))
  | (LUnion a c, l) =>
      in_use t a /\ in_use t c /\ in_use t l /\
      forall b, derives (view t) l b <-> derives (view t) a b \/ derives (view t) c b
  | (LMark l, _) => in_use t l /\ flg t l
  end.

Lemma view_erase t t' l tn : option_map erase_cf (view t l) = option_map erase_cf (view t' l) ->
  view t l = Some tn -> exists tn', view t' l = Some tn' /\ erase_cf tn' = erase_cf tn.
Proof.
  intros E V. rewrite V in E. cbn in E. destruct (view t' l) as [tn'|]; [|discriminate].
  exists tn'. split; auto. cbn in E. congruence.
Qed.

Lemma in_use_extends t t' l : extends t t' -> in_use t l -> in_use t' l.
Proof. intros (L & _) [A B]. split; lia. Qed.

Lemma event_ok_extends t t' e : linv t -> linv t' -> extends t t' -> event_ok t e -> event_ok t' e.
Proof.
  intros I I' E K. destruct e as [[src off n|a c|l] f]; cbn in *.
  - destruct K as (K1 & K2 & K3). assert (E' := E). destruct E' as [EL E'].
    split; [auto|]. split; [lia|]. intros i Hi.
    destruct (K3 i Hi) as [cf V]. destruct (E' (f + i) ltac:(lia)) as [Er _].
    destruct (view_erase _ _ _ _ Er V) as (tn' & V' & Q). destruct tn'; cbn in Q; try discriminate.
    inversion Q; subst. eauto.
  - destruct K as (Ka & Kc & Kl & D). split; [|split; [|split]]; eauto using in_use_extends.
    intros b. rewrite <- !(extends_derives t t') by (auto; try apply Ka; try apply Kc; try apply Kl). apply D.
  - destruct K as (K & F). split; [eauto using in_use_extends|]. apply E; [apply K|exact F].
Qed.

Lemma event_ok_new t o res t' : linv t -> lop_ok t o -> lstep t o res t' -> event_ok t' (o, res).
Proof.
  intros I K S. destruct (lstep_inv _ _ _ _ I K S) as [I' E]. assert (I0 := I). destruct I0 as [W C].
  destruct S as [src off n f la t' H|l r x t' H|l fuel junk t' H]; cbn.
  - destruct K as (K1 & K2 & K3).
    destruct (create_source_ok _ _ _ _ _ _ _ W K1 K2 K3 H) as (W' & Hf & _ & Ln & _).
    assert (1 <= len t). { destruct W as (G & _). destruct t; [discriminate|]. unfold len. cbn [length]. lia. }
    split; [lia|]. split; [lia|]. intros i Hi. exists false. exact (create_source_view _ _ _ _ _ _ _ i W K1 K2 K3 H Hi).
  - destruct K as (K1 & K2). destruct (union_taint_ok _ _ _ _ _ W K1 K2 H) as (W' & Ux & Ln & Cs & D).
    split; [|split; [|split]]; eauto using in_use_extends.
    intros b. rewrite D. rewrite !(extends_derives t t') by (auto; try apply K1; try apply K2). reflexivity.
  - destruct (affects_ok _ _ _ _ _ W C K H) as (Up & _ & F). split; [eauto using in_use_extends|].
    apply F. right. constructor.
Qed.

Lemma trace_events h t : ltrace h t -> forall e, In e h -> event_ok t e.
Proof.
  induction 1; [contradiction|]. intros e He. apply in_app_iff in He.
  destruct (lstep_inv _ _ _ _ (ltrace_inv _ _ H) H0 H1) as [I E].
  destruct He as [He|[<-|[]]].
  - exact (event_ok_extends _ _ _ (ltrace_inv _ _ H) I E (IHltrace _ He)).
  - exact (event_ok_new _ _ _ _ (ltrace_inv _ _ H) H0 H1).
Qed.

Lemma stands_mono h h' l b : (forall e, In e h -> In e h') -> stands h l b -> stands h' l b.
Proof. intros M. induction 1; [eapply sd_source|eapply sd_left|eapply sd_right]; eauto. Qed.

Lemma stands_derives h t l b : ltrace h t -> stands h l b -> derives (view t) l b.
Proof.
  intros T. induction 1.
  - apply (trace_events _ _ T) in H. cbn in H. destruct H as (_ & _ & H).
    destruct (H i H0) as [cf V]. exists (f + i), cf. split; [constructor|exact V].
  - apply (trace_events _ _ T) in H. cbn in H. apply H. auto.
  - apply (trace_events _ _ T) in H. cbn in H. apply H. auto.
Qed.

Lemma derives_stands h t l b : ltrace h t -> in_use t l -> derives (view t) l b -> stands h l b.
Proof.
  intros T. revert l b. induction T; intros l b U D.
  - destruct U as [A B]. change (len labels_new) with 1 in B. lia.
  - assert (I := ltrace_inv _ _ T). destruct (lstep_inv _ _ _ _ I H H0) as [I' E].
    assert (Old : l < len t -> stands (h ++ [(o, res)]) l b).
    { intros L. apply stands_mono with h; [intros; apply in_app_iff; auto|].
      apply IHT; [split; [apply U|exact L]|]. rewrite (extends_derives t t'); auto. }
    destruct (N.ltb_spec l (len t)) as [L|L]; [auto|].
    assert (Here : In (o, res) (h ++ [(o, res)])) by (apply in_app_iff; right; now left).
    assert (I0 := I). destruct I0 as [W C].
    destruct H0 as [src off n f la t' Q|a c x t' Q|m fuel junk t' Q]; cbn in H.
    + destruct H as (K1 & K2 & K3).
      destruct (create_source_ok _ _ _ _ _ _ _ W K1 K2 K3 Q) as (W' & Hf & _ & Ln & _).
      destruct U as [U1 U2]. assert (Hi : l - f < n) by lia.
      assert (V : view t' (f + (l - f)) = Some (TSource false src (off + (l - f))))
        by (exact (create_source_view _ _ _ _ _ _ _ _ W K1 K2 K3 Q Hi)).
      replace (f + (l - f)) with l in V by lia.
      rewrite (derives_den _ _ _ _ V) in D. cbn in D. subst b.
      replace l with (f + (l - f)) at 1 by lia. eapply sd_source; eauto.
    + destruct H as (K1 & K2). destruct (union_taint_ok _ _ _ _ _ W K1 K2 Q) as (W' & Ux & Ln & Cs & Dx).
      assert (l = x).
      { destruct Cs as [->|(-> & tn & -> & _)]; [destruct U; lia|].
        destruct U as [_ U]. rewrite len_app in U. change (len [encode tn]) with 1 in U. lia. }
      subst x. apply Dx in D. destruct D as [D|D].
      * eapply sd_left; eauto. eapply stands_mono; [|apply IHT; eauto]. intros; apply in_app_iff; auto.
      * eapply sd_right; eauto. eapply stands_mono; [|apply IHT; eauto]. intros; apply in_app_iff; auto.
    + destruct (affects_ok _ _ _ _ _ W C H Q) as ((_ & Ln & _) & _). destruct U; lia.
Qed.

(** Every label in use was returned by some call. *)
Lemma derives_stands_iff h t l b : ltrace h t -> in_use t l ->
  (derives (view t) l b <-> stands h l b).
Proof. intros T U. split; eauto using stands_derives, derives_stands. Qed.

(** Flags and history. *)
Lemma trace_flags h t x : ltrace h t ->
  (flagged (view t) x <-> exists l r, In (LMark l, r) h /\ built_from (view t) l x).
Proof.
  intros T. rewrite flagged_flg. split.
  - revert x. induction T; intros x F.
    + exfalso. destruct F as (tn & V & _). apply view_in_use in V; [|apply wf_new].
      destruct V as [A B]. change (len labels_new) with 1 in B. lia.
    + assert (I := ltrace_inv _ _ T). destruct (lstep_inv _ _ _ _ I H H0) as [I' E].
      assert (Old : flg t x -> exists l r, In (LMark l, r) (h ++ [(o, res)]) /\ built_from (view t') l x).
      { intros F0. destruct (IHT x F0) as (l & r & Hin & B). exists l, r.
        split; [apply in_app_iff; auto|].
        assert (U : in_use t l) by (apply (trace_events _ _ T) in Hin; cbn in Hin; apply Hin).
        destruct I as [W _]. eapply (agree_built_from (len t)); eauto using extends_agree. apply U. }
      assert (I0 := I). destruct I0 as [W C].
      destruct H0 as [src off n f la t' Q|a c y t' Q|m fuel junk t' Q]; cbn in H.
      * destruct H as (K1 & K2 & K3).
        destruct (create_source_ok _ _ _ _ _ _ _ W K1 K2 K3 Q) as (W' & Hf & _ & Ln & Eq).
        apply Old. destruct (N.ltb_spec x (len t)) as [L|L].
        -- rewrite Eq in F. now rewrite flg_app in F.
        -- exfalso. destruct F as (tn & V & Cf). assert (U := view_in_use _ _ _ W' V). destruct U as [U1 U2].
           assert (V' : view t' (f + (x - f)) = Some (TSource false src (off + (x - f))))
             by (apply (create_source_view _ _ _ _ _ _ _ _ W K1 K2 K3 Q); lia).
           replace (f + (x - f)) with x in V' by lia. rewrite V in V'. inversion V'; subst. discriminate.
      * destruct H as (K1 & K2). destruct (union_taint_ok _ _ _ _ _ W K1 K2 Q) as (W' & Ux & Ln & Cs & _).
        destruct Cs as [->|(-> & tn & -> & Cf & Wn)]; [auto|].
        destruct (N.ltb_spec x (len t)) as [L|L]; [apply Old; now rewrite flg_app in F|].
        exfalso. destruct F as (tn' & V & Cf').
        assert (U := view_in_use _ _ _ W' V). destruct U as [U1 U2].
        rewrite len_app in U2. change (len [encode tn]) with 1 in U2. replace x with (len t) in * by lia.
        destruct W' as (_ & Lc & _). rewrite len_app in Lc. change (len [encode tn]) with 1 in Lc.
        assert (V' : view (t ++ [encode tn]) (len t) = Some tn).
        { apply view_get; [apply get_app_last|]. eapply wf_valid; [|exact Wn]. lia. }
        congruence.
      * destruct (affects_ok _ _ _ _ _ W C H Q) as (Up & _ & Fl). apply Fl in F. destruct F as [F|F]; auto.
        exists m, 0. split; [apply in_app_iff; right; now left|].
        apply (upto_built_from t t'); auto.
  - intros (l & r & Hin & B). apply (trace_events _ _ T) in Hin. cbn in Hin. destruct Hin as (_ & F).
    apply ltrace_inv in T. destruct T as [_ C]. clear - B C F.
    induction B; auto. apply IHB. eapply C; eauto.
Qed.

(** ** No operation on labels in use ends in an assertion failure *)
Lemma cf_loop_l_more f : forall t q k, cf_loop_l f t q <> Fuel -> cf_loop_l (f + k) t q = cf_loop_l f t q.
Proof.
  induction f as [|f IH]; intros t q k H.
  - destruct q; cbn in *; [now destruct k|congruence].
  - destruct q as [|l q]; [reflexivity|]. cbn [cf_loop_l Nat.add] in *.
    destruct (read_word t l); cbn [bind] in *; auto.
    destruct (set_affects_control_flow t l); cbn [bind] in *; auto.
    destruct (decode a); cbn [bind] in *; auto.
    destruct (visit_labels_l a0 q (visit_order a1)); cbn [bind] in *; auto.
Qed.

Lemma affects_never_bad fuel junk t l : linv t -> in_use t l ->
  affects_control_flow fuel junk t l <> UB /\ affects_control_flow fuel junk t l <> Exit.
Proof.
  intros [W C] U. destruct (affects_total t l W C U) as (t' & F & T).
  rewrite affects_rel. specialize (T (fuel + F)%nat junk ltac:(lia)). rewrite affects_rel in T.
  unfold affects_l in *. destruct (add_to_q t l) as [[b t1]| | |]; cbn [bind fst snd] in *; try discriminate T.
  destruct b; [|split; discriminate].
  destruct (cf_loop_l fuel t1 [l]) eqn:E; split; try discriminate;
    rewrite cf_loop_l_more in T by (rewrite E; discriminate); rewrite E in T; discriminate.
Qed.

(** ** Repeating a union *)
Definition ret_sym (r1 r2 : Res union_ret) : Prop :=
  match r1, r2 with
  | Ok (RLabel _), Ok (RLabel _) => True
  | Ok (RTaint a), Ok (RTaint b) => a = b
  | Exit, Exit => True
  | UB, UB => True
  | Fuel, Fuel => True
  | _, _ => False
  end.

Lemma union_labels_sym a b : a <> b -> a <= max_label -> b <= max_label ->
  union_labels a b = union_labels b a.
Proof.
  intros Ne A B. unfold union_labels, mk_union, max_label in *.
  rewrite !add32_small by (unfold two32; lia).
  repeat match goal with |- context [?x =? ?y] => destruct (N.eqb_spec x y); try lia end;
  repeat match goal with |- context [?x <? ?y] => destruct (N.ltb_spec x y); try lia end; reflexivity.
Qed.

Lemma ret_sym_refl r : ret_sym r r.
Proof. destruct r as [[]| | |]; cbn; auto. Qed.

Lemma compute_sym l lt r rt : l <> r -> l <= max_label -> r <= max_label ->
  wf_taint l lt -> wf_taint r rt -> ret_sym (compute l lt r rt) (compute r rt l lt).
Proof.
  intros Ne L R Wl Wr. assert (S := union_labels_sym l r Ne L R).
  destruct lt as [c1 i1 o1|c1 f1 l1|c1 a1 b1], rt as [c2 i2 o2|c2 f2 l2|c2 a2 b2]; unfold compute.
  - rewrite (N.eqb_sym i2 i1), (N.eqb_sym o2 o1). destruct ((i1 =? i2) && (o1 =? o2)); [exact I|].
    rewrite S. apply ret_sym_refl.
  - unfold range_source. rewrite S. apply ret_sym_refl.
  - unfold union_source. rewrite S. apply ret_sym_refl.
  - unfold range_source. rewrite S. apply ret_sym_refl.
  - cbn in Wl, Wr.
    destruct (encloses_range_label f1 l1 r) eqn:E1, (encloses_range_label f2 l2 l) eqn:E2; try exact I.
    { destruct (encloses_range_range f1 l1 f2 l2) eqn:E3, (encloses_range_range f2 l2 f1 l1) eqn:E4; try exact I.
    unfold encloses_range_range in *. rewrite !add32_small by (unfold two32, max_label in *; lia).
    destruct (N.eqb_spec (l1 + 1) f2), (N.eqb_spec (l2 + 1) f1); try lia; rewrite ?S; try apply ret_sym_refl. }
  - unfold union_range, union_range_tail. rewrite S. apply ret_sym_refl.
  - unfold union_source. rewrite S. apply ret_sym_refl.
  - unfold union_range, union_range_tail. rewrite S. apply ret_sym_refl.
  - destruct (encloses_union_label a1 b1 r), (encloses_union_label a2 b2 l); try exact I.
    rewrite (N.eqb_sym b2 b1), (N.eqb_sym a2 a1). destruct ((b1 =? b2) && (a1 =? a2)); [exact I|].
    rewrite S. apply ret_sym_refl.
Qed.

Lemma equal_ignore_cf_refl w : equal_ignore_cf w w = true.
Proof. unfold equal_ignore_cf. apply N.eqb_refl. Qed.

Lemma duplicate_check_last t h w : h <= len t -> duplicate_check (t ++ [w]) h w = Some (len t).
Proof.
  intros H. unfold duplicate_check. rewrite len_app. change (len [w]) with 1.
  rewrite rev_app_distr. cbn [rev app].
  set (n := if _ <=? _ then _ else _). assert (1 <= n).
  { unfold n, redundant_label_range. destruct (N.leb_spec 100 (len t + 1 - h)); lia. }
  destruct (N.to_nat n) as [|k] eqn:E; [lia|]. cbn [firstn scan_back].
  rewrite equal_ignore_cf_refl. f_equal. lia.
Qed.

Lemma read_label_app t ws l : l < len t -> read_label (t ++ ws) l = read_label t l.
Proof.
  intros H. unfold read_label, read_word. rewrite get_app_l by assumption. reflexivity.
Qed.

(** Asking again, in either order, allocates nothing. *)
Lemma union_again t l r x t1 : wf_table t -> in_use t l -> in_use t r ->
  union_taint t l r = Ok (x, t1) ->
  union_taint t1 l r = Ok (x, t1) /\ exists y, union_taint t1 r l = Ok (y, t1).
Proof.
  intros W Ul Ur H. unfold union_taint in *.
  destruct (N.eqb_spec l r) as [->|Ne].
  - inversion H; subst. rewrite N.eqb_refl. eauto.
  - assert (Ne' : r <> l) by auto. apply N.eqb_neq in Ne'. rewrite Ne'. clear Ne'.
    destruct (wf_view t l W Ul) as (lt & Gl & Vl & Wl & _). destruct (wf_view t r W Ur) as (rt & Gr & Vr & Wr & _).
    assert (RL : read_label t l = Ok lt).
    { unfold view in Vl. destruct (read_label t l); congruence. }
    assert (RR : read_label t r = Ok rt).
    { unfold view in Vr. destruct (read_label t r); congruence. }
    rewrite RL, RR in H. cbn [bind] in H.
    assert (Lm : l <= max_label /\ r <= max_label).
    { destruct W as (_ & Lc & _). unfold label_capacity in Lc. destruct Ul, Ur. lia. }
    assert (Sy := compute_sym l lt r rt Ne (proj1 Lm) (proj2 Lm) Wl Wr).
    assert (T1 : t1 = t \/ exists tn, compute l lt r rt = Ok (RTaint tn) /\ t1 = t ++ [encode tn] /\ x = len t).
    { destruct (compute l lt r rt) as [[y|tn]| | |]; cbn [bind] in H; try discriminate; [left; congruence|].
      destruct (duplicate_check t (N.max l r) (encode tn)); [left; congruence|].
      unfold construct in H. destruct (len t <? label_capacity); inversion H; subst. right. eauto. }
    destruct T1 as [->|(tn & Ec & -> & ->)].
    + rewrite RL, RR. cbn [bind]. split; [exact H|].
      destruct (compute l lt r rt) as [[y|tn]| | |]; cbn [bind] in H; try discriminate;
        destruct (compute r rt l lt) as [[y'|tn']| | |]; cbn in Sy; try contradiction; cbn [bind]; eauto.
      subst tn'. rewrite N.max_comm. destruct (duplicate_check t (N.max l r) (encode tn)); eauto.
    + destruct Ul as [Ul1 Ul2], Ur as [Ur1 Ur2].
      rewrite !read_label_app by assumption. rewrite RL, RR. cbn [bind]. rewrite Ec in *. cbn [bind].
      rewrite duplicate_check_last by lia.
      destruct (compute r rt l lt) as [[y'|tn']| | |]; cbn in Sy; try contradiction. subst tn'. cbn [bind].
      rewrite N.max_comm. rewrite duplicate_check_last by lia. split; eauto.
Qed.
