(** The runtime against the plain semantics of the calls. *)
From Coq Require Import NArith ZArith List Bool Lia.
From Verif Require Import M_Base M_Encoding M_Memory M_Labels M_Section M_StringTable M_Sources M_Functions M_CfLog M_Bitmap M_OutputFile
  M_PySections M_PyFile M_Api S_Section S_Provenance S_Labels S_Strings S_Functions S_CallStack S_Bitmap S_OutputFile S_Api
  P_Base P_Encoding P_Labels P_ControlFlow P_History P_Memory P_Section P_PyBase P_Strings P_Functions P_CfLog P_Bitmap P_OutputFile P_ApiMem.
Import ListNotations.
Open Scope N_scope.

Lemma Forall2_impl' {A B} (P Q : A -> B -> Prop) l l' : (forall a b, P a b -> Q a b) -> Forall2 P l l' -> Forall2 Q l l'.
Proof. intros H. induction 1; constructor; auto. Qed.

(** ** Labels *)
Definition lab_inv (t : table) (lab : N -> list byte_id) : Prop :=
  (forall l, in_use t l <-> lab l <> []) /\
  (forall l b, in_use t l -> (In b (lab l) <-> derives (view t) l b)).

Definition same {A} (x y : list A) : Prop := forall b, In b x <-> In b y.

Lemma lab_new : lab_inv labels_new (fun _ => []).
Proof.
  split.
  - intros l. split; [|congruence]. intros [A B]. change (len labels_new) with 1 in B. lia.
  - intros l b [A B]. change (len labels_new) with 1 in B. lia.
Qed.

Lemma lab_zero t lab l : lab_inv t lab -> ~ in_use t l -> lab l = [].
Proof. intros [U _] H. destruct (lab l) eqn:E; [reflexivity|]. exfalso. apply H, U. congruence. Qed.

Lemma lab_source t lab src o n f la t' : linv t -> lab_inv t lab ->
  src <= 255 -> 1 <= n -> o + n <= 2 ^ 54 -> create_source_labels t src o n = Ok (f, la, t') ->
  lab_inv t' (add_labels lab f src o n) /\ (forall l, in_use t l -> in_use t' l /\ add_labels lab f src o n l = lab l).
Proof.
  intros I [U D] Hs Hn Ho H. assert (W := proj1 I).
  destruct (create_source_ok _ _ _ _ _ _ _ W Hs Hn Ho H) as (W' & Hf & Hl & Ln & Et).
  assert (S := st_source t src o n f la t' H).
  destruct (lstep_inv t (LSource src o n) f t' I) as [I' X]; [repeat split; assumption|exact S|].
  assert (L1 : 1 <= len t). { destruct W as (G & _). destruct t; [discriminate|]. rewrite len_cons. lia. }
  split; [split|].
  - intros l. unfold add_labels. destruct (N.leb_spec f l) as [A|A]; cbn [andb].
    + destruct (N.ltb_spec l (f + n)) as [B|B].
      * split; [discriminate|]. intros _. split; lia.
      * rewrite <- U. split; intros [C1 C2]; [lia|split; lia].
    + rewrite <- U. split; intros [C1 C2]; split; lia.
  - intros l b Hl'. unfold add_labels. destruct (N.leb_spec f l) as [A|A]; cbn [andb].
    + destruct Hl' as [C1 C2]. destruct (N.ltb_spec l (f + n)) as [B|B]; [|lia].
      assert (V := create_source_view _ _ _ _ _ _ _ (l - f) W Hs Hn Ho H ltac:(lia)).
      replace (f + (l - f)) with l in V by lia. cbn [In]. split.
      * intros [<-|[]]. exists l, false. split; [constructor|exact V].
      * intros (m & cf & Bf & Vm). left. inversion Bf; subst.
        -- rewrite V in Vm. destruct b as [b1 b2]. cbn [fst snd] in Vm. congruence.
        -- match goal with Hc : component _ l _ |- _ => inversion Hc; congruence end.
    + assert (in_use t l) by (destruct Hl'; split; lia). rewrite (D l b) by assumption.
      apply extends_derives; auto. lia.
  - intros l [C1 C2]. split; [split; lia|]. unfold add_labels. destruct (N.leb_spec f l); [lia|reflexivity].
Qed.

Lemma lab_union t lab l1 l2 x t' : linv t -> lab_inv t lab -> in_use t l1 -> in_use t l2 ->
  union_taint t l1 l2 = Ok (x, t') ->
  let lab' := fun k => if k =? x then lab l1 ++ lab l2 else lab k in
  lab_inv t' lab' /\ (forall l, in_use t l -> in_use t' l /\ same (lab' l) (lab l)).
Proof.
  intros I [U D] U1 U2 H lab'. assert (W := proj1 I).
  destruct (union_taint_ok _ _ _ _ _ W U1 U2 H) as (W' & Ux & Ln & Ex & Dx).
  destruct (lstep_inv t (LUnion l1 l2) x t' I (conj U1 U2) (st_union _ _ _ _ _ H)) as [I' X].
  assert (Old : forall l b, in_use t l -> (In b (lab l) <-> derives (view t') l b)).
  { intros l b K. rewrite (D l b K). apply extends_derives; auto. apply K. }
  assert (Eq : forall l, in_use t l -> same (lab' l) (lab l)).
  { intros l K b. unfold lab'. destruct (N.eqb_spec l x) as [->|Hx]; [|tauto].
    rewrite in_app_iff, (Old x b K), Dx, (D l1 b U1), (D l2 b U2). tauto. }
  assert (NE : lab l1 <> []) by now apply U.
  split; [split|].
  - intros l. unfold lab'. destruct (N.eqb_spec l x) as [->|Hx].
    + split; [|intros _; exact Ux]. intros _. destruct (lab l1); [congruence|discriminate].
    + rewrite <- U. destruct Ex as [->|(-> & tn & -> & _)]; [tauto|]. unfold in_use. rewrite len_app, len_cons, len_nil.
      lia.
  - intros l b K. unfold lab'. destruct (N.eqb_spec l x) as [->|Hx].
    + rewrite in_app_iff, Dx, (D l1 b U1), (D l2 b U2). tauto.
    + apply Old. destruct Ex as [->|(-> & tn & -> & _)]; [exact K|]. unfold in_use in *. rewrite len_app, len_cons, len_nil in K. lia.
  - intros l K. split; [|now apply Eq]. destruct K. split; lia.
Qed.

Lemma lab_mark t lab l fuel junk t' : linv t -> lab_inv t lab -> in_use t l ->
  affects_control_flow fuel junk t l = Ok t' -> lab_inv t' lab /\ (forall k, in_use t k <-> in_use t' k).
Proof.
  intros I [U D] Ul H.
  destruct (lstep_inv t (LMark l) 0 t' I Ul (st_mark _ _ _ _ _ H)) as [I' X].
  destruct (affects_ok _ _ _ _ _ (proj1 I) (proj2 I) Ul H) as ((_ & Ln & _ & _) & _ & _).
  assert (E : forall k, in_use t k <-> in_use t' k) by (intros k; unfold in_use; rewrite Ln; tauto).
  split; [split|exact E].
  - intros k. rewrite <- E. apply U.
  - intros k b K. apply E in K. rewrite (D k b K). apply extends_derives; auto. apply K.
Qed.

Lemma add64_small a b : a + b < two64 -> add64 a b = a + b.
Proof. intros H. unfold add64. now apply N.mod_small. Qed.

(** A union never creates a source label. *)
Definition no_source (r : Res M_Union.union_ret) : Prop :=
  match r with Ok (M_Union.RTaint (TSource _ _ _)) => False | _ => True end.
Lemma no_source_range f l : no_source (M_Union.ret_range f l).
Proof. unfold M_Union.ret_range, mk_range. destruct (f <? l); exact I. Qed.
Lemma no_source_union_labels a b : no_source (M_Union.union_labels a b).
Proof.
  unfold M_Union.union_labels, mk_union.
  repeat match goal with |- context [if ?c then _ else _] => destruct c end; cbn [bind no_source]; auto using no_source_range.
Qed.
Lemma no_source_compute l lt r rt : no_source (M_Union.compute l lt r rt).
Proof.
  destruct lt, rt; cbn [M_Union.compute];
  unfold M_Union.union_source, M_Union.range_source, M_Union.union_range, M_Union.union_range_tail;
  repeat match goal with |- context [if ?c then _ else _] => destruct c end;
  try exact I; auto using no_source_range, no_source_union_labels.
Qed.

Lemma union_sources t l1 l2 x t' : wf_table t -> in_use t l1 -> in_use t l2 -> union_taint t l1 l2 = Ok (x, t') ->
  forall k cf i o, view t' k = Some (TSource cf i o) <-> view t k = Some (TSource cf i o).
Proof.
  intros W U1 U2 H k cf i o. destruct (union_taint_ok _ _ _ _ _ W U1 U2 H) as (W' & Ux & Ln & _ & _).
  unfold union_taint in H. destruct (N.eqb_spec l1 l2) as [|Ne]; [inversion H; subst; tauto|].
  destruct (wf_view t l1 W U1) as (lt & Gl & Vl & Wl & VVl). destruct (wf_view t l2 W U2) as (rt & Gr & Vr & Wr & VVr).
  assert (RL : read_label t l1 = Ok lt) by (unfold read_label, read_word; rewrite Gl; cbn [bind]; now apply decode_encode).
  assert (RR : read_label t l2 = Ok rt) by (unfold read_label, read_word; rewrite Gr; cbn [bind]; now apply decode_encode).
  rewrite RL, RR in H. cbn [bind] in H. assert (NS := no_source_compute l1 lt l2 rt).
  assert (Wc : len t <= max_label + 1) by (destruct W as (_ & ? & _); auto).
  assert (GR : good_ret (view t) l1 lt l2 rt (M_Union.compute l1 lt l2 rt)).
  { destruct U1, U2. apply compute_good; auto; lia. }
  destruct (M_Union.compute l1 lt l2 rt) as [[y|tn]| | |]; try discriminate; cbn [bind] in H; [inversion H; subst; tauto|].
  destruct (duplicate_check t (N.max l1 l2) (encode tn)); [inversion H; subst; tauto|].
  unfold M_Labels.construct in H. destruct (len t <? label_capacity) eqn:C; [|discriminate]. inversion H; subst x t'. clear H.
  destruct (N.ltb_spec k (len t)) as [L|L]; [now rewrite view_app|].
  assert (N1 : view t k = None).
  { destruct (view t k) eqn:V; [|reflexivity]. apply view_in_use in V; [|exact W]. destruct V. lia. }
  rewrite N1. split; [|discriminate]. intros V. exfalso.
  assert (Uk := V). apply view_in_use in Uk; [|exact W']. destruct Uk as [_ Uk]. rewrite len_app, len_cons, len_nil in Uk.
  replace k with (len t) in V by lia.
  destruct (wf_view _ _ W' Ux) as (tn' & G & V' & _ & Vt). rewrite V' in V. inversion V; subst tn'.
  apply get_snoc in G as [G|[_ G]].
  { apply get_some in G. lia. }
  destruct GR as (_ & Wt & _).
  assert (Vn : valid_taint tn) by (destruct U1, U2; eapply wf_valid; [|exact Wt]; unfold label_capacity; lia).
  assert (D := f_equal decode G). rewrite (decode_encode _ Vt), (decode_encode _ Vn) in D.
  destruct tn; cbn [no_source] in NS; [contradiction| |]; congruence.
Qed.

(** ** Outputs *)
Definition outs_from (i o k : N) (vals : list (list byte_id)) : list (N * N * list byte_id) :=
  filter (fun e => match snd e with [] => false | _ => true end)
         (map (fun kv => (i, o + fst kv, snd kv)) (combine (nseq k (length vals)) vals)).

Lemma outs_from_cons i o k v vals : outs_from i o k (v :: vals) =
  match v with [] => outs_from i o (k + 1) vals | _ => (i, o + k, v) :: outs_from i o (k + 1) vals end.
Proof. unfold outs_from. cbn [length nseq combine map filter fst snd]. now destruct v. Qed.

Definition rec_for (s : ast) (t : table) (e : sink_entry) (x : N * N * list byte_id) : Prop :=
  let '(pad, o, l, i) := e in let '(i', o', bs) := x in
  i = i' /\ o = o' /\ in_use t l /\ same bs (a_lab s l) /\ i < len (a_regs s) /\ o < 2 ^ 54.

Record api_inv (base : N) (r : rt) (s : ast) (g : ghost) : Prop := {
  ai_mem : mem_inv base r (a_regs s) (a_names s) (a_log s) g;
  ai_regs : Forall reg_ok (a_regs s);
  ai_lim : len (a_regs s) <= 255;
  ai_tr : reachable (r_tab r);
  ai_lab : lab_inv (r_tab r) (a_lab s);
  ai_mm : forall a, (r_shadow r a = 0 /\ a_mem s a = []) \/
                    (in_use (r_tab r) (r_shadow r a) /\ same (a_mem s a) (a_lab s (r_shadow r a)));
  ai_cf : forall b, In b (a_cf s) <-> exists m, view (r_tab r) m = Some (TSource true (fst b) (snd b));
  ai_out : Forall2 (rec_for s (r_tab r)) (g_recs g) (a_out s);
  ai_ev : map (fun e => (snd (fst e), snd e)) (g_evs g) = a_events s;
  ai_evb : Forall (fun e => snd e < 2 ^ 16) (g_evs g);
  ai_bm : forall l, asked (g_bops g) l <-> exists cf i o, view (r_tab r) l = Some (TSource cf i o);
  ai_bmf : forall o, In o (g_bops g) -> ~ range_in_last_bucket 2147483648 o;
  ai_rd : forall i, r_rd r i = a_rd s i;
  ai_wr : forall i, r_wr r i = a_wr s i;
  ai_cfl : Forall cf_ok (a_log s);
  ai_byt : forall l b, In b (a_lab s l) -> fst b < len (a_regs s) /\ snd b < 2 ^ 54;
  ai_nam : Forall name_ok (map reg_name (a_regs s)) /\ Forall name_ok (a_names s);
  ai_open : forall fd, In fd (a_open s) -> exists i, last_with (a_regs s) fd = Some i
}.

Lemma in_use_dec t l : in_use t l \/ ~ in_use t l.
Proof. unfold in_use. destruct (N.leb_spec 1 l), (N.ltb_spec l (len t)); intuition lia. Qed.

Lemma view_source_app t ws l : linv t -> l < len t -> view (t ++ ws) l = view t l.
Proof. intros I L. now apply view_app. Qed.

(** Allocating source labels. *)
(** A request for no label at all. *)
Lemma new_labels_none r idx o f la r' : wf_table (r_tab r) -> new_source_labels r idx o 0 = Ok (f, la, r') ->
  r' = r /\ f = len (r_tab r) /\ la + 1 = f.
Proof.
  intros W E. unfold new_source_labels, create_source_labels in E. change (mul64 8 0) with 0 in E.
  assert (L1 : 1 <= len (r_tab r)). { destruct W as (G & _). destruct (r_tab r); [discriminate|]. rewrite len_cons. lia. }
  assert (Cap : len (r_tab r) <= label_capacity) by apply W. change label_capacity with 2147483648 in *.
  destruct (8 * len (r_tab r) + 0 <=? 8 * 2147483648); [|discriminate].
  destruct (N.ltb_spec (len (r_tab r)) 2147483648); [|discriminate]. cbn [bind] in E.
  change (bm_set_range (r_mem r) (r_bm r) (len (r_tab r)) 0) with (Ok (r_mem r, r_bm r)) in E. cbn [bind fst snd] in E.
  change (N.to_nat (0 / 8)) with O in E. cbn [source_words map nseq] in E. rewrite app_nil_r in E.
  rewrite N.add_0_r, (N.mod_small (len (r_tab r) - 1)) in E by (unfold two32; lia).
  injection E as <- <- <-. split; [destruct r; reflexivity|]. split; [reflexivity|lia].
Qed.

Lemma inv_lab_ext base r s g lab : (forall l, lab l = a_lab s l) -> api_inv base r s g -> api_inv base r (with_lab s lab) g.
Proof.
  intros H []. constructor; cbn [with_lab a_regs a_names a_log a_lab a_mem a_cf a_out a_events a_rd a_wr a_open]; try assumption.
  - destruct ai_lab0 as [U D]. split; intros l; [rewrite H; apply U|]. intros b. rewrite H. apply D.
  - intros a. destruct (ai_mm0 a) as [K|[K1 K2]]; [now left|right]. split; [exact K1|]. rewrite H. exact K2.
  - eapply Forall2_impl'; [|exact ai_out0]. intros [[[pad o1] l] i] [[i' o'] bs]. unfold rec_for. cbn [with_lab a_lab a_regs]. rewrite H. auto.
  - intros l b I. rewrite H in I. exact (ai_byt0 l b I).
Qed.

Lemma inv_new_labels base r s g idx o n f la r' :
  mapped base shipped -> api_inv base r s g -> idx < len (a_regs s) -> o + n <= 2 ^ 54 ->
  new_source_labels r idx o n = Ok (f, la, r') -> la < 2 ^ 31 - 64 ->
  r_shadow r' = r_shadow r /\ r_rd r' = r_rd r /\ r_wr r' = r_wr r /\
  (forall l, f <= l -> l < f + n -> in_use (r_tab r') l) /\
  (forall l, in_use (r_tab r) l -> ~ (f <= l /\ l < f + n)) /\
  exists g', api_inv base r' (with_lab s (add_labels (a_lab s) f idx o n)) g'.
Proof.
  intros M A Hi Ho E Hla. assert (Z : n = 0 \/ 1 <= n) by lia. destruct Z as [->|Hn].
  { destruct (new_labels_none r idx o f la r' (proj1 (reachable_inv _ (ai_tr _ _ _ _ A))) E) as (-> & -> & _).
    split; [reflexivity|]. split; [reflexivity|]. split; [reflexivity|]. split; [intros l X Y; lia|].
    split; [intros l X Y; lia|]. exists g. apply inv_lab_ext; [|exact A].
    intros l. unfold add_labels. destruct (N.leb_spec (len (r_tab r)) l), (N.ltb_spec l (len (r_tab r) + 0)); cbn [andb]; auto; lia. }
  destruct A. unfold new_source_labels in E.
  destruct (create_source_labels (r_tab r) idx o n) as [[[f0 la0] t']| | |] eqn:C; try discriminate. cbn [bind] in E.
  destruct (bm_set_range (r_mem r) (r_bm r) f0 n) as [[m bm]| | |] eqn:B; try discriminate. cbn [bind fst snd] in E.
  inversion E; subst f0 la0 r'. clear E.
  assert (I := reachable_inv _ ai_tr0). assert (W := proj1 I).
  assert (Hs : idx <= 255) by lia.
  destruct (create_source_ok _ _ _ _ _ _ _ W Hs Hn Ho C) as (W' & Hf & Hl & Ln & Et).
  destruct (lab_source _ _ _ _ _ _ _ _ I ai_lab0 Hs Hn Ho C) as [Lb Old].
  assert (L1 : 1 <= len (r_tab r)). { destruct W as (G & _). destruct (r_tab r); [discriminate|]. rewrite len_cons. lia. }
  assert (Cap : len t' <= label_capacity) by apply W'. change label_capacity with 2147483648 in Cap.
  rt_fields. split; [reflexivity|]. split; [reflexivity|]. split; [reflexivity|].
  split; [intros l X Y; split; lia|]. split; [intros l [X Y] Z; lia|].
  assert (Mi := inv_set_range base r _ _ _ g f n m bm M ai_mem0 ltac:(lia) B).
  assert (S := st_source (r_tab r) idx o n f la t' C).
  destruct (lstep_inv (r_tab r) (LSource idx o n) f t' I) as [I' X]; [repeat split; assumption|exact S|].
  eexists. constructor; rt_fields; cbn [with_lab a_regs a_names a_log a_lab a_mem a_cf a_out a_events a_rd a_wr a_open].
  - destruct Mi. constructor; rt_fields; eassumption.
  - assumption.
  - assumption.
  - destruct ai_tr0 as [h T]. exists (h ++ [(LSource idx o n, f)]). eapply tr_snoc; [exact T|repeat split; assumption|exact S].
  - exact Lb.
  - intros a. destruct (ai_mm0 a) as [K|[K1 K2]]; [left; exact K|right]. destruct (Old _ K1) as [Q1 Q2].
    split; [exact Q1|]. rewrite Q2. exact K2.
  - intros b. rewrite ai_cf0. subst t'. split; intros (k & V).
    + exists k. rewrite view_app; [exact V|]. apply view_in_use in V; [apply V|exact W].
    + exists k. destruct (N.ltb_spec k (len (r_tab r))) as [Lk|Lk]; [rewrite view_app in V by assumption; exact V|].
      assert (Uk := V). apply view_in_use in Uk; [|exact W']. destruct Uk as [_ Uk].
      assert (V' := create_source_view _ _ _ _ _ _ _ (k - f) W Hs Hn Ho C ltac:(lia)).
      replace (f + (k - f)) with k in V' by lia. congruence.
  - cbn [g_recs]. eapply Forall2_impl'; [|exact ai_out0]. intros [[[pad o1] l] i] [[i' o'] bs] (Q1 & Q2 & Q3 & Q4 & Q5 & Q6).
    destruct (Old _ Q3) as [Z1 Z2]. unfold rec_for. cbn [with_lab a_lab a_regs]. rewrite Z2. auto 10.
  - cbn [g_evs]. assumption.
  - cbn [g_evs]. assumption.
  - cbn [g_bops]. intros l. rewrite asked_snoc, ai_bm0. cbn [asks]. subst t'. split.
    + intros [(cf & i & o1 & V)|[X1 X2]].
      * exists cf, i, o1. rewrite view_app; [exact V|]. apply view_in_use in V; [apply V|exact W].
      * assert (V' := create_source_view _ _ _ _ _ _ _ (l - f) W Hs Hn Ho C ltac:(lia)).
        replace (f + (l - f)) with l in V' by lia. eauto.
    + intros (cf & i & o1 & V). destruct (N.ltb_spec l (len (r_tab r))) as [Lk|Lk].
      * left. rewrite view_app in V by assumption. eauto.
      * right. apply view_in_use in V; [|exact W']. destruct V. lia.
  - cbn [g_bops]. intros q Q. apply in_app_iff in Q as [Q|[<-|[]]]; [now apply ai_bmf0|].
    cbn [range_in_last_bucket]. change (64 * (bucket_count 2147483648 - 1)) with 2147483584.
    change (2 ^ 31 - 64) with 2147483584 in Hla. lia.
  - assumption.
  - assumption.
  - assumption.
  - intros l b H. unfold add_labels in H. destruct ((f <=? l) && (l <? f + n)) eqn:Q.
    + destruct H as [<-|[]]. cbn [fst snd]. apply andb_prop in Q as [Q1 Q2]. apply N.leb_le in Q1. apply N.ltb_lt in Q2. split; lia.
    + eapply ai_byt0; eauto.
  - assumption.
  - assumption.
Qed.

Ltac api_fields := rt_fields; cbn [with_lab with_mem with_reg with_rd with_out a_regs a_names a_log a_lab a_mem a_cf a_out a_events a_rd a_wr a_open].

Lemma label_bytes_spec n : forall sh addr f a, label_bytes sh addr f n a =
  if (addr <=? a) && (a <? addr + N.of_nat n) then f + (a - addr) else sh a.
Proof.
  induction n as [|n IH]; intros sh addr f a; cbn [label_bytes].
  - destruct (N.leb_spec addr a), (N.ltb_spec a (addr + N.of_nat 0)); cbn [andb]; try reflexivity; lia.
  - rewrite IH. destruct (N.leb_spec (addr + 1) a), (N.ltb_spec a (addr + 1 + N.of_nat n)), (N.leb_spec addr a),
      (N.ltb_spec a (addr + N.of_nat (S n))), (N.eqb_spec a addr); cbn [andb]; try reflexivity; try lia.
Qed.

(** Changing the shadow memory. *)
Lemma inv_shadow base r s g sh mm : api_inv base r s g ->
  (forall a, (sh a = 0 /\ mm a = []) \/ (in_use (r_tab r) (sh a) /\ same (mm a) (a_lab s (sh a)))) ->
  api_inv base (set_shadow r sh) (with_mem s mm) g.
Proof.
  intros A H. destruct A. constructor; api_fields; try assumption.
  - destruct ai_mem0. constructor; rt_fields; eassumption.
Qed.

Lemma inv_rd base r s g rd ard : api_inv base r s g -> (forall i, rd i = ard i) -> api_inv base (set_rd r rd) (with_rd s ard) g.
Proof.
  intros A H. destruct A. constructor; api_fields; try assumption.
  - destruct ai_mem0. constructor; rt_fields; eassumption.
Qed.

Lemma inv_wr base r s g wr awr : api_inv base r s g -> (forall i, wr i = awr i) ->
  api_inv base (set_wr r wr) (with_out s awr []) g.
Proof.
  intros A H. destruct A. constructor; api_fields; rewrite ?app_nil_r; try assumption.
  - destruct ai_mem0. constructor; rt_fields; eassumption.
Qed.

(** Registering a source. *)
Lemma inv_reg base r s g gr op : mapped base shipped -> api_inv base r s g -> name_ok (reg_name gr) -> reg_ok gr ->
  within_limits (with_reg s gr op) -> (forall fd, In fd op -> In fd (a_open s) \/ reg_fd gr = Some fd) ->
  exists m st src g', add_source (r_mem r) (r_st r) (r_src r) (reg_name gr) (fd_value gr) (size_value gr) = Ok (Some (len (a_regs s)), m, st, src) /\
    api_inv base (set_files r m src st) (with_reg s gr op) g'.
Proof.
  intros M A Nm Rg (L1 & L2 & L3 & L4) Op. destruct A. unfold strings_of in L2. cbn [with_reg a_regs a_names] in L1, L2.
  rewrite len_app, len_cons, len_nil in L1.
  destruct (inv_add_source base r _ _ _ g gr M ai_mem0 Nm ltac:(lia) L2) as (m & st & src & acc & soffs & E & Mi).
  exists m, st, src. eexists. split; [exact E|].
  constructor; api_fields; try eassumption.
  - apply Forall_app. split; [assumption|]. constructor; [exact Rg|constructor].
  - rewrite len_app, len_cons, len_nil. lia.
  - cbn [g_recs]. eapply Forall2_impl'; [|exact ai_out0]. intros [[[pad o1] l] i] [[i' o'] bs] (Q1 & Q2 & Q3 & Q4 & Q5 & Q6).
    unfold rec_for. cbn [with_reg a_regs a_lab]. rewrite len_app. repeat split; auto; try apply Q3; try apply Q4; lia.
  - intros l b H. destruct (ai_byt0 l b H). rewrite len_app. split; [lia|assumption].
  - destruct ai_nam0. split; [|assumption]. rewrite map_app. apply Forall_app. split; [assumption|]. constructor; [exact Nm|constructor].
  - intros fd H. destruct (Op fd H) as [K|K].
    + destruct (ai_open0 fd K) as [i Hi]. rewrite last_with_snoc, Hi. destruct (reg_fd gr) as [z|]; [destruct (z =? fd)%Z|]; eauto.
    + rewrite last_with_snoc, K, Z.eqb_refl. eauto.
Qed.

(** One record in the sink log. *)
Lemma inv_sink1 base r s g pad o l i bs : mapped base shipped -> api_inv base r s g -> is_bytes pad ->
  len (a_out s) < 2 ^ 20 -> in_use (r_tab r) l -> same bs (a_lab s l) -> i < len (a_regs s) -> o < 2 ^ 54 ->
  exists m sink g', log_single pad (r_mem r) (r_sink r) o l i = (m, sink) /\
    api_inv base (set_sink r m sink) (with_out s (a_wr s) [(i, o, bs)]) g'.
Proof.
  intros M A Pb Lo Ul Sm Hi Ho. destruct A.
  assert (Lr : len (g_recs g) = len (a_out s)) by (unfold len; f_equal; clear -ai_out0; induction ai_out0; cbn; congruence).
  destruct (inv_log_single base r _ _ _ g pad o l i M ai_mem0 Pb ltac:(lia)) as (m & sink & E & Mi).
  exists m, sink. eexists. split; [exact E|].
  constructor; api_fields; try eassumption.
  - cbn [g_recs]. apply Forall2_app; [exact ai_out0|]. constructor; [|constructor].
    unfold rec_for. cbn [with_out a_lab a_regs]. repeat split; auto; try apply Ul; apply Sm.
Qed.

Lemma with_out_app s wr a b : with_out (with_out s wr a) wr b = with_out s wr (a ++ b).
Proof. unfold with_out. cbn. now rewrite app_assoc. Qed.
Lemma with_out_nil s : with_out s (a_wr s) [] = s.
Proof. unfold with_out. rewrite app_nil_r. now destruct s. Qed.

Lemma inv_sink_bytes base pad idx o n : mapped base shipped -> (forall i, is_bytes (pad i)) ->
  forall r s g addr k, api_inv base r s g -> idx < len (a_regs s) -> o + k + N.of_nat n <= 2 ^ 54 ->
  len (a_out s) + len (outs_from idx o k (map (a_mem s) (nseq addr n))) <= 2 ^ 20 ->
  exists g', api_inv base (sink_bytes_loop pad r idx addr (o + k) k n)
     (with_out s (a_wr s) (outs_from idx o k (map (a_mem s) (nseq addr n)))) g'.
Proof.
  intros M Pb. induction n as [|n IH]; intros r s g addr k A Hi Ho Hl.
  - exists g. cbn [sink_bytes_loop nseq map]. change (outs_from idx o k []) with (@nil (N * N * list byte_id)). now rewrite with_out_nil.
  - cbn [sink_bytes_loop nseq map] in *. rewrite outs_from_cons in *.
    assert (Ad : add64 (o + k) 1 = o + (k + 1)).
    { rewrite add64_small; [lia|]. change (2 ^ 54) with 18014398509481984 in Ho. unfold two64. lia. }
    rewrite Ad.
    destruct (ai_mm _ _ _ _ A addr) as [[Z1 Z2]|[U Sm]].
    + rewrite Z1. rewrite Z2 in *. change (0 <? 0) with false. cbv iota in *.
      apply IH with (g := g); auto. lia.
    + assert (Ul : 1 <= r_shadow r addr) by apply U.
      destruct (N.ltb_spec 0 (r_shadow r addr)) as [Y|Y]; [|lia].
      assert (NE : a_mem s addr <> []).
      { intros Q. assert (X := proj1 (proj1 (ai_lab _ _ _ _ A) _) U).
        destruct (a_lab s (r_shadow r addr)) as [|b bs] eqn:Eb; [congruence|].
        assert (F : In b (a_mem s addr)) by (apply Sm; cbn; auto). rewrite Q in F. contradiction. }
      destruct (a_mem s addr) as [|b0 bs0] eqn:Eb; [congruence|]. rewrite <- Eb in *. clear NE.
      cbv iota in *. rewrite len_cons in Hl.
      destruct (inv_sink1 base r s g (pad k) (o + k) (r_shadow r addr) idx (a_mem s addr) M A (Pb k)
                  ltac:(lia) U Sm Hi ltac:(lia)) as (m & sink & g1 & E & A1).
      rewrite E.
      destruct (IH _ _ g1 (addr + 1) (k + 1) A1) as [g2 A2].
      * exact Hi.
      * lia.
      * cbn [with_out a_out a_mem]. rewrite len_app, len_cons, len_nil. lia.
      * exists g2. cbn [with_out a_wr a_mem] in A2. change (a_wr s) with (a_wr (with_out s (a_wr s) [(idx, o + k, a_mem s addr)])) in A2 at 1.
        cbn [with_out a_wr] in A2.
        assert (Q := with_out_app s (a_wr s) [(idx, o + k, a_mem s addr)] (outs_from idx o (k + 1) (map (a_mem s) (nseq (addr + 1) n)))).
        cbn [app] in Q. rewrite <- Q. exact A2.
Qed.

Lemma inv_sink_label base pad idx o l n : mapped base shipped -> (forall i, is_bytes (pad i)) ->
  forall r s g k, api_inv base r s g -> idx < len (a_regs s) -> in_use (r_tab r) l -> o + k + N.of_nat n <= 2 ^ 54 ->
  len (a_out s) + len (outs_from idx o k (repeat (a_lab s l) n)) <= 2 ^ 20 ->
  exists g', api_inv base (sink_label_loop pad r idx l o k n)
     (with_out s (a_wr s) (outs_from idx o k (repeat (a_lab s l) n))) g'.
Proof.
  intros M Pb. induction n as [|n IH]; intros r s g k A Hi U Ho Hl.
  - exists g. cbn [sink_label_loop repeat]. change (outs_from idx o k []) with (@nil (N * N * list byte_id)). now rewrite with_out_nil.
  - cbn [sink_label_loop repeat] in *. rewrite outs_from_cons in *.
    assert (Ad : add64 o k = o + k).
    { apply add64_small. change (2 ^ 54) with 18014398509481984 in Ho. unfold two64. lia. }
    rewrite Ad.
    assert (NE := proj1 (proj1 (ai_lab _ _ _ _ A) _) U).
    destruct (a_lab s l) as [|b0 bs0] eqn:Eb; [congruence|]. rewrite <- Eb in *. clear NE. cbv iota in *. rewrite len_cons in Hl.
    destruct (inv_sink1 base r s g (pad k) (o + k) l idx (a_lab s l) M A (Pb k)
                  ltac:(lia) U (fun b => iff_refl _) Hi ltac:(lia)) as (m & sink & g1 & E & A1).
    rewrite E. destruct (IH _ _ g1 (k + 1) A1) as [g2 A2].
    + exact Hi.
    + exact U.
    + lia.
    + cbn [with_out a_out a_lab]. rewrite len_app, len_cons, len_nil. lia.
    + exists g2. cbn [with_out a_wr a_lab] in A2.
      assert (Q := with_out_app s (a_wr s) [(idx, o + k, a_lab s l)] (outs_from idx o (k + 1) (repeat (a_lab s l) n))).
      cbn [app] in Q. rewrite <- Q. exact A2.
Qed.

Lemma known_use base r s g l : api_inv base r s g -> known s l -> in_use (r_tab r) l.
Proof. intros A K. now apply (proj1 (ai_lab _ _ _ _ A)). Qed.

Lemma inv_read_offset base r s g idx off n o r1 : api_inv base r s g -> position (a_rd s) idx off + n <= 2 ^ 54 ->
  read_offset r idx off n = Ok (o, r1) ->
  o = position (a_rd s) idx off /\ api_inv base r1 (with_rd s (advance (a_rd s) idx off n)) g.
Proof.
  intros A P E. destruct off as [o0|]; cbn [read_offset position advance] in *.
  - inversion E; subst. split; [reflexivity|]. assert (X := inv_rd base r1 s g (r_rd r1) (a_rd s) A (ai_rd _ _ _ _ A)).
    destruct r1. exact X.
  - unfold stream_increase in E. destruct (stream_count <=? idx); [discriminate|]. cbn [bind fst snd] in E. inversion E; subst.
    split; [apply (ai_rd _ _ _ _ A)|]. apply inv_rd; [exact A|]. intros i.
    destruct (N.eqb_spec i idx) as [->|]; [|apply (ai_rd _ _ _ _ A)].
    rewrite (ai_rd _ _ _ _ A). apply add64_small. change (2 ^ 54) with 18014398509481984 in P. unfold two64. lia.
Qed.

Lemma inv_write_offset base r s g idx off n o r1 : api_inv base r s g -> position (a_wr s) idx off + n <= 2 ^ 54 ->
  write_offset r idx off n = Ok (o, r1) ->
  o = position (a_wr s) idx off /\ api_inv base r1 (with_out s (advance (a_wr s) idx off n) []) g.
Proof.
  intros A P E. destruct off as [o0|]; cbn [write_offset position advance] in *.
  - inversion E; subst. split; [reflexivity|]. assert (X := inv_wr base r1 s g (r_wr r1) (a_wr s) A (ai_wr _ _ _ _ A)).
    destruct r1. exact X.
  - unfold stream_increase in E. destruct (stream_count <=? idx); [discriminate|]. cbn [bind fst snd] in E. inversion E; subst.
    split; [apply (ai_wr _ _ _ _ A)|]. apply inv_wr; [exact A|]. intros i.
    destruct (N.eqb_spec i idx) as [->|]; [|apply (ai_wr _ _ _ _ A)].
    rewrite (ai_wr _ _ _ _ A). apply add64_small. change (2 ^ 54) with 18014398509481984 in P. unfold two64. lia.
Qed.

(** Source labels put to memory. *)
Lemma inv_create_taint base r s g idx addr o n f la r' :
  mapped base shipped -> api_inv base r s g -> idx < len (a_regs s) -> o + n <= 2 ^ 54 ->
  create_source_taint r idx addr n o = Ok (f, la, r') -> la < 2 ^ 31 - 64 ->
  exists g', api_inv base r' (with_mem (with_lab s (add_labels (a_lab s) f idx o n)) (add_bytes (a_mem s) addr idx o n)) g'.
Proof.
  intros M A Hi Ho E Hla. unfold create_source_taint in E.
  destruct (new_source_labels r idx o n) as [[[f0 la0] r1]| | |] eqn:C; try discriminate. cbn [bind] in E.
  inversion E; subst f0 la0 r'. clear E.
  destruct (inv_new_labels base r s g idx o n f la r1 M A Hi Ho C Hla) as (Q1 & Q2 & Q3 & Q4 & Q5 & g' & A').
  exists g'. apply inv_shadow; [exact A'|]. intros a. rewrite label_bytes_spec, Nnat.N2Nat.id. cbn [with_lab a_lab]. unfold add_bytes.
  destruct ((addr <=? a) && (a <? addr + n)) eqn:R.
  - right. apply andb_prop in R as [R1 R2]. apply N.leb_le in R1. apply N.ltb_lt in R2. split; [apply Q4; lia|].
    unfold add_labels. destruct (N.leb_spec f (f + (a - addr))); [|lia]. destruct (N.ltb_spec (f + (a - addr)) (f + n)); [|lia].
    cbn [andb]. replace (f + (a - addr) - f) with (a - addr) by lia. intros b. tauto.
  - rewrite Q1. exact (ai_mm _ _ _ _ A' a) || (rewrite <- Q1; exact (ai_mm _ _ _ _ A' a)).
Qed.

Lemma with_out_wr s wr out : with_out (with_out s wr []) wr out = with_out s wr out.
Proof. unfold with_out. cbn. now rewrite app_nil_r. Qed.

Lemma api_step_inv base r s g c x r' : mapped base shipped -> api_inv base r s g ->
  call_ok s c -> api_step r c x r' -> ret_ok x -> within_limits (astep s c x) ->
  exists g', api_inv base r' (astep s c x) g'.
Proof.
  intros M A K S R L. destruct S; cbn [call_ok astep ret_ok] in *.
  - (* open *) destruct K as (K1 & K2 & K3). unfold rt_open in H.
    assert (Rg : reg_ok (mkReg path (Some fd) size)).
    { split; cbn; [intros z E; inversion E; subst; exact K1|exact K3]. }
    assert (Op : forall z, In z (fd :: a_open s) -> In z (a_open s) \/ reg_fd (mkReg path (Some fd) size) = Some z).
    { intros z [->|I]; cbn; auto. }
    destruct (inv_reg base r s g (mkReg path (Some fd) size) (fd :: a_open s) M A K2 Rg L Op)
      as (m & st & src & g' & E & A').
    unfold fd_value, size_value in E. cbn [reg_name reg_fd reg_size] in E. rewrite E in H. cbn [bind] in H. inversion H; subst. eauto.
  - (* close *) exists g. unfold rt_close. destruct A. constructor; api_fields; try assumption.
    intros z I. apply filter_In in I as [I _]. auto.
  - (* read to memory *)
    destruct K as ([K2 _] & K3). unfold rt_source_mem in H.
    rewrite (inv_mapping_idx base r _ _ _ g fd M (ai_mem _ _ _ _ A) (ai_regs _ _ _ _ A) (ai_lim _ _ _ _ A) ltac:(lia)) in H.
    cbn [bind] in H. destruct (last_with (a_regs s) fd) as [idx|] eqn:E.
    2: { inversion H; subst. eauto. }
    assert (Hi := last_with_bound _ _ _ E).
    destruct (read_offset r idx off n) as [[o r1]| | |] eqn:Ro; try discriminate. cbn [bind fst snd] in H.
    destruct (create_source_taint r1 idx addr n o) as [[[f la] r2]| | |] eqn:C; try discriminate. cbn [bind] in H.
    inversion H; subst x r2. clear H.
    destruct (inv_read_offset _ _ _ _ _ _ _ _ _ A (K3 _ E) Ro) as [-> A1].
    exact (inv_create_taint base r1 _ g idx addr _ n f la r' M A1 Hi (K3 _ E) C R).
  - (* read without memory *)
    destruct K as ([K2 _] & K3). unfold rt_source_range in H.
    rewrite (inv_mapping_idx base r _ _ _ g fd M (ai_mem _ _ _ _ A) (ai_regs _ _ _ _ A) (ai_lim _ _ _ _ A) ltac:(lia)) in H.
    cbn [bind] in H. destruct (last_with (a_regs s) fd) as [idx|] eqn:E.
    2: { inversion H; subst. eauto. }
    assert (Hi := last_with_bound _ _ _ E).
    destruct (read_offset r idx off n) as [[o r1]| | |] eqn:Ro; try discriminate. cbn [bind fst snd] in H.
    destruct (new_source_labels r1 idx o n) as [[[f la] r2]| | |] eqn:C; try discriminate. cbn [bind] in H.
    inversion H; subst x r2. clear H.
    destruct (inv_read_offset _ _ _ _ _ _ _ _ _ A (K3 _ E) Ro) as [-> A1].
    destruct (inv_new_labels base r1 _ g idx _ n f la r' M A1 Hi (K3 _ E) C R) as (_ & _ & _ & _ & _ & A2). exact A2.
  - (* named source *)
    destruct K as (K2 & K3). unfold rt_named in H.
    assert (Rg : reg_ok (mkReg name None None)) by (split; cbn; discriminate).
    assert (L' : within_limits (with_reg s (mkReg name None None) (a_open s))).
    { destruct x as [[f la]|]; exact L. }
    destruct (inv_reg base r s g (mkReg name None None) (a_open s) M A K2 Rg L' (fun z I => or_introl I))
      as (m & st & src & g' & E & A').
    unfold fd_value, size_value in E. cbn [reg_name reg_fd reg_size] in E. rewrite E in H. cbn [bind] in H.
    destruct (create_source_taint (set_files r m src st) (len (a_regs s)) addr n 0) as [[[f la] r2]| | |] eqn:C; try discriminate. cbn [bind] in H.
    inversion H; subst x r2. clear H.
    refine (inv_create_taint base _ _ g' (len (a_regs s)) addr 0 n f la r' M A' _ ltac:(lia) C R).
    cbn [with_reg a_regs]. rewrite len_app, len_cons, len_nil. lia.
  - (* union *)
    destruct K as [K1 K2]. apply (known_use base r s g) in K1, K2; try exact A. unfold rt_union in H.
    destruct (union_taint (r_tab r) l1 l2) as [[x0 t']| | |] eqn:C; try discriminate. cbn [bind fst snd] in H. inversion H; subst x0 r'. clear H.
    assert (I := reachable_inv _ (ai_tr _ _ _ _ A)). assert (W := proj1 I).
    destruct (lab_union _ _ _ _ _ _ I (ai_lab _ _ _ _ A) K1 K2 C) as [Lb Old].
    destruct (union_taint_ok _ _ _ _ _ W K1 K2 C) as (W' & Ux & Ln & Ex & Dx).
    destruct A. exists g. constructor; api_fields; try assumption.
    + destruct ai_mem0. constructor; rt_fields; eassumption.
    + destruct ai_tr0 as [h T]. exists (h ++ [(LUnion l1 l2, x)]). eapply tr_snoc; [exact T|split; assumption|constructor; exact C].
    + intros a. destruct (ai_mm0 a) as [Q|[Q1 Q2]]; [left; exact Q|right]. destruct (Old _ Q1) as [Z1 Z2].
      split; [exact Z1|]. intros b. rewrite (Q2 b). symmetry. apply Z2.
    + intros b. rewrite ai_cf0. split; intros (k & V); exists k; apply (union_sources _ _ _ _ _ W K1 K2 C); exact V.
    + eapply Forall2_impl'; [|exact ai_out0]. intros [[[pad o1] l] i] [[i' o'] bs] (Q1 & Q2 & Q3 & Q4 & Q5 & Q6).
      destruct (Old _ Q3) as [Z1 Z2]. unfold rec_for. cbn [with_lab a_lab a_regs]. repeat split; auto; try apply Z1.
      * intros Z. apply Z2. now apply Q4.
      * intros Z. apply Q4. now apply Z2.
    + intros l. rewrite ai_bm0. split; intros (cf & i & o & V); exists cf, i, o; apply (union_sources _ _ _ _ _ W K1 K2 C); exact V.
    + intros l b H. destruct (l =? x); [|eapply ai_byt0; eauto]. apply in_app_iff in H as [H|H]; eapply ai_byt0; eauto.
  - (* set *)
    exists g. apply inv_shadow; [exact A|]. intros a. destruct (a =? addr); [|apply (ai_mm _ _ _ _ A)].
    destruct K as [->|K].
    + left. split; [reflexivity|]. apply (lab_zero (r_tab r)); [apply (ai_lab _ _ _ _ A)|]. intros [Z _]. lia.
    + right. split; [now apply (known_use base r s g)|]. intros b. tauto.
  - (* write from memory *)
    destruct K as ([K1 _] & K2). unfold rt_sink_mem in H0.
    rewrite (inv_mapping_idx base r _ _ _ g fd M (ai_mem _ _ _ _ A) (ai_regs _ _ _ _ A) (ai_lim _ _ _ _ A) ltac:(lia)) in H0.
    cbn [bind] in H0. destruct (last_with (a_regs s) fd) as [idx|] eqn:E.
    2: { inversion H0; subst. eauto. }
    assert (Hi := last_with_bound _ _ _ E).
    destruct (write_offset r idx off n) as [[o r1]| | |] eqn:Ro; try discriminate. cbn [bind fst snd] in H0. inversion H0; subst r'. clear H0.
    assert (Tr := K2 _ E).
    destruct (inv_write_offset _ _ _ _ _ _ _ _ _ A Tr Ro) as [-> A1].
    destruct L as (_ & _ & L3 & _). cbn [with_out a_out] in L3. rewrite len_app in L3.
    destruct (inv_sink_bytes base pad idx (position (a_wr s) idx off) (N.to_nat n) M H r1 _ g addr 0 A1 Hi) as [g' A2].
    + rewrite Nnat.N2Nat.id. lia.
    + cbn [with_out a_out a_mem]. rewrite app_nil_r. exact L3.
    + exists g'. cbn [with_out a_wr a_mem] in A2. rewrite N.add_0_r in A2.
      assert (Q := with_out_wr s (advance (a_wr s) idx off n) (outputs idx (position (a_wr s) idx off) (map (a_mem s) (nseq addr (N.to_nat n))))).
      rewrite <- Q. exact A2.
  - (* write of a value *)
    destruct K as ([K1 _] & K2 & K3). unfold rt_sink_label in H0.
    rewrite (inv_mapping_idx base r _ _ _ g fd M (ai_mem _ _ _ _ A) (ai_regs _ _ _ _ A) (ai_lim _ _ _ _ A) ltac:(lia)) in H0.
    cbn [bind] in H0. destruct (last_with (a_regs s) fd) as [idx|] eqn:E.
    2: { inversion H0; subst. eauto. }
    assert (Hi := last_with_bound _ _ _ E).
    destruct (write_offset r idx off n) as [[o r1]| | |] eqn:Ro; try discriminate. cbn [bind fst snd] in H0.
    assert (Tr := K2 _ E).
    destruct (inv_write_offset _ _ _ _ _ _ _ _ _ A Tr Ro) as [-> A1].
    destruct L as (_ & _ & L3 & _). cbn [with_out a_out] in L3. rewrite len_app in L3.
    assert (Q := with_out_wr s (advance (a_wr s) idx off n) (outputs idx (position (a_wr s) idx off) (repeat (a_lab s l) (N.to_nat n)))).
    destruct (N.eqb_spec l 0) as [->|Nz].
    + inversion H0; subst r'. exists g.
      assert (Z : a_lab s 0 = []) by (apply (lab_zero (r_tab r)); [apply (ai_lab _ _ _ _ A)|intros [Z _]; lia]).
      rewrite Z. replace (outputs idx (position (a_wr s) idx off) (repeat [] (N.to_nat n))) with (@nil (N * N * list byte_id)); [exact A1|].
      symmetry. change (outs_from idx (position (a_wr s) idx off) 0 (repeat [] (N.to_nat n)) = []).
      clear. generalize 0. induction (N.to_nat n) as [|k IH]; intros j; [reflexivity|]. cbn [repeat]. rewrite outs_from_cons. apply IH.
    + inversion H0; subst r'. clear H0. destruct K3 as [K3|K3]; [congruence|].
      assert (U := known_use base r1 _ g l A1 K3).
      destruct (inv_sink_label base pad idx (position (a_wr s) idx off) l (N.to_nat n) M H r1 _ g 0 A1 Hi U) as [g' A2].
      * rewrite Nnat.N2Nat.id. lia.
      * cbn [with_out a_out a_lab]. rewrite app_nil_r. exact L3.
      * exists g'. cbn [with_out a_wr a_lab] in A2. rewrite <- Q. exact A2.
  - (* branch *)
    apply (known_use base r s g) in K; [|exact A]. unfold rt_affects in H.
    destruct (affects_control_flow fuel junk (r_tab r) l) as [t'| | |] eqn:C; try discriminate. cbn [bind] in H. inversion H; subst r'. clear H.
    assert (I := reachable_inv _ (ai_tr _ _ _ _ A)). assert (W := proj1 I).
    destruct (lab_mark _ _ _ _ _ _ I (ai_lab _ _ _ _ A) K C) as [Lb Same].
    destruct (affects_ok _ _ _ _ _ W (proj2 I) K C) as ((W' & Ln & Er & _) & _ & Fl).
    assert (Src : forall k i o, (exists cf, view t' k = Some (TSource cf i o)) <-> (exists cf, view (r_tab r) k = Some (TSource cf i o))).
    { intros k i o. specialize (Er k). destruct (view (r_tab r) k) as [[]|], (view t' k) as [[]|]; cbn in Er; try discriminate Er;
        split; intros [c0 E]; try discriminate E; injection Er; intros; subst; injection E; intros; subst; eauto. }
    destruct A. exists g. constructor; api_fields; try assumption.
    + destruct ai_mem0. constructor; rt_fields; eassumption.
    + destruct ai_tr0 as [h T]. exists (h ++ [(LMark l, 0)]). eapply tr_snoc; [exact T|exact K|econstructor; exact C].
    + intros a. destruct (ai_mm0 a) as [Q|[Q1 Q2]]; [left; exact Q|right]. split; [now apply Same|exact Q2].
    + intros b. rewrite in_app_iff, ai_cf0, (proj2 ai_lab0 l b K). split.
      * intros [(k & V)|(k & cf & Bf & V)].
        -- assert (F : flg t' k) by (apply Fl; left; eexists; split; [exact V|reflexivity]).
           destruct (proj2 (Src k (fst b) (snd b)) ltac:(eauto)) as [cf' V']. destruct F as (tn & V2 & F).
           rewrite V' in V2. inversion V2; subst tn. cbn in F. subst cf'. eauto.
        -- assert (F : flg t' k) by (apply Fl; right; exact Bf).
           destruct (proj2 (Src k (fst b) (snd b)) ltac:(eauto)) as [cf' V']. destruct F as (tn & V2 & F).
           rewrite V' in V2. inversion V2; subst tn. cbn in F. subst cf'. eauto.
      * intros (k & V). assert (F : flg t' k) by (eexists; split; [exact V|reflexivity]).
        destruct (proj1 (Src k (fst b) (snd b)) ltac:(eauto)) as [cf' V'].
        apply Fl in F as [(tn & V2 & F)|Bf].
        -- left. exists k. rewrite V' in V2. inversion V2; subst tn. cbn in F. subst cf'. exact V'.
        -- right. exists k, cf'. split; assumption.
    + eapply Forall2_impl'; [|exact ai_out0]. intros [[[pad o1] l0] i] [[i' o'] bs] (Q1 & Q2 & Q3 & Q4 & Q5 & Q6).
      apply Same in Q3. unfold rec_for. cbn [a_lab a_regs]. repeat split; auto; try apply Q3; apply Q4.
    + intros k. rewrite ai_bm0. split; intros (cf & i & o & V).
      * destruct (proj2 (Src k i o) ltac:(eauto)) as [cf' V']. eauto.
      * destruct (proj1 (Src k i o) ltac:(eauto)) as [cf' V']. eauto.
  - (* log *)
    unfold rt_cf in H. destruct (cf_log (r_mem r) (r_cf r) e) as [[m cf]| | |] eqn:C; try discriminate. cbn [bind fst snd] in H. inversion H; subst r'. clear H.
    exists g. assert (Mi := inv_cf_log base r _ _ _ g e m cf M (ai_mem _ _ _ _ A) K C).
    destruct A. constructor; api_fields; try assumption. apply Forall_app. split; [assumption|]. constructor; [exact K|constructor].
  - (* function entry *)
    unfold rt_fn_entry in H0. destruct L as (L1 & L2 & L3 & L4). unfold strings_of in L2. cbn [a_regs a_names a_out] in L1, L2, L3, L4.
    destruct (inv_add_mapping base r _ _ _ g name M (ai_mem _ _ _ _ A) K) as (m & st & fs & f & acc & offs & E & Mi).
    { intros Q. rewrite Q in L2, L4. rewrite len_app, len_cons, len_nil in L4. split; [exact L2|lia]. }
    rewrite E in H0. cbn [bind] in H0.
    set (idx := match index_of name (a_names s) with Some k => k | None => len (a_names s) end) in *.
    destruct (log_fn_event pad (r_mem (set_fns r m st fs f)) (r_ev (set_fns r m st fs f)) EvEntry idx) as [[m2 ev]| | |] eqn:C; try discriminate.
    cbn [bind fst snd] in H0. inversion H0; subst i r'. clear H0.
    assert (Mi2 := inv_log_event base _ _ _ _ _ pad EvEntry idx m2 ev M Mi H C). eexists.
    assert (Ix : idx < 2 ^ 16).
    { unfold idx. destruct (index_of name (a_names s)) as [k|] eqn:Q.
      - apply index_of_some in Q. apply get_some in Q. change (2 ^ 16) with 65536. lia.
      - change (2 ^ 16) with 65536. rewrite len_app, len_cons, len_nil in L4. lia. }
    destruct A. constructor; api_fields; try eassumption.
    + cbn [g_evs]. rewrite map_app. cbn [map fst snd]. f_equal. assumption.
    + cbn [g_evs]. apply Forall_app. split; [assumption|]. constructor; [exact Ix|constructor].
    + destruct ai_nam0. split; [assumption|]. destruct (index_of name (a_names s)); [assumption|].
      apply Forall_app. split; [assumption|]. constructor; [exact K|constructor].
  - (* function exit *)
    unfold rt_fn_exit in H0. destruct (log_fn_event pad (r_mem r) (r_ev r) EvExit i) as [[m2 ev]| | |] eqn:C; try discriminate.
    cbn [bind fst snd] in H0. inversion H0; subst r'. clear H0.
    assert (Mi2 := inv_log_event base _ _ _ _ _ pad EvExit i m2 ev M (ai_mem _ _ _ _ A) H C). eexists.
    destruct A. constructor; api_fields; try eassumption.
    + cbn [g_evs]. rewrite map_app. cbn [map fst snd]. f_equal. assumption.
    + cbn [g_evs]. apply Forall_app. split; [assumption|]. constructor; [exact K|constructor].
Qed.

(** ** Runs *)
Lemma api_start base r : mapped base shipped -> rt_new base = Ok r -> exists g, api_inv base r a_init g.
Proof.
  intros M E. destruct (rt_new_spec base M) as (r0 & E0 & Mi & T & Sh & Rd & Wr). rewrite E in E0. inversion E0; subst r0.
  eexists. constructor; rewrite ?T; cbn [a_init a_regs a_names a_log a_lab a_mem a_cf a_out a_events a_rd a_wr a_open];
    try eassumption; try (constructor; fail).
  - rewrite len_nil. lia.
  - exists []. constructor.
  - apply lab_new.
  - intros a. left. auto.
  - intros b. split; [contradiction|]. intros (m & V). apply view_in_use in V; [|apply wf_new]. destruct V as [A B].
    change (len labels_new) with 1 in B. lia.
  - intros l. split.
    + intros (o & [] & _).
    + intros (cf & i & o & V). apply view_in_use in V; [|apply wf_new]. destruct V as [A B]. change (len labels_new) with 1 in B. lia.
  - intros o [].
  - intros l b [].
  - split; constructor.
  - intros fd [].
Qed.

Lemma api_run_inv base h r s : mapped base shipped -> api_run base h r s -> exists g, api_inv base r s g.
Proof.
  intros M R. induction R as [r E|h r s c x r' R IH K S Rk L].
  - now apply api_start.
  - destruct IH as [g A]. eapply api_step_inv; eauto.
Qed.
