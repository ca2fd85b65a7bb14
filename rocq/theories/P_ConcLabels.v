From Coq Require Import Arith NArith List Bool Lia.
From Verif Require Import M_Base M_Encoding M_Union M_Labels M_Conc M_ConcLabels S_Provenance S_Labels S_ConcLabels
  P_Base P_Encoding P_Labels P_ControlFlow P_Conc.
Import ListNotations.
Open Scope N_scope.

(** ** Flags do not influence unions *)
Lemma compute_erase l lt lt' r rt rt' : erase_cf lt = erase_cf lt' -> erase_cf rt = erase_cf rt' ->
  compute l lt r rt = compute l lt' r rt'.
Proof.
  intros A B. destruct lt, lt'; cbn in A; try discriminate; injection A as; subst;
  destruct rt, rt'; cbn in B; try discriminate; injection B as; subst; reflexivity.
Qed.

(** ** Local invariants *)
Definition vword (ct : table) (x w : N) : Prop :=
  exists tn tn', view ct x = Some tn /\ valid_taint tn' /\ w = encode tn' /\ erase_cf tn' = erase_cf tn.

Definition cand (ct : table) (h : list (lcall * N)) (l r enc : N) : Prop :=
  l <> r /\ handed h l /\ handed h r /\
  exists tn, enc = encode tn /\ cf_of tn = false /\ wf_taint (N.max l r + 1) tn /\
    forall b, den (view ct) tn b <-> derives (view ct) l b \/ derives (view ct) r b.

Definition sok (src off n : N) : Prop := src <= 255 /\ 1 <= n /\ off + n <= 2 ^ 54.

Definition pend (t : lthread) : list N :=
  match t with
  | TVisit _ todo q => todo ++ q
  | TVMark _ x todo q | TVMarkW _ x _ todo q => x :: todo ++ q
  | TSet _ x _ q | TSetW _ x _ _ q => x :: q
  | _ => []
  end.
Notation rootof := marking.
Definition holding (t : lthread) : Prop :=
  match t with TUStore _ _ _ _ | TUUnlock _ _ _ _ | TSStore _ _ _ _ _ => True | _ => False end.

Definition is_source (ct : table) (x : N) : Prop := exists cf i o, view ct x = Some (TSource cf i o).

Definition tinv (ct fl : table) (h : list (lcall * N)) (owner : option N) (j : N) (t : lthread) : Prop :=
  match t with
  | TIdle => True
  | TURead1 l r => l <> r /\ handed h l /\ handed h r
  | TURead2 l r lv => l <> r /\ handed h l /\ handed h r /\
      exists lv0, view ct l = Some lv0 /\ erase_cf lv = erase_cf lv0
  | TUCount l r enc | TULock l r enc => cand ct h l r enc
  | TUScan l r enc pos rem => cand ct h l r enc /\ N.max l r + N.of_nat rem <= pos + 1 /\ pos < len ct
  | TUStore l r enc lbl => cand ct h l r enc /\ owner = Some j /\ lbl = len ct /\ fl = [0]
  | TUUnlock l r enc lbl => cand ct h l r enc /\ owner = Some j /\ lbl = len ct /\ fl = [enc]
  | TSLock src off n => sok src off n
  | TSStore src off n first i => sok src off n /\ owner = Some j /\ first = len ct /\ i <= n /\
      fl = source_words src off (N.to_nat i) ++ repeat 0 (N.to_nat (n - i))
  | TVisit root todo q => in_use ct root /\ Forall (in_use ct) (todo ++ q)
  | TVMark root x todo q => in_use ct root /\ Forall (in_use ct) (x :: todo ++ q) /\ is_source ct x
  | TVMarkW root x w todo q => in_use ct root /\ Forall (in_use ct) (x :: todo ++ q) /\ is_source ct x /\ vword ct x w
  | TSet root x enc q => in_use ct root /\ Forall (in_use ct) (x :: q) /\ vword ct x enc
  | TSetW root x enc w q => in_use ct root /\ Forall (in_use ct) (x :: q) /\ vword ct x enc /\ vword ct x w
  end.

(** ** Growth of the table *)
Lemma extends_in_use ct ct' x : extends ct ct' -> in_use ct x -> in_use ct' x.
Proof. intros [L _] [A B]. split; [exact A|]. lia. Qed.

Lemma extends_view ct ct' x tn : wf_table ct -> extends ct ct' -> view ct x = Some tn ->
  exists tn', view ct' x = Some tn' /\ erase_cf tn' = erase_cf tn.
Proof.
  intros W [L E] V. destruct (view_in_use _ _ _ W V) as [A B]. destruct (E x B) as [E1 _].
  rewrite V in E1. cbn in E1. destruct (view ct' x) as [tn'|]; cbn in E1; [|discriminate].
  exists tn'. split; [reflexivity|congruence].
Qed.

Lemma extends_derives ct ct' x b : wf_table ct -> wf_table ct' -> extends ct ct' -> x < len ct ->
  (derives (view ct) x b <-> derives (view ct') x b).
Proof. intros W W' E L. eapply agree_derives; eauto. now apply extends_agree. Qed.

Lemma extends_component ct ct' x m : wf_table ct -> extends ct ct' -> x < len ct ->
  (component (view ct) x m <-> component (view ct') x m).
Proof.
  intros W E L. split; intros C.
  - eapply (agree_component (len ct)); eauto. now apply extends_agree.
  - eapply (agree_component (len ct)); [|exact L|exact C]. apply agree_sym. now apply extends_agree.
Qed.

Lemma extends_built ct ct' x m : wf_table ct -> extends ct ct' -> x < len ct ->
  built_from (view ct) x m -> built_from (view ct') x m.
Proof. intros W E L B. eapply (agree_built_from (len ct)); eauto. now apply extends_agree. Qed.

Lemma extends_den ct ct' n tn b : wf_table ct -> wf_table ct' -> extends ct ct' -> n <= len ct -> wf_taint n tn ->
  (den (view ct) tn b <-> den (view ct') tn b).
Proof.
  intros W W' E L Wt. destruct tn as [cf i o|cf f la|cf lo hi]; cbn [den wf_taint] in *.
  - reflexivity.
  - split; intros (m & R & D); exists m; (split; [exact R|]); apply (extends_derives ct ct' m b W W' E) in D || apply (extends_derives ct ct' m b W W' E); auto; lia.
  - rewrite (extends_derives ct ct' lo b W W' E) by lia. rewrite (extends_derives ct ct' hi b W W' E) by lia. reflexivity.
Qed.

Lemma handed_incl h h' l : incl h h' -> handed h l -> handed h' l.
Proof.
  intros I [(src & off & n & f & A & B)|(a & c & A)]; [left|right].
  - exists src, off, n, f. auto. - exists a, c. auto.
Qed.

Lemma vword_mono ct ct' x w : wf_table ct -> extends ct ct' -> vword ct x w -> vword ct' x w.
Proof.
  intros W E (tn & tn' & V & A & B & C). destruct (extends_view ct ct' x tn W E V) as (t2 & V2 & E2).
  exists t2, tn'. repeat split; auto. congruence.
Qed.
Lemma is_source_mono ct ct' x : wf_table ct -> extends ct ct' -> is_source ct x -> is_source ct' x.
Proof.
  intros W E (cf & i & o & V). destruct (extends_view ct ct' x _ W E V) as (t2 & V2 & E2).
  destruct t2; cbn in E2; try discriminate. injection E2 as -> ->. exists cf0, i, o. exact V2.
Qed.

(** ** The log *)
Record loginv (ct : table) (h : list (lcall * N)) : Prop := {
  lg_src : forall src off n f, In (KSource src off n, f) h ->
     1 <= f /\ f + n <= len ct /\ forall i, i < n -> exists cf, view ct (f + i) = Some (TSource cf src (off + i));
  lg_union : forall a c x, In (KUnion a c, x) h -> in_use ct a /\ in_use ct c /\ in_use ct x /\
     forall b, derives (view ct) x b <-> derives (view ct) a b \/ derives (view ct) c b;
  lg_order : forall h1 a c x h2, h = h1 ++ (KUnion a c, x) :: h2 -> handed h1 a /\ handed h1 c;
  lg_disj : forall i j src off n f src' off' n' f', i < j ->
     get h i = Some (KSource src off n, f) -> get h j = Some (KSource src' off' n', f') -> f + n <= f'
}.

Lemma handed_in_use ct h l : loginv ct h -> handed h l -> in_use ct l.
Proof.
  intros [S U _ _] [(src & off & n & f & A & B & C)|(a & c & A)].
  - destruct (S _ _ _ _ A) as (F1 & F2 & _). split; lia.
  - apply (U _ _ _ A).
Qed.

Lemma loginv_mono ct ct' h : wf_table ct -> wf_table ct' -> extends ct ct' -> loginv ct h -> loginv ct' h.
Proof.
  intros W W' E [S U O D]. assert (EL : len ct <= len ct') by apply E. constructor; auto.
  - intros src off n f I. destruct (S _ _ _ _ I) as (F1 & F2 & F3). split; [exact F1|]. split; [lia|].
    intros i Hi. destruct (F3 i Hi) as (cf & V). destruct (extends_view ct ct' _ _ W E V) as (t2 & V2 & E2).
    destruct t2; cbn in E2; try discriminate. injection E2 as -> ->. eauto.
  - intros a c x I. destruct (U _ _ _ I) as (A & B & C & F). split; [eauto using extends_in_use|]. split; [eauto using extends_in_use|].
    split; [eauto using extends_in_use|]. intros b. destruct A, B, C. rewrite <- !(extends_derives ct ct' _ b W W' E) by assumption. apply F.
Qed.

Lemma loginv_snoc_mark ct h r : loginv ct h -> loginv ct (h ++ [(KMark r, 0)]).
Proof.
  intros [S U O D]. constructor.
  - intros src off n f I. apply in_app_or in I. destruct I as [I|[I|[]]]; [eauto|discriminate].
  - intros a c x I. apply in_app_or in I. destruct I as [I|[I|[]]]; [eauto|discriminate].
  - intros h1 a c x h2 Eq. destruct (exists_last (l := (KUnion a c, x) :: h2)) as (h3 & y & E3); [discriminate|].
    rewrite E3, app_assoc in Eq. apply app_inj_tail in Eq. destruct Eq as [Eq <-].
    destruct h3 as [|z h3]; cbn in E3; injection E3 as; [discriminate|]. subst z h2. eapply O. exact Eq.
  - intros i j src off n f src' off' n' f' L Gi Gj.
    assert (Lj := get_some _ _ _ Gj). rewrite len_app in Lj. change (len [(KMark r, 0)]) with 1 in Lj.
    destruct (N.eq_dec j (len h)) as [->|Hj]; [rewrite get_app_last in Gj; discriminate|].
    rewrite get_app_l in Gi, Gj by lia. eauto.
Qed.

Lemma loginv_snoc_union ct h a c x : loginv ct h -> handed h a -> handed h c -> in_use ct x ->
  (forall b, derives (view ct) x b <-> derives (view ct) a b \/ derives (view ct) c b) ->
  loginv ct (h ++ [(KUnion a c, x)]).
Proof.
  intros L0 Ha Hc Ux F. destruct (L0) as [S U O D]. constructor.
  - intros src off n f I. apply in_app_or in I. destruct I as [I|[I|[]]]; [eauto|discriminate].
  - intros a' c' x' I. apply in_app_or in I. destruct I as [I|[I|[]]]; [eauto|]. injection I as <- <- <-.
    split; [eapply handed_in_use; eauto|]. split; [eapply handed_in_use; eauto|]. auto.
  - intros h1 a' c' x' h2 Eq. destruct (exists_last (l := (KUnion a' c', x') :: h2)) as (h3 & y & E3); [discriminate|].
    rewrite E3, app_assoc in Eq. apply app_inj_tail in Eq. destruct Eq as [Eq <-].
    destruct h3 as [|z h3]; cbn in E3; injection E3 as.
    + rewrite app_nil_r in Eq. subst. auto.
    + subst z h2. eapply O. exact Eq.
  - intros i j src off n f src' off' n' f' L Gi Gj.
    assert (Lj := get_some _ _ _ Gj). rewrite len_app in Lj. change (len [(KUnion a c, x)]) with 1 in Lj.
    destruct (N.eq_dec j (len h)) as [->|Hj]; [rewrite get_app_last in Gj; discriminate|].
    rewrite get_app_l in Gi, Gj by lia. eauto.
Qed.

Lemma loginv_snoc_source ct h src off n f : loginv ct h -> 1 <= f -> f + n <= len ct ->
  (forall i, i < n -> exists cf, view ct (f + i) = Some (TSource cf src (off + i))) ->
  (forall src off n f', In (KSource src off n, f') h -> f' + n <= f) ->
  loginv ct (h ++ [(KSource src off n, f)]).
Proof.
  intros L0 H1 H2 H3 H4. destruct (L0) as [S U O D]. constructor.
  - intros src' off' n' f' I. apply in_app_or in I. destruct I as [I|[I|[]]]; [eauto|]. injection I as <- <- <- <-. auto.
  - intros a' c' x' I. apply in_app_or in I. destruct I as [I|[I|[]]]; [eauto|discriminate].
  - intros h1 a' c' x' h2 Eq. destruct (exists_last (l := (KUnion a' c', x') :: h2)) as (h3 & y & E3); [discriminate|].
    rewrite E3, app_assoc in Eq. apply app_inj_tail in Eq. destruct Eq as [Eq <-].
    destruct h3 as [|z h3]; cbn in E3; injection E3 as; [discriminate|]. subst z h2. eapply O. exact Eq.
  - intros i j src1 off1 n1 f1 src' off' n' f' L Gi Gj.
    assert (Lj := get_some _ _ _ Gj). rewrite len_app in Lj. change (len [(KSource src off n, f)]) with 1 in Lj.
    rewrite get_app_l in Gi by lia.
    destruct (N.eq_dec j (len h)) as [->|Hj].
    + rewrite get_app_last in Gj. injection Gj as <- <- <- <-. apply (H4 src1 off1). unfold get in Gi. now apply nth_error_In in Gi.
    + rewrite get_app_l in Gj by lia. eauto.
Qed.

Lemma cand_mono ct ct' h h' l r enc : wf_table ct -> wf_table ct' -> extends ct ct' -> incl h h' -> loginv ct h ->
  cand ct h l r enc -> cand ct' h' l r enc.
Proof.
  intros W W' E I L (A & B & C & tn & D1 & D2 & D3 & D4). split; [exact A|]. split; [eauto using handed_incl|].
  split; [eauto using handed_incl|]. exists tn. split; [exact D1|]. split; [exact D2|]. split; [exact D3|]. intros b.
  destruct (handed_in_use _ _ _ L B) as [_ Bl]. destruct (handed_in_use _ _ _ L C) as [_ Cl].
  rewrite <- (extends_den ct ct' (N.max l r + 1) tn b W W' E ltac:(lia) D3).
  rewrite <- !(extends_derives ct ct' _ b W W' E) by assumption. apply D4.
Qed.

Lemma tinv_mono ct ct' fl fl' h h' o o' j t : wf_table ct -> wf_table ct' -> extends ct ct' -> incl h h' -> loginv ct h ->
  (holding t -> o = Some j -> fl' = fl /\ o' = o /\ len ct' = len ct) ->
  tinv ct fl h o j t -> tinv ct' fl' h' o' j t.
Proof.
  intros W W' E I L Hh T. assert (EL : len ct <= len ct') by apply E.
  assert (FU : forall xs, Forall (in_use ct) xs -> Forall (in_use ct') xs).
  { intros xs. apply Forall_impl. intros x. now apply extends_in_use. }
  destruct t as [|l r|l r lv|l r enc|l r enc pos rem|l r enc|l r enc lbl|l r enc lbl|src off n|src off n first i
                |root todo q|root x todo q|root x w todo q|root x enc q|root x enc w q]; cbn [tinv holding] in *.
  - exact T.
  - destruct T as (A & B & C). eauto using handed_incl.
  - destruct T as (A & B & C & lv0 & V & D). split; [exact A|]. split; [eauto using handed_incl|]. split; [eauto using handed_incl|].
    destruct (extends_view _ _ _ _ W E V) as (t2 & V2 & E2). exists t2. split; [exact V2|congruence].
  - eauto using cand_mono.
  - destruct T as (A & B & C). split; [eauto using cand_mono|]. split; [exact B|lia].
  - eauto using cand_mono.
  - destruct T as (A & B & C & D). destruct (Hh Logic.I B) as (-> & -> & Q). split; [eauto using cand_mono|]. repeat split; auto. congruence.
  - destruct T as (A & B & C & D). destruct (Hh Logic.I B) as (-> & -> & Q). split; [eauto using cand_mono|]. repeat split; auto. congruence.
  - exact T.
  - destruct T as (A & B & C & D & F). destruct (Hh Logic.I B) as (-> & -> & Q). split; [exact A|]. repeat split; auto. congruence.
  - destruct T as (A & B). split; [eauto using extends_in_use|auto].
  - destruct T as (A & B & C). split; [eauto using extends_in_use|]. split; [auto|]. eauto using is_source_mono.
  - destruct T as (A & B & C & D). split; [eauto using extends_in_use|]. split; [auto|]. split; eauto using is_source_mono, vword_mono.
  - destruct T as (A & B & C). split; [eauto using extends_in_use|]. split; [auto|]. eauto using vword_mono.
  - destruct T as (A & B & C & D). split; [eauto using extends_in_use|]. split; [auto|]. split; eauto using vword_mono.
Qed.

(** ** The global invariant *)
Definition pending (ts : list lthread) (m : N) : Prop := exists j t, get ts j = Some t /\ In m (pend t).
Definition rooted (h : list (lcall * N)) (ts : list lthread) (r : N) : Prop :=
  In (KMark r, 0) h \/ exists j t, get ts j = Some t /\ rootof t = Some r.

Record ginv (ct fl : table) (s : lshared) (ts : list lthread) : Prop := {
  gi_tab : ls_tab s = ct ++ fl;
  gi_wf : wf_table ct;
  gi_free : ls_lock s = None -> fl = [];
  gi_cap : len ct + len fl <= label_capacity;
  gi_log : loginv ct (ls_log s);
  gi_thr : forall j t, get ts j = Some t -> tinv ct fl (ls_log s) (ls_lock s) j t;
  gi_closed : forall x m, flg ct x -> component (view ct) x m -> flg ct m \/ pending ts m;
  gi_roots : forall r, rooted (ls_log s) ts r -> in_use ct r /\ (flg ct r \/ pending ts r);
  gi_just : forall x, flg ct x \/ pending ts x -> exists r, rooted (ls_log s) ts r /\ built_from (view ct) r x
}.

Lemma flg_dec ct x : flg ct x \/ ~ flg ct x.
Proof.
  unfold flg. destruct (view ct x) as [tn|].
  - destruct (cf_of tn) eqn:C; [left; eauto|right]. intros (t2 & E & F). injection E as <-. congruence.
  - right. intros (t2 & E & _). discriminate.
Qed.

Lemma pending_upd ts i t t' m (Q : Prop) : get ts i = Some t -> (In m (pend t) -> In m (pend t') \/ Q) ->
  pending ts m -> pending (upd ts i t') m \/ Q.
Proof.
  intros G H (j & tj & Gj & Pj). assert (Li := get_some _ _ _ G). destruct (N.eq_dec i j) as [->|Hne].
  - rewrite G in Gj. injection Gj as <-. destruct (H Pj) as [Y|Y]; [left|right; exact Y].
    exists j, t'. split; [now apply get_upd_eq|exact Y].
  - left. exists j, tj. split; [|exact Pj]. now rewrite get_upd_neq.
Qed.
Lemma pending_new ts i t t' m : get ts i = Some t -> pending (upd ts i t') m -> pending ts m \/ In m (pend t').
Proof.
  intros G (j & tj & Gj & Pj). assert (Li := get_some _ _ _ G). destruct (N.eq_dec i j) as [->|Hne].
  - rewrite get_upd_eq in Gj by auto. injection Gj as <-. auto.
  - rewrite get_upd_neq in Gj by auto. left. exists j, tj. auto.
Qed.

Lemma flg_lt ct x : wf_table ct -> flg ct x -> in_use ct x.
Proof. intros W (tn & V & _). eapply view_in_use; eauto. Qed.

Lemma ginv_build ct fl s ts i t t' s' ct' fl' :
  ginv ct fl s ts -> get ts i = Some t ->
  ls_tab s' = ct' ++ fl' -> wf_table ct' -> (ls_lock s' = None -> fl' = []) -> len ct' + len fl' <= label_capacity ->
  extends ct ct' -> incl (ls_log s) (ls_log s') -> loginv ct' (ls_log s') ->
  tinv ct' fl' (ls_log s') (ls_lock s') i t' ->
  (forall j, j <> i -> ls_lock s = Some j -> ls_lock s' = ls_lock s /\ fl' = fl /\ len ct' = len ct) ->
  (forall x, flg ct' x -> flg ct x \/ In x (pend t)) ->
  (forall x m, flg ct' x -> ~ flg ct x -> component (view ct') x m -> In m (pend t') \/ flg ct' m) ->
  (forall m, In m (pend t) -> In m (pend t') \/ flg ct' m) ->
  (forall m, In m (pend t') -> In m (pend t) \/ (exists x, In x (pend t) /\ component (view ct') x m) \/ rootof t' = Some m) ->
  (forall r, rootof t = Some r -> rootof t' = Some r \/ In (KMark r, 0) (ls_log s')) ->
  (forall r, rootof t' = Some r -> in_use ct' r /\ (rootof t = Some r \/ In r (pend t'))) ->
  (forall r, In (KMark r, 0) (ls_log s') -> In (KMark r, 0) (ls_log s) \/ rootof t = Some r) ->
  ginv ct' fl' s' (upd ts i t').
Proof.
  intros Gv G H1 H2 H3 H4 H5 H6 H7 H8 H9 F1 F2 F3 F4 R1 R2 R3.
  destruct Gv as [Ta W Fr Ca Lg Th Cl Ro Ju]. assert (Li := get_some _ _ _ G).
  assert (FM : forall x, flg ct x -> flg ct' x).
  { intros x Hx. destruct (flg_lt _ _ W Hx) as [_ L]. destruct H5 as [_ E]. now apply (E x L). }
  assert (RM : forall r, rooted (ls_log s) ts r -> rooted (ls_log s') (upd ts i t') r).
  { intros r [I|(j & tj & Gj & Rj)]; [left; auto|]. destruct (N.eq_dec i j) as [->|Hne].
    - rewrite G in Gj. injection Gj as <-. destruct (R1 r Rj) as [Y|Y]; [right|left; exact Y].
      exists j, t'. split; [now apply get_upd_eq|exact Y].
    - right. exists j, tj. split; [|exact Rj]. now rewrite get_upd_neq. }
  assert (JM : forall x, flg ct x \/ pending ts x -> exists r, rooted (ls_log s') (upd ts i t') r /\ built_from (view ct') r x).
  { intros x Hx. destruct (Ju x Hx) as (r & Hr & Br). exists r. split; [now apply RM|].
    destruct (Ro r Hr) as [[_ L] _]. exact (extends_built ct ct' r x W H5 L Br). }
  assert (PI : forall x, In x (pend t) -> pending ts x) by (intros x Hx; exists i, t; auto).
  constructor; auto.
  - intros j tj Gj. destruct (N.eq_dec i j) as [->|Hne].
    + rewrite get_upd_eq in Gj by auto. injection Gj as <-. exact H8.
    + rewrite get_upd_neq in Gj by auto. eapply (tinv_mono ct ct' fl fl'); eauto.
      intros Hh Ho. destruct (H9 j (fun e => Hne (eq_sym e)) Ho) as (Q1 & Q2 & Q3). rewrite Q1. auto.
  - intros x m Fx C. destruct (flg_dec ct x) as [D|D].
    + destruct (flg_lt _ _ W D) as [_ L]. apply (extends_component ct ct' x m W H5 L) in C.
      destruct (Cl x m D C) as [Y|Y]; [left; auto|].
      destruct (pending_upd ts i t t' m (flg ct' m) G (F3 m) Y); auto.
    + destruct (F2 x m Fx D C) as [Y|Y]; [right|left; exact Y]. exists i, t'. split; [now apply get_upd_eq|exact Y].
  - intros r Hr.
    assert (OldCase : rooted (ls_log s) ts r -> in_use ct' r /\ (flg ct' r \/ pending (upd ts i t') r)).
    { intros Ho. destruct (Ro r Ho) as [U [Y|Y]]; (split; [eapply extends_in_use; eauto|]); [left; auto|].
      destruct (pending_upd ts i t t' r (flg ct' r) G (F3 r) Y); auto. }
    destruct Hr as [I|(j & tj & Gj & Rj)].
    + destruct (R3 r I) as [Y|Y]; apply OldCase; [now left|]. right. eauto.
    + destruct (N.eq_dec i j) as [->|Hne].
      * rewrite get_upd_eq in Gj by auto. injection Gj as <-. destruct (R2 r Rj) as [U [Y|Y]].
        -- apply OldCase. right. eauto.
        -- split; [exact U|]. right. exists j, t'. split; [now apply get_upd_eq|exact Y].
      * rewrite get_upd_neq in Gj by auto. apply OldCase. right. eauto.
  - intros x [Fx|Px].
    + destruct (F1 x Fx) as [Y|Y]; apply JM; auto.
    + destruct (pending_new ts i t t' x G Px) as [Y|Y]; [apply JM; auto|].
      destruct (F4 x Y) as [Z|[(y & Iy & Cy)|Z]].
      * apply JM; auto.
      * destruct (JM y (or_intror (PI y Iy))) as (r & Hr & Br). exists r. split; [exact Hr|].
        eapply built_from_trans; [exact Br|]. eapply bf_step; [exact Cy|apply bf_refl].
      * exists x. split; [|apply bf_refl]. right. exists i, t'. split; [now apply get_upd_eq|exact Z].
Qed.

(** Steps that keep the table and the lock, and do not take part in marking. *)
Lemma ginv_quiet ct fl s ts i t t' s' :
  ginv ct fl s ts -> get ts i = Some t -> pend t = [] -> rootof t = None -> pend t' = [] -> rootof t' = None ->
  ls_tab s' = ls_tab s -> ls_lock s' = ls_lock s -> incl (ls_log s) (ls_log s') -> loginv ct (ls_log s') ->
  (forall r, In (KMark r, 0) (ls_log s') -> In (KMark r, 0) (ls_log s)) ->
  tinv ct fl (ls_log s') (ls_lock s') i t' -> ginv ct fl s' (upd ts i t').
Proof.
  intros Gv G P1 R1 P2 R2 E1 E2 I L M T. pose proof Gv as [Ta W Fr Ca Lg Th Cl Ro Ju].
  refine (ginv_build ct fl s ts i t t' s' ct fl Gv G _ W _ Ca (extends_refl ct) I L T _ _ _ _ _ _ _ _).
  - congruence.
  - rewrite E2. exact Fr.
  - auto.
  - auto.
  - intros x m A B. contradiction.
  - rewrite P1. intros m [].
  - rewrite P2. intros m [].
  - rewrite R1. discriminate.
  - rewrite R2. discriminate.
  - auto.
Qed.

(** Reads of labels in use. *)
Lemma read_committed ct fl s ts x tn : ginv ct fl s ts -> view ct x = Some tn ->
  read_word (ls_tab s) x = Ok (encode tn).
Proof.
  intros Gv V. destruct Gv as [Ta W _ _ _ _ _ _ _]. destruct (view_wf _ _ _ W V) as (_ & _ & G).
  destruct (view_in_use _ _ _ W V) as [_ L]. unfold read_word. rewrite Ta, get_app_l by assumption. now rewrite G.
Qed.

Lemma upd_nat_app_l {A} (a b : list A) i v : (i < length a)%nat -> upd_nat (a ++ b) i v = upd_nat a i v ++ b.
Proof.
  revert i. induction a as [|x a IH]; intros i H; cbn in *; [lia|]. destruct i; cbn; [reflexivity|].
  f_equal. apply IH. lia.
Qed.
Lemma upd_app_l {A} (a b : list A) i v : i < len a -> upd (a ++ b) i v = upd a i v ++ b.
Proof. unfold upd, len. intros. apply upd_nat_app_l. lia. Qed.
Lemma upd_nat_app_r {A} (a b : list A) i v : (length a <= i)%nat -> upd_nat (a ++ b) i v = a ++ upd_nat b (i - length a) v.
Proof.
  revert i. induction a as [|x a IH]; intros i H; cbn in *; [now rewrite Nat.sub_0_r|]. destruct i; cbn; [lia|].
  f_equal. apply IH. lia.
Qed.
Lemma upd_app_r {A} (a b : list A) i v : len a <= i -> upd (a ++ b) i v = a ++ upd b (i - len a) v.
Proof. unfold upd, len. intros. rewrite upd_nat_app_r by lia. do 2 f_equal. lia. Qed.

Lemma set_cf_erase a b : erase_cf a = erase_cf b -> set_cf a = set_cf b.
Proof. destruct a, b; cbn; intros E; inversion E; reflexivity. Qed.

Lemma flag_written ct fl x w : wf_table ct -> in_use ct x -> vword ct x w ->
  exists ct', upd (ct ++ fl) x (add_affects_control_flow w) = ct' ++ fl /\ upto ct ct' /\
    (forall y, flg ct' y <-> flg ct y \/ y = x).
Proof.
  intros W [U1 U2] (tn & tn' & V & Vt & -> & E). destruct (view_wf _ _ _ W V) as (Wt & Vt0 & G).
  destruct (set_flag_spec ct x tn W V) as (t1 & S1 & _). exists t1.
  destruct (upto_set ct x tn t1 W V S1) as (A & B). split; [|auto].
  unfold set_affects_control_flow in S1. rewrite G in S1. rewrite add_cf_encode in S1 by assumption.
  rewrite add_cf_encode by assumption. rewrite (set_cf_erase _ _ E). rewrite upd_app_l by assumption.
  injection S1 as <-. reflexivity.
Qed.

Lemma component_erase ct x tn tn' m : view ct x = Some tn -> erase_cf tn' = erase_cf tn ->
  (In m (visit_order tn') <-> component (view ct) x m).
Proof.
  intros V E. rewrite <- (visit_order_component ct x tn V). destruct tn, tn'; cbn in E; inversion E; subst; reflexivity.
Qed.

Lemma is_source_no_component ct x m : is_source ct x -> ~ component (view ct) x m.
Proof. intros (cf & i & o & V) C. apply (visit_order_component ct x _ V) in C. destruct C. Qed.

Lemma is_src_view ct x tn : view ct x = Some tn -> is_src tn = true -> is_source ct x.
Proof. intros V S. destruct tn; cbn in S; try discriminate. unfold is_source. eauto. Qed.

Lemma repeat_cons {A} (x : A) n : 1 <= n -> repeat x (N.to_nat n) = x :: repeat x (N.to_nat (n - 1)).
Proof. intros H. replace (N.to_nat n) with (S (N.to_nat (n - 1))) by lia. reflexivity. Qed.

Lemma nseq_snoc f n : nseq f (S n) = nseq f n ++ [f + N.of_nat n].
Proof.
  revert f. induction n as [|n IH]; intros f; [cbn; now rewrite N.add_0_r|].
  cbn [nseq] in *. rewrite IH. cbn [app]. do 3 f_equal. lia.
Qed.
Lemma source_words_snoc src off i :
  source_words src off (N.to_nat (i + 1)) = source_words src off (N.to_nat i) ++ [encode (TSource false src (off + i))].
Proof.
  unfold source_words. replace (N.to_nat (i + 1)) with (S (N.to_nat i)) by lia.
  rewrite nseq_snoc, map_app. cbn [map]. now rewrite N2Nat.id.
Qed.

Lemma in_snoc {A} (x y : A) h : In x (h ++ [y]) -> x = y \/ In x h.
Proof. intros I. apply in_app_or in I. destruct I as [I|[I|[]]]; auto. Qed.

(** Steps of a marking thread that change no word. *)
Lemma ginv_mark ct fl s ts i t t' root :
  ginv ct fl s ts -> get ts i = Some t -> rootof t = Some root -> rootof t' = Some root ->
  tinv ct fl (ls_log s) (ls_lock s) i t' -> in_use ct root ->
  (forall m, In m (pend t) -> In m (pend t') \/ flg ct m) -> (forall m, In m (pend t') -> In m (pend t)) ->
  ginv ct fl s (upd ts i t').
Proof.
  intros Gv G R1 R2 T U P1 P2. pose proof Gv as [Ta W Fr Ca Lg Th Cl Ro Ju].
  refine (ginv_build ct fl s ts i t t' s ct fl Gv G Ta W Fr Ca (extends_refl ct) (incl_refl _) Lg T _ _ _ P1 _ _ _ _); auto.
  - intros x m A B. contradiction.
  - rewrite R1, R2. auto.
  - rewrite R1, R2. intros r Er. injection Er as <-. auto.
Qed.

(** Steps of a marking thread that set one flag. *)
Lemma ginv_flag ct fl s ts i t t' root x w :
  ginv ct fl s ts -> get ts i = Some t -> rootof t = Some root -> rootof t' = Some root -> in_use ct root ->
  in_use ct x -> vword ct x w -> In x (pend t) ->
  (forall ct', upto ct ct' -> tinv ct' fl (ls_log s) (ls_lock s) i t') ->
  (forall m, In m (pend t) -> m = x \/ In m (pend t')) ->
  (forall m, component (view ct) x m -> In m (pend t')) ->
  (forall m, In m (pend t') -> In m (pend t) \/ component (view ct) x m) ->
  exists ct', ginv ct' fl (set_tab s (upd (ls_tab s) x (add_affects_control_flow w))) (upd ts i t') /\ extends ct ct'.
Proof.
  intros Gv G R1 R2 U Ux V Ix T P1 P2 P3. pose proof Gv as [Ta W Fr Ca Lg Th Cl Ro Ju].
  destruct (flag_written ct fl x w W Ux V) as (ct' & E & Up & Fl). exists ct'.
  assert (X := extends_upto _ _ Up). split; [|exact X]. pose proof Up as (W' & L' & _ & _).
  set (s' := set_tab s (upd (ls_tab s) x (add_affects_control_flow w))).
  refine (ginv_build ct fl s ts i t t' s' ct' fl Gv G _ W' Fr _ X (incl_refl _) (loginv_mono _ _ _ W W' X Lg) (T ct' Up) _ _ _ _ _ _ _ _).
  - unfold s'. cbn. rewrite Ta. exact E.
  - lia.
  - unfold s'. cbn. auto.
  - intros y Fy. apply Fl in Fy. destruct Fy as [Fy| ->]; auto.
  - intros y m Fy Ny C. apply Fl in Fy. destruct Fy as [Fy| ->]; [contradiction|]. left. apply P2.
    destruct Ux as [_ Lx]. now apply (extends_component ct ct' x m W X Lx).
  - intros m Im. destruct (P1 m Im) as [->|Y]; [right; apply Fl; auto|auto].
  - intros m Im. destruct (P3 m Im) as [Y|Y]; [auto|]. right. left. exists x. split; [exact Ix|].
    destruct Ux as [_ Lx]. now apply (extends_component ct ct' x m W X Lx).
  - rewrite R1, R2. auto.
  - rewrite R1, R2. intros r Er. injection Er as <-. split; [eapply extends_in_use; eauto|auto].
  - auto.
Qed.

Lemma upd_zero {A} (a : A) y z : upd (a :: y) 0 z = z :: y.
Proof. reflexivity. Qed.

Lemma some_pair {A B} (a c : A) (b d : B) : Some (a, b) = Some (c, d) -> c = a /\ d = b.
Proof. intros H. split; congruence. Qed.

Ltac no_mark := intros ? I0; try (apply in_snoc in I0; destruct I0 as [I0|I0]; [discriminate I0|]); exact I0.

Ltac quiet := try solve [ intros ? ? ? ? ; contradiction | intros ? [] | cbn; intros; discriminate ].

Lemma ginv_step ct fl s ts i c t t' s' : ginv ct fl s ts -> get ts i = Some t -> tstep i c t s = Some (t', s') ->
  (t = TIdle -> call_ok (ls_log s) c) ->
  exists ct' fl', ginv ct' fl' s' (upd ts i t') /\ extends ct ct'.
Proof.
  intros Gv G St Ok0. pose proof Gv as [Ta W Fr Ca Lg Th Cl Ro Ju]. assert (Ti := Th i t G).
  assert (HU : forall l, handed (ls_log s) l -> in_use ct l) by (intros l; now apply handed_in_use).
  assert (Quiet : forall t2 s2, pend t = [] -> rootof t = None -> pend t2 = [] -> rootof t2 = None ->
     ls_tab s2 = ls_tab s -> ls_lock s2 = ls_lock s -> incl (ls_log s) (ls_log s2) -> loginv ct (ls_log s2) ->
     (forall r, In (KMark r, 0) (ls_log s2) -> In (KMark r, 0) (ls_log s)) ->
     tinv ct fl (ls_log s2) (ls_lock s2) i t2 -> exists ct' fl', ginv ct' fl' s2 (upd ts i t2) /\ extends ct ct').
  { intros. exists ct, fl. split; [|apply extends_refl]. eapply ginv_quiet; eauto. }
  assert (Same : forall t2, pend t = [] -> rootof t = None -> pend t2 = [] -> rootof t2 = None ->
     tinv ct fl (ls_log s) (ls_lock s) i t2 -> exists ct' fl', ginv ct' fl' s (upd ts i t2) /\ extends ct ct').
  { intros. apply Quiet; auto. apply incl_refl. }
  assert (Union : forall a b x, pend t = [] -> rootof t = None -> handed (ls_log s) a -> handed (ls_log s) b -> in_use ct x ->
     (forall y, derives (view ct) x y <-> derives (view ct) a y \/ derives (view ct) b y) ->
     exists ct' fl', ginv ct' fl' (finish s (KUnion a b) x) (upd ts i TIdle) /\ extends ct ct').
  { intros a b x P R Ha Hb Ux Dx. apply Quiet; auto.
    - intros z Iz. cbn. apply in_or_app. now left.
    - cbn. now apply loginv_snoc_union.
    - cbn. no_mark.
    - exact Logic.I. }
  assert (Halt : forall st, pend t = [] -> rootof t = None -> exists ct' fl', ginv ct' fl' (halt s st) (upd ts i TIdle) /\ extends ct ct').
  { intros st P R. apply Quiet; auto. - apply incl_refl. - exact Logic.I. }
  unfold tstep in St. destruct (negb (running s)); [discriminate|].
  destruct t as [|l r|l r lv|l r enc|l r enc pos rem|l r enc|l r enc lbl|l r enc lbl|src off n|src off n first k
                |root todo q|root x todo q|root x w todo q|root x enc q|root x enc w q]; cbn [tinv] in Ti.
  - (* a call begins *)
    specialize (Ok0 eq_refl). destruct c as [src off n|l r|l]; cbn [begin_call call_ok] in *.
    + apply some_pair in St; destruct St as [-> ->]. apply Same; auto.
    + destruct Ok0 as [Hl Hr]. destruct (N.eqb_spec l r) as [->|Hne].
      * apply some_pair in St; destruct St as [-> ->]. apply Union; auto. intros y. tauto.
      * apply some_pair in St; destruct St as [-> ->]. apply Same; auto. cbn. auto.
    + apply some_pair in St; destruct St as [-> ->]. exists ct, fl. split; [|apply extends_refl].
      refine (ginv_build ct fl s ts i TIdle (TVisit l [l] []) s ct fl Gv G Ta W Fr Ca (extends_refl ct) (incl_refl _) Lg _ _ _ _ _ _ _ _ _); auto; quiet.
      * cbn. split; [auto|]. repeat constructor; apply HU; auto.
      * intros m [<-|[]]. right. right. reflexivity.
      * cbn. intros r Er. injection Er as <-. auto.
  - (* read l *)
    destruct Ti as (Hne & Hl & Hr). destruct (wf_view ct l W (HU _ Hl)) as (tn & _ & V & _ & Vt).
    unfold with_word in St. rewrite (read_committed ct fl s ts l tn Gv V) in St. rewrite decode_encode in St by assumption.
    apply some_pair in St; destruct St as [-> ->]. apply Same; auto. cbn. eauto 6.
  - (* read r *)
    destruct Ti as (Hne & Hl & Hr & lv0 & Vl & El). destruct (wf_view ct r W (HU _ Hr)) as (rv & _ & V & Wr & Vt).
    unfold with_word in St. rewrite (read_committed ct fl s ts r rv Gv V) in St. rewrite decode_encode in St by assumption.
    cbn [bind] in St. rewrite (compute_erase l lv lv0 r rv rv El eq_refl) in St.
    destruct (view_wf _ _ _ W Vl) as (Wl & _ & _). destruct (HU _ Hl) as [L1 L2]. destruct (HU _ Hr) as [R1 R2].
    assert (LC : len ct <= max_label + 1) by (destruct W as (_ & Wc & _); exact Wc).
    assert (Gd := compute_good (view ct) l lv0 r rv Vl V Wl Wr Hne L1 R1 ltac:(lia) ltac:(lia)).
    assert (DL : forall y, derives (view ct) l y <-> den (view ct) lv0 y) by (intros; now apply derives_den).
    assert (DR : forall y, derives (view ct) r y <-> den (view ct) rv y) by (intros; now apply derives_den).
    destruct (compute l lv0 r rv) as [[x|tn]| | |]; cbn [good_ret] in Gd; try contradiction.
    + apply some_pair in St; destruct St as [-> ->]. destruct Gd as [Hx Dx]. apply Union; auto.
      * destruct Hx; subst; auto. 
      * intros y. rewrite Dx, DL, DR. reflexivity.
    + apply some_pair in St; destruct St as [-> ->]. destruct Gd as (G1 & G2 & G3). apply Same; auto. cbn. unfold cand.
      repeat (split; [assumption|]). exists tn. repeat (split; [solve [auto]|]). intros y. rewrite G3, DL, DR. reflexivity.
  - (* end() *)
    destruct (ls_lock s) as [o|] eqn:Lk; [discriminate|]. apply some_pair in St; destruct St as [-> ->]. rewrite (Fr eq_refl), app_nil_r in Ta.
    pose proof Ti as (Hne & Hl & Hr & _). destruct (HU _ Hl) as [L1 L2]. destruct (HU _ Hr) as [R1 R2].
    apply Same; auto. cbn. split; [exact Ti|]. rewrite Ta. rewrite N2Nat.id.
    fold (scan_len ct (N.max l r)). destruct (scan_len_le ct (N.max l r) ltac:(lia)). split; lia.
  - (* scan *)
    destruct Ti as (C & B1 & B2). destruct rem as [|k].
    + apply some_pair in St; destruct St as [-> ->]. apply Same; auto.
    + pose proof C as (Hne & Hl & Hr & tn & -> & T1 & T2 & T3).
      destruct (HU _ Hl) as [L1 L2]. destruct (HU _ Hr) as [R1 R2].
      assert (Up : in_use ct pos) by (split; lia). destruct (wf_view ct pos W Up) as (pv & _ & V & _ & Vp).
      unfold with_word in St. rewrite (read_committed ct fl s ts pos pv Gv V) in St.
      destruct (equal_ignore_cf (encode pv) (encode tn)) eqn:Q.
      * apply some_pair in St; destruct St as [-> ->]. apply Union; auto. intros y. rewrite <- T3. rewrite (derives_den _ _ _ y V).
        apply den_erase. apply equal_ignore_cf_encode; auto. eapply wf_valid; [|exact T2].
        assert (len ct <= label_capacity) by (destruct W as (_ & Wc & _); exact Wc). lia.
      * apply some_pair in St; destruct St as [-> ->]. apply Same; auto. cbn. split; [exact C|]. lia.
  - (* construct: lock and allocate *)
    destruct (ls_lock s) as [o|] eqn:Lk; [discriminate|]. rewrite (Fr eq_refl), app_nil_r in Ta.
    destruct (N.ltb_spec (len (ls_tab s)) label_capacity) as [Lt|Ge]; [|apply some_pair in St; destruct St as [-> ->]; now apply Halt].
    apply some_pair in St; destruct St as [-> ->]. exists ct, [0]. split; [|apply extends_refl].
    set (s' := mkLs (ls_tab s ++ [0]) (Some i) (ls_log s) (ls_status s)).
    refine (ginv_build ct fl s ts i _ (TUStore l r enc (len (ls_tab s))) s' ct [0] Gv G _ W _ _ (extends_refl ct) (incl_refl _) Lg _ _ _ _ _ _ _ _ _); auto; quiet.
    + unfold s'. cbn. now rewrite Ta.
    + rewrite <- Ta. change (len [0]) with 1. lia.
    + cbn. rewrite Ta. auto.
    + rewrite Lk. discriminate.
  - (* construct: store *)
    destruct Ti as (C & O & -> & ->). apply some_pair in St; destruct St as [-> ->]. exists ct, [enc]. split; [|apply extends_refl].
    set (s' := set_tab s (upd (ls_tab s) (len ct) enc)).
    refine (ginv_build ct [0] s ts i _ (TUUnlock l r enc (len ct)) s' ct [enc] Gv G _ W _ _ (extends_refl ct) (incl_refl _) Lg _ _ _ _ _ _ _ _ _); auto; quiet.
    + unfold s'. cbn. rewrite Ta, upd_app_r by lia. rewrite N.sub_diag. reflexivity.
    + unfold s'. cbn. rewrite O. discriminate.
    + cbn. auto.
    + intros j Hj Ej. rewrite O in Ej. congruence.
  - (* construct: unlock *)
    destruct Ti as (C & O & -> & ->). pose proof C as (Hne & Hl & Hr & tn & -> & T1 & T2 & T3).
    destruct (HU _ Hl) as [L1 L2]. destruct (HU _ Hr) as [R1 R2]. apply some_pair in St; destruct St as [-> ->].
    change (len [encode tn]) with 1 in Ca.
    assert (W2 : wf_taint (len ct) tn) by (eapply wf_taint_mono; [|exact T2]; lia).
    assert (Vt : valid_taint tn) by (eapply wf_valid; [|exact W2]; lia).
    assert (W' : wf_table (ct ++ [encode tn])) by (apply wf_app1; [exact W|lia|exact W2]).
    assert (X : extends ct (ct ++ [encode tn])) by apply extends_app.
    assert (Vn : view (ct ++ [encode tn]) (len ct) = Some tn) by (apply view_get; [apply get_app_last|exact Vt]).
    exists (ct ++ [encode tn]), []. split; [|exact X].
    set (s' := finish (mkLs (ls_tab s) None (ls_log s) (ls_status s)) (KUnion l r) (len ct)).
    assert (LL : len (ct ++ [encode tn]) = len ct + 1) by (rewrite len_app; reflexivity).
    assert (Lg' : loginv (ct ++ [encode tn]) (ls_log s')).
    { unfold s'. cbn. apply loginv_snoc_union; auto.
      - eapply (loginv_mono ct); eauto.
      - split; lia.
      - intros y. rewrite (derives_den _ _ _ y Vn). rewrite <- (extends_den ct (ct ++ [encode tn]) (len ct) tn y W W' X ltac:(lia) W2).
        rewrite T3. rewrite !(extends_derives ct (ct ++ [encode tn]) _ y W W' X) by assumption. reflexivity. }
    refine (ginv_build ct [encode tn] s ts i _ TIdle s' (ct ++ [encode tn]) [] Gv G _ W' _ _ X _ Lg' _ _ _ _ _ _ _ _ _); auto; quiet.
    + unfold s'. cbn. rewrite Ta, app_nil_r. reflexivity.
    + rewrite LL. change (len (@nil N)) with 0. lia.
    + unfold s'. cbn. intros z Iz. apply in_or_app. now left.
    + exact Logic.I.
    + intros j Hj Ej. rewrite O in Ej. congruence.
    + intros y (ty & Vy & Cy). left. destruct (view_in_use _ _ _ W' Vy) as [Y1 Y2]. rewrite LL in Y2.
      destruct (N.eq_dec y (len ct)) as [->|Hy]; [rewrite Vn in Vy; congruence|].
      rewrite view_app in Vy by lia. exists ty. auto.
    + intros y m (ty & Vy & Cy) Ny. exfalso. destruct (view_in_use _ _ _ W' Vy) as [Y1 Y2]. rewrite LL in Y2.
      destruct (N.eq_dec y (len ct)) as [->|Hy]; [rewrite Vn in Vy; congruence|].
      rewrite view_app in Vy by lia. apply Ny. exists ty. auto.
    + intros r0 I0. left. unfold s' in I0. cbn in I0. revert r0 I0. no_mark.
  - (* sources: lock and allocate *)
    destruct (ls_lock s) as [o|] eqn:Lk; [discriminate|]. rewrite (Fr eq_refl), app_nil_r in Ta.
    pose proof Ti as (S1 & S2 & S3).
    assert (M8 : mul64 8 n = 8 * n).
    { apply mul64_small. unfold two64. change (2 ^ 54) with 18014398509481984 in S3. lia. }
    rewrite M8 in St. replace (8 * n / 8) with n in St by (symmetry; rewrite N.mul_comm; apply N.div_mul; discriminate).
    destruct (N.leb_spec (8 * len (ls_tab s) + 8 * n) (8 * label_capacity)) as [Le|Gt]; [|apply some_pair in St; destruct St as [-> ->]; now apply Halt].
    apply some_pair in St; destruct St as [-> ->]. exists ct, (repeat 0 (N.to_nat n)). split; [|apply extends_refl].
    set (s' := mkLs (ls_tab s ++ repeat 0 (N.to_nat n)) (Some i) (ls_log s) (ls_status s)).
    refine (ginv_build ct fl s ts i _ (TSStore src off n (len (ls_tab s)) 0) s' ct (repeat 0 (N.to_nat n)) Gv G _ W _ _ (extends_refl ct) (incl_refl _) Lg _ _ _ _ _ _ _ _ _); auto; quiet.
    + unfold s'. cbn. now rewrite Ta.
    + rewrite <- Ta. unfold len at 2. rewrite repeat_length, N2Nat.id. lia.
    + cbn [tinv]. rewrite Ta. repeat (split; [solve [auto|lia]|]). cbn. now rewrite N.sub_0_r.
    + rewrite Lk. discriminate.
  - (* sources: store or finish *)
    destruct Ti as (Sk & O & -> & Kn & Fe). pose proof Sk as (S1 & S2 & S3).
    assert (SL : len (source_words src off (N.to_nat k)) = k) by (rewrite source_words_length; lia).
    destruct (N.ltb_spec k n) as [Lt|Ge].
    + apply some_pair in St; destruct St as [-> ->].
      remember (encode (TSource false src (off + k))) as w eqn:Ew.
      set (fl' := source_words src off (N.to_nat (k + 1)) ++ repeat 0 (N.to_nat (n - (k + 1)))).
      exists ct, fl'. split; [|apply extends_refl].
      set (s' := set_tab s (upd (ls_tab s) (len ct + k) w)).
      assert (Ef : upd fl k w = fl').
      { rewrite Fe. rewrite upd_app_r by lia. rewrite SL, N.sub_diag, repeat_cons by lia.
        unfold fl'. rewrite source_words_snoc, <- app_assoc. f_equal. rewrite upd_zero. cbn [app]. rewrite Ew. do 3 f_equal. lia. }
      assert (Fl : fl' = source_words src off (N.to_nat (k + 1)) ++ repeat 0 (N.to_nat (n - (k + 1)))) by reflexivity.
      clear Ew. clearbody fl'.
      refine (ginv_build ct fl s ts i _ (TSStore src off n (len ct) (k + 1)) s' ct fl' Gv G _ W _ _ (extends_refl ct) (incl_refl _) Lg _ _ _ _ _ _ _ _ _); auto; quiet.
      * unfold s'. cbn. rewrite Ta, upd_app_r by lia. f_equal. replace (len ct + k - len ct) with k by lia. exact Ef.
      * unfold s'. cbn. rewrite O. discriminate.
      * rewrite <- Ef, len_upd. exact Ca.
      * cbn [tinv]. repeat (split; [solve [auto|lia]|]). exact Fl.
      * intros j Hj Ej. rewrite O in Ej. congruence.
    + assert (k = n) by lia. subst k. apply some_pair in St; destruct St as [-> ->].
      rewrite N.sub_diag in Fe. cbn [N.to_nat repeat] in Fe. rewrite app_nil_r in Fe.
      assert (LF : len fl = n) by (rewrite Fe; exact SL).
      assert (W' : wf_table (ct ++ fl)). { rewrite Fe. apply wf_app_sources; auto; rewrite N2Nat.id; lia. }
      assert (X : extends ct (ct ++ fl)) by apply extends_app.
      assert (LL : len (ct ++ fl) = len ct + n) by (rewrite len_app; lia).
      assert (L0 : 1 <= len ct). { destruct W as (W0 & _). apply get_some in W0. lia. }
      assert (VS : forall y, y < n -> view (ct ++ fl) (len ct + y) = Some (TSource false src (off + y))).
      { intros y Hy. apply view_get.
        - rewrite get_app_r by lia. replace (len ct + y - len ct) with y by lia. rewrite Fe. apply get_source_words. lia.
        - cbn. unfold max_source_index, max_source_offset. change (2 ^ 54) with 18014398509481984 in S3. lia. }
      exists (ct ++ fl), []. split; [|exact X].
      set (s' := finish (mkLs (ls_tab s) None (ls_log s) (ls_status s)) (KSource src off n) (len ct)).
      assert (Lg' : loginv (ct ++ fl) (ls_log s')).
      { unfold s'. cbn. apply loginv_snoc_source; auto.
        - eapply (loginv_mono ct); eauto.
        - lia.
        - intros y Hy. exists false. auto.
        - intros src' off' n' f' I'. destruct Lg as [LS _ _ _]. now destruct (LS _ _ _ _ I') as (_ & Q & _). }
      assert (Old : forall y, flg (ct ++ fl) y -> flg ct y).
      { intros y (ty & Vy & Cy). destruct (view_in_use _ _ _ W' Vy) as [Y1 Y2]. rewrite LL in Y2.
        destruct (N.lt_ge_cases y (len ct)) as [Hy|Hy].
        - rewrite view_app in Vy by lia. exists ty. auto.
        - exfalso. specialize (VS (y - len ct) ltac:(lia)). replace (len ct + (y - len ct)) with y in VS by lia.
          rewrite VS in Vy. injection Vy as <-. discriminate. }
      refine (ginv_build ct fl s ts i _ TIdle s' (ct ++ fl) [] Gv G _ W' _ _ X _ Lg' _ _ _ _ _ _ _ _ _); auto; quiet.
      * unfold s'. cbn. rewrite Ta, app_nil_r. reflexivity.
      * rewrite LL. change (len (@nil N)) with 0. lia.
      * unfold s'. cbn. intros z Iz. apply in_or_app. now left.
      * exact Logic.I.
      * intros j Hj Ej. rewrite O in Ej. congruence.
      * intros y m A B. exfalso. auto.
      * intros r0 I0. left. unfold s' in I0. cbn in I0. revert r0 I0. no_mark.
  - (* marking: visit *)
    destruct Ti as (Ur & Fa). destruct todo as [|x todo]; [destruct q as [|x q]|].
    + apply some_pair in St; destruct St as [-> ->]. exists ct, fl. split; [|apply extends_refl].
      refine (ginv_build ct fl s ts i _ TIdle (finish s (KMark root) 0) ct fl Gv G Ta W Fr Ca (extends_refl ct) _ _ _ _ _ _ _ _ _ _ _); auto; quiet.
      * cbn. intros z Iz. apply in_or_app. now left.
      * cbn. now apply loginv_snoc_mark.
      * exact Logic.I.
      * cbn. intros r Er. injection Er as <-. right. apply in_or_app. right. now left.
      * cbn. intros r I0. apply in_snoc in I0. destruct I0 as [I0|I0]; [|auto]. injection I0 as ->. auto.
    + cbn in Fa. pose proof Fa as Fa0. apply Forall_cons_iff in Fa. destruct Fa as [Ux Fq].
      destruct (wf_view ct x W Ux) as (tn & _ & V & _ & Vt).
      unfold with_word in St. rewrite (read_committed ct fl s ts x tn Gv V) in St. apply some_pair in St; destruct St as [-> ->].
      exists ct, fl. split; [|apply extends_refl].
      apply (ginv_mark ct fl s ts i _ (TSet root x (encode tn) q) root Gv G); auto.
      cbn. split; [auto|]. split; [auto|]. exists tn, tn. auto.
    + cbn in Fa. pose proof Fa as Fa0. apply Forall_cons_iff in Fa. destruct Fa as [Ux Fq].
      destruct (wf_view ct x W Ux) as (tn & _ & V & _ & Vt).
      unfold with_word in St. rewrite (read_committed ct fl s ts x tn Gv V) in St.
      rewrite check_cf_encode, is_source_encode in St by assumption.
      exists ct, fl. destruct (cf_of tn) eqn:Cf; [|destruct (is_src tn) eqn:Sr]; apply some_pair in St; destruct St as [-> ->]; (split; [|apply extends_refl]).
      * apply (ginv_mark ct fl s ts i _ (TVisit root todo q) root Gv G); auto.
        -- cbn. auto.
        -- cbn. intros m [<-|Im]; [right|left; auto]. exists tn. auto.
        -- cbn. auto.
      * apply (ginv_mark ct fl s ts i _ (TVMark root x todo q) root Gv G); auto.
        cbn. repeat (split; [solve [auto]|]). eapply is_src_view; eauto.
      * apply (ginv_mark ct fl s ts i _ (TVisit root todo (q ++ [x])) root Gv G); auto.
        -- cbn. split; [auto|]. rewrite app_assoc. apply Forall_app. split; auto.
        -- cbn. intros m [<-|Im]; left; rewrite app_assoc; apply in_or_app; [right; now left|left; exact Im].
        -- cbn. intros m Im. rewrite app_assoc in Im. apply in_app_or in Im. destruct Im as [Im|[->|[]]]; auto.
  - (* marking a source: read *)
    destruct Ti as (Ur & Fa & Sx). pose proof Fa as Fa0. apply Forall_cons_iff in Fa. destruct Fa as [Ux Fq].
    destruct (wf_view ct x W Ux) as (tn & _ & V & _ & Vt).
    unfold with_word in St. rewrite (read_committed ct fl s ts x tn Gv V) in St. apply some_pair in St; destruct St as [-> ->].
    exists ct, fl. split; [|apply extends_refl].
    apply (ginv_mark ct fl s ts i _ (TVMarkW root x (encode tn) todo q) root Gv G); auto.
    cbn. repeat (split; [solve [auto]|]). exists tn, tn. auto.
  - (* marking a source: write *)
    destruct Ti as (Ur & Fa & Sx & Vw). apply Forall_cons_iff in Fa. destruct Fa as [Ux Fq]. apply some_pair in St; destruct St as [-> ->].
    destruct (ginv_flag ct fl s ts i _ (TVisit root todo q) root x w Gv G) as (ct' & Gv' & X); eauto.
    + cbn. auto.
    + intros ct' Up. cbn. assert (X := extends_upto _ _ Up). split; [eapply extends_in_use; eauto|].
      eapply Forall_impl; [|exact Fq]. intros y. now apply extends_in_use.
    + cbn. intros m [->|Im]; auto.
    + intros m C. now apply is_source_no_component in C.
    + cbn. auto.
  - (* marking: read *)
    destruct Ti as (Ur & Fa & Ve). pose proof Fa as Fa0. apply Forall_cons_iff in Fa. destruct Fa as [Ux Fq].
    destruct (wf_view ct x W Ux) as (tn & _ & V & _ & Vt).
    unfold with_word in St. rewrite (read_committed ct fl s ts x tn Gv V) in St. apply some_pair in St; destruct St as [-> ->].
    exists ct, fl. split; [|apply extends_refl].
    apply (ginv_mark ct fl s ts i _ (TSetW root x enc (encode tn) q) root Gv G); auto.
    cbn. repeat (split; [solve [auto]|]). exists tn, tn. auto.
  - (* marking: write *)
    destruct Ti as (Ur & Fa & Ve & Vw). apply Forall_cons_iff in Fa. destruct Fa as [Ux Fq].
    destruct Ve as (tn & te & V & Vte & -> & Ee). rewrite decode_encode in St by assumption. apply some_pair in St; destruct St as [-> ->].
    assert (Cp : forall m, In m (visit_order te) <-> component (view ct) x m) by (intros m; now apply (component_erase ct x tn te)).
    destruct (ginv_flag ct fl s ts i _ (TVisit root (visit_order te) q) root x w Gv G) as (ct' & Gv' & X); eauto.
    + cbn. auto.
    + intros ct' Up. cbn. assert (X := extends_upto _ _ Up). split; [eapply extends_in_use; eauto|].
      apply Forall_app. split.
      * apply Forall_forall. intros m Im. apply Cp in Im. apply component_lt in Im; [|exact W]. destruct Im as (I1 & I2 & I3).
        apply (extends_in_use ct ct' m X). split; lia.
      * eapply Forall_impl; [|exact Fq]. intros y. now apply extends_in_use.
    + cbn. intros m [->|Im]; auto. right. apply in_or_app. auto.
    + intros m C. cbn. apply in_or_app. left. now apply Cp.
    + cbn. intros m Im. apply in_app_or in Im. destruct Im as [Im|Im]; [right; now apply Cp|auto].
Qed.

(** ** Whole runs *)
Lemma ginv_start k : ginv labels_new [] (fst (lstart k)) (snd (lstart k)).
Proof.
  assert (Gk : forall j t, get (repeat TIdle k) j = Some t -> t = TIdle).
  { intros j t H. unfold get in H. apply nth_error_In in H. now apply repeat_spec in H. }
  assert (NF : forall x, ~ flg labels_new x).
  { intros x F. destruct (flg_lt _ _ wf_new F) as [A B]. change (len labels_new) with 1 in B. lia. }
  assert (NP : forall x, ~ pending (repeat TIdle k) x).
  { intros x (j & t & G & I). rewrite (Gk _ _ G) in I. destruct I. }
  constructor; cbn [lstart fst snd ls_tab ls_lock ls_log].
  - reflexivity.
  - apply wf_new.
  - reflexivity.
  - change (len labels_new) with 1. change (len (@nil N)) with 0. unfold label_capacity, max_label. lia.
  - constructor; cbn; intros; try contradiction.
    + destruct h1; discriminate.
    + rewrite get_nil in H0. discriminate.
  - intros j t G. now rewrite (Gk _ _ G).
  - intros x m F. now apply NF in F.
  - intros r [[]|(j & t & G & R)]. rewrite (Gk _ _ G) in R. discriminate.
  - intros x [F|P]; [now apply NF in F|now apply NP in P].
Qed.

Lemma ginv_run schedule : forall ct fl s ts, ginv ct fl s ts -> legal (s, ts) schedule ->
  exists ct' fl', ginv ct' fl' (fst (run tstep (s, ts) schedule)) (snd (run tstep (s, ts) schedule)) /\ extends ct ct'.
Proof.
  induction schedule as [|x l IH]; intros ct fl s ts Gv L.
  - exists ct, fl. split; [exact Gv|apply extends_refl].
  - destruct L as [L1 L2]. cbn [fst snd] in L1.
    change (run tstep (s, ts) (x :: l)) with (run tstep (move tstep (s, ts) x) l).
    destruct (move_cases tstep (s, ts) x) as [E|(t & [t' s'] & G & E & M)].
    + rewrite E in *. now apply (IH ct fl).
    + cbn [fst snd] in *. rewrite M in *.
      destruct (ginv_step ct fl s ts (fst x) (snd x) t t' s' Gv G E) as (ct1 & fl1 & G1 & X1).
      { intros ->. auto. }
      destruct (IH ct1 fl1 s' _ G1 L2) as (ct2 & fl2 & G2 & X2). exists ct2, fl2. split; [exact G2|].
      eapply extends_trans; eauto.
Qed.

Lemma ginv_after k schedule : legal (lstart k) schedule ->
  exists ct fl, ginv ct fl (fst (after k schedule)) (snd (after k schedule)).
Proof.
  intros L. destruct (ginv_run schedule _ _ _ _ (ginv_start k) L) as (ct & fl & G & _). exists ct, fl. exact G.
Qed.

Lemma legal_app a : forall z b, legal z (a ++ b) <-> legal z a /\ legal (run tstep z a) b.
Proof.
  induction a as [|x a IH]; intros z b; [cbn; tauto|].
  cbn [app legal]. rewrite IH. change (run tstep z (x :: a)) with (run tstep (move tstep z x) a). tauto.
Qed.

Lemma ginv_later k before later : legal (lstart k) (before ++ later) ->
  exists ct fl ct' fl', ginv ct fl (fst (after k before)) (snd (after k before)) /\
    ginv ct' fl' (fst (after k (before ++ later))) (snd (after k (before ++ later))) /\ extends ct ct'.
Proof.
  intros L. apply legal_app in L. destruct L as [L1 L2]. destruct (ginv_after k before L1) as (ct & fl & G).
  fold (after k before) in L2. unfold after at 3 4. rewrite run_app. fold (after k before).
  destruct (after k before) as [s ts]. cbn [fst snd] in G.
  destruct (ginv_run later ct fl s ts G L2) as (ct' & fl' & G' & X). exists ct, fl, ct', fl'. auto.
Qed.

(** The whole table and its finished part. *)
Lemma view_tab ct fl s ts x : ginv ct fl s ts -> x < len ct -> view (ls_tab s) x = view ct x.
Proof. intros G L. rewrite (gi_tab _ _ _ _ G). now apply view_app. Qed.

Lemma component_tab ct fl s ts x m : ginv ct fl s ts -> x < len ct ->
  (component (view (ls_tab s)) x m <-> component (view ct) x m).
Proof. intros G L. rewrite (gi_tab _ _ _ _ G). apply component_app; [apply (gi_wf _ _ _ _ G)|exact L]. Qed.

Lemma built_tab ct fl s ts x m : ginv ct fl s ts -> x < len ct ->
  (built_from (view (ls_tab s)) x m <-> built_from (view ct) x m).
Proof.
  intros G L. assert (W := gi_wf _ _ _ _ G). split; intros B.
  - induction B as [x|x y z C B IH]; [constructor|]. apply (component_tab _ _ _ _ _ _ G L) in C.
    econstructor; [exact C|]. apply IH. apply component_lt in C; [lia|exact W].
  - induction B as [x|x y z C B IH]; [constructor|]. econstructor; [apply (component_tab _ _ _ _ _ _ G L); exact C|].
    apply IH. apply component_lt in C; [lia|exact W].
Qed.

Lemma derives_tab ct fl s ts x b : ginv ct fl s ts -> x < len ct ->
  (derives (view (ls_tab s)) x b <-> derives (view ct) x b).
Proof.
  intros G L. assert (W := gi_wf _ _ _ _ G). unfold derives.
  split; intros (m & cf & B & V); exists m, cf.
  - apply (built_tab _ _ _ _ _ _ G L) in B. split; [exact B|]. rewrite (view_tab _ _ _ _ _ G) in V; [exact V|].
    apply (built_from_le _ _ _ W) in B. lia.
  - split; [now apply (built_tab _ _ _ _ _ _ G L)|]. rewrite (view_tab _ _ _ _ _ G); [exact V|].
    apply (built_from_le _ _ _ W) in B. lia.
Qed.

Lemma stands_derives ct fl s ts l b : ginv ct fl s ts -> stands (history s) l b -> derives (view ct) l b.
Proof.
  intros G S. destruct (gi_log _ _ _ _ G) as [LS LU _ _].
  assert (HS : forall src off n f, In (LSource src off n, f) (history s) -> In (KSource src off n, f) (ls_log s)).
  { intros src off n f I. unfold history in I. apply in_map_iff in I. destruct I as ([c x] & E & I). cbn in E.
    destruct c; cbn in E; try discriminate. injection E as -> -> -> ->. exact I. }
  assert (HU : forall a c x, In (LUnion a c, x) (history s) -> In (KUnion a c, x) (ls_log s)).
  { intros a c x I. unfold history in I. apply in_map_iff in I. destruct I as ([c' x'] & E & I). cbn in E.
    destruct c'; cbn in E; try discriminate. injection E as -> -> ->. exact I. }
  induction S as [src off n f i I Hi|a c l b I S IH|a c l b I S IH].
  - destruct (LS _ _ _ _ (HS _ _ _ _ I)) as (_ & _ & V). destruct (V i Hi) as (cf & Vi).
    exists (f + i), cf. split; [constructor|exact Vi].
  - destruct (LU _ _ _ (HU _ _ _ I)) as (_ & _ & _ & D). apply D. auto.
  - destruct (LU _ _ _ (HU _ _ _ I)) as (_ & _ & _ & D). apply D. auto.
Qed.

Lemma derives_stands ct fl s ts b : ginv ct fl s ts -> forall h1 h2 l, ls_log s = h1 ++ h2 -> handed h1 l ->
  derives (view ct) l b -> stands (history s) l b.
Proof.
  intros G. destruct (gi_log _ _ _ _ G) as [LS LU LO _].
  induction h1 as [|[c x] h1 IH] using rev_ind; intros h2 l E H D.
  - destruct H as [(src & off & n & f & [] & _)|(a & c & [])].
  - assert (In0 : In (c, x) (ls_log s)) by (rewrite E; apply in_or_app; left; apply in_or_app; right; now left).
    assert (Hist : In (op_of c, x) (history s)) by (unfold history; apply in_map_iff; exists (c, x); auto).
    assert (E' : ls_log s = h1 ++ (c, x) :: h2) by (rewrite E, <- app_assoc; reflexivity).
    destruct H as [(src & off & n & f & I & B1 & B2)|(a & d & I)]; apply in_snoc in I; destruct I as [I|I].
    + injection I as <- <-. destruct (LS _ _ _ _ In0) as (_ & _ & V). destruct (V (l - f) ltac:(lia)) as (cf & Vl).
      replace (f + (l - f)) with l in Vl by lia. apply (derives_den _ _ _ b Vl) in D. cbn in D. subst b.
      replace l with (f + (l - f)) at 1 by lia. eapply sd_source; [exact Hist|lia].
    + apply (IH _ l E'); [|exact D]. left. exists src, off, n, f. auto.
    + injection I as <- <-. destruct (LU _ _ _ In0) as (_ & _ & _ & DU). apply DU in D.
      destruct (LO _ _ _ _ _ E') as [Ha Hd]. destruct D as [D|D].
      * eapply sd_left; [exact Hist|]. apply (IH _ a E'); auto.
      * eapply sd_right; [exact Hist|]. apply (IH _ d E'); auto.
    + apply (IH _ l E'); [|exact D]. right. exists a, d. auto.
Qed.

(** ** Quiescence *)
Lemma idle_nothing ts : all_idle ts -> forall j t, get ts j = Some t -> t = TIdle.
Proof.
  intros A j t G. unfold get in G. apply nth_error_In in G. unfold all_idle in A. rewrite Forall_forall in A. auto.
Qed.

Lemma quiet_closed ct fl s ts r m : ginv ct fl s ts -> all_idle ts -> in_use ct r -> flg ct r -> built_from (view ct) r m -> flg ct m.
Proof.
  intros G A U F B. induction B as [x|x y z C B IH]; [exact F|].
  assert (Fy : flg ct y).
  { destruct (gi_closed _ _ _ _ G x y F C) as [Y|(j & t & Gj & I)]; [exact Y|].
    rewrite (idle_nothing _ A _ _ Gj) in I. destruct I. }
  apply IH; [|exact Fy]. apply component_lt in C; [|apply (gi_wf _ _ _ _ G)]. split; lia.
Qed.

Lemma lock_held k schedule : let z := after k schedule in
  forall j, ls_lock (fst z) = Some j -> exists t, get (snd z) j = Some t /\ holding t.
Proof.
  cbv zeta. unfold after. unfold lstart.
  apply (run_inv tstep (fun s ts => forall j, ls_lock s = Some j -> exists t, get ts j = Some t /\ holding t)).
  2:{ cbn. discriminate. }
  intros s ts i c t t' s' Inv G St j Lj. assert (Li := get_some _ _ _ G).
  assert (Other : i <> j -> ls_lock s = Some j -> exists u, get (upd ts i t') j = Some u /\ holding u).
  { intros Hne E. destruct (Inv j E) as (u & Gu & Hu). exists u. rewrite get_upd_neq by auto. auto. }
  assert (Mine : holding t' -> i = j -> exists u, get (upd ts i t') j = Some u /\ holding u).
  { intros Hh <-. exists t'. rewrite get_upd_eq by assumption. auto. }
  assert (Keep : ls_lock s' = ls_lock s -> (holding t -> holding t') -> exists u, get (upd ts i t') j = Some u /\ holding u).
  { intros E K. rewrite E in Lj. destruct (N.eq_dec i j) as [Q|Hne]; [|auto]. apply Mine; [|exact Q]. apply K.
    destruct (Inv j Lj) as (u & Gu & Hu). rewrite <- Q, G in Gu. injection Gu as <-. exact Hu. }
  assert (Wd : forall x kk, with_word s x kk = Some (t', s') -> (forall w, kk w = Some (t', s') -> ls_lock s' = ls_lock s) -> ls_lock s' = ls_lock s).
  { intros x kk E K. unfold with_word in E. destruct (read_word (ls_tab s) x); [eauto| | |];
    apply some_pair in E; destruct E as [_ ->]; reflexivity. }
  unfold tstep in St. destruct (negb (running s)); [discriminate|].
  destruct t as [|l r|l r lv|l r enc|l r enc pos rem|l r enc|l r enc lbl|l r enc lbl|src off n|src off n first q0
                |root todo q|root x todo q|root x w todo q|root x enc q|root x enc w q]; cbn [holding] in *.
  - apply Keep; [|contradiction]. unfold begin_call in St. destruct c; [|destruct (l =? r)|]; apply some_pair in St; destruct St as [_ ->]; reflexivity.
  - apply Keep; [|contradiction]. apply (Wd _ _ St). intros w E. destruct (decode w); apply some_pair in E; destruct E as [_ ->]; reflexivity.
  - apply Keep; [|contradiction]. apply (Wd _ _ St). intros w E. destruct (do rv <- decode w; compute l lv r rv) as [[u|u]| | |];
      apply some_pair in E; destruct E as [_ ->]; reflexivity.
  - apply Keep; [|contradiction]. destruct (ls_lock s) eqn:E; [discriminate|]. apply some_pair in St; destruct St as [_ ->]. exact E.
  - apply Keep; [|contradiction]. destruct rem; [apply some_pair in St; destruct St as [_ ->]; reflexivity|].
    apply (Wd _ _ St). intros w E. destruct (equal_ignore_cf w enc); apply some_pair in E; destruct E as [_ ->]; reflexivity.
  - destruct (ls_lock s) eqn:E; [discriminate|]. destruct (len (ls_tab s) <? label_capacity); apply some_pair in St; destruct St as [-> ->].
    + cbn in Lj. injection Lj as <-. now apply Mine.
    + cbn in Lj. congruence.
  - apply some_pair in St; destruct St as [-> ->]. apply Keep; [reflexivity|auto].
  - apply some_pair in St; destruct St as [-> ->]. cbn in Lj. discriminate.
  - destruct (ls_lock s) eqn:E; [discriminate|]. destruct (_ <=? _); apply some_pair in St; destruct St as [-> ->].
    + cbn in Lj. injection Lj as <-. now apply Mine.
    + cbn in Lj. congruence.
  - destruct (q0 <? n).
    + apply some_pair in St; destruct St as [-> ->]. apply Keep; [reflexivity|auto].
    + apply some_pair in St; destruct St as [-> ->]. cbn in Lj. discriminate.
  - apply Keep; [|contradiction]. destruct todo as [|x todo]; [destruct q as [|x q]|].
    + apply some_pair in St; destruct St as [_ ->]. reflexivity.
    + apply (Wd _ _ St). intros w E. apply some_pair in E; destruct E as [_ ->]; reflexivity.
    + apply (Wd _ _ St). intros w E. destruct (check_affects_control_flow w); [|destruct (is_source_taint w)];
        apply some_pair in E; destruct E as [_ ->]; reflexivity.
  - apply Keep; [|contradiction]. apply (Wd _ _ St). intros w E. apply some_pair in E; destruct E as [_ ->]; reflexivity.
  - apply Keep; [|contradiction]. apply some_pair in St; destruct St as [_ ->]. reflexivity.
  - apply Keep; [|contradiction]. apply (Wd _ _ St). intros w E. apply some_pair in E; destruct E as [_ ->]; reflexivity.
  - apply Keep; [|contradiction]. destruct (decode enc); apply some_pair in St; destruct St as [_ ->]; reflexivity.
Qed.

Lemma idle_unlocked k schedule : all_idle (snd (after k schedule)) -> ls_lock (fst (after k schedule)) = None.
Proof.
  intros A. destruct (ls_lock (fst (after k schedule))) as [j|] eqn:E; [|reflexivity]. exfalso.
  destruct (lock_held k schedule j E) as (t & G & H). rewrite (idle_nothing _ A _ _ G) in H. exact H.
Qed.

(** ** Room for everybody: the process never stops *)
Definition reserve (t : lthread) : N :=
  match t with
  | TURead1 _ _ | TURead2 _ _ _ | TUCount _ _ _ | TUScan _ _ _ _ _ | TULock _ _ _ => 1
  | TSLock _ _ n => n
  | _ => 0
  end.
Definition reserves (ts : list lthread) : N := fold_right (fun t a => reserve t + a) 0 ts.

Lemma reserves_upd ts i t t' : get ts i = Some t -> reserves (upd ts i t') + reserve t = reserves ts + reserve t'.
Proof.
  unfold get, upd. generalize (N.to_nat i) as k. clear i. induction ts as [|x ts IH]; intros [|k] G; cbn in G; try discriminate.
  - injection G as ->. cbn. lia.
  - cbn. fold (reserves (upd_nat ts k t')). fold (reserves ts). specialize (IH k G). lia.
Qed.
Lemma reserves_ge ts i t : get ts i = Some t -> reserve t <= reserves ts.
Proof. intros G. pose proof (reserves_upd ts i t TIdle G). cbn in H. lia. Qed.

Lemma room_step ct fl s ts i c t t' s' : ginv ct fl s ts -> get ts i = Some t -> tstep i c t s = Some (t', s') ->
  (t = TIdle -> call_ok (ls_log s) c) ->
  ls_status s = Running -> len (ls_tab s) + reserve t <= label_capacity ->
  ls_status s' = Running /\ len (ls_tab s') + reserve t' <= len (ls_tab s) + reserve t + match t with TIdle => demand c | _ => 0 end.
Proof.
  intros Gv G St Ok0 R Rm. pose proof Gv as [Ta W Fr Ca Lg Th Cl Ro Ju]. assert (Ti := Th i t G).
  assert (HU : forall l, handed (ls_log s) l -> in_use ct l) by (intros l; now apply handed_in_use).
  unfold tstep in St. assert (Rn : running s = true) by (unfold running; now rewrite R). rewrite Rn in St. cbn [negb] in St.
  assert (RD : forall x, in_use ct x -> exists tn, read_word (ls_tab s) x = Ok (encode tn) /\ view ct x = Some tn /\ wf_taint x tn /\ valid_taint tn).
  { intros x U. destruct (wf_view ct x W U) as (tn & _ & V & Wt & Vt). exists tn. split; [|auto]. eapply read_committed; eauto. }
  destruct t as [|l r|l r lv|l r enc|l r enc pos rem|l r enc|l r enc lbl|l r enc lbl|src off n|src off n first k
                |root todo q|root x todo q|root x w todo q|root x enc q|root x enc w q]; cbn [tinv reserve] in *.
  - destruct c as [src off n|l r|l]; cbn [begin_call demand] in *.
    + apply some_pair in St; destruct St as [-> ->]. cbn [reserve]. split; [exact R|lia].
    + destruct (l =? r); apply some_pair in St; destruct St as [-> ->]; cbn [reserve finish ls_status ls_tab]; (split; [exact R|lia]).
    + apply some_pair in St; destruct St as [-> ->]. cbn [reserve]. split; [exact R|lia].
  - destruct Ti as (Hne & Hl & Hr). destruct (RD l (HU _ Hl)) as (tn & Rd & V & Wt & Vt).
    unfold with_word in St. rewrite Rd, decode_encode in St by assumption.
    apply some_pair in St; destruct St as [-> ->]. cbn [reserve]. split; [exact R|lia].
  - destruct Ti as (Hne & Hl & Hr & lv0 & Vl & El). destruct (RD r (HU _ Hr)) as (rv & Rd & V & Wr & Vt).
    unfold with_word in St. rewrite Rd, decode_encode in St by assumption.
    cbn [bind] in St. rewrite (compute_erase l lv lv0 r rv rv El eq_refl) in St.
    destruct (view_wf _ _ _ W Vl) as (Wl & _ & _). destruct (HU _ Hl) as [L1 L2]. destruct (HU _ Hr) as [R1 R2].
    assert (LC : len ct <= max_label + 1) by (destruct W as (_ & Wc & _); exact Wc).
    assert (Gd := compute_good (view ct) l lv0 r rv Vl V Wl Wr Hne L1 R1 ltac:(lia) ltac:(lia)).
    destruct (compute l lv0 r rv) as [[x|tn]| | |]; cbn [good_ret] in Gd; try contradiction;
    apply some_pair in St; destruct St as [-> ->]; cbn [reserve finish ls_status ls_tab]; (split; [exact R|lia]).
  - destruct (ls_lock s); [discriminate|]. apply some_pair in St; destruct St as [-> ->]. cbn [reserve]. split; [exact R|lia].
  - destruct Ti as (C & B1 & B2). destruct rem as [|k].
    + apply some_pair in St; destruct St as [-> ->]. cbn [reserve]. split; [exact R|lia].
    + pose proof C as (Hne & Hl & Hr & _). destruct (HU _ Hl) as [L1 L2]. destruct (HU _ Hr) as [R1 R2].
      destruct (RD pos) as (tn & Rd & _); [split; lia|]. unfold with_word in St. rewrite Rd in St.
      destruct (equal_ignore_cf (encode tn) enc); apply some_pair in St; destruct St as [-> ->]; cbn [reserve finish ls_status ls_tab]; (split; [exact R|lia]).
  - destruct (ls_lock s); [discriminate|]. destruct (N.ltb_spec (len (ls_tab s)) label_capacity); [|lia].
    apply some_pair in St; destruct St as [-> ->]. cbn [reserve ls_status ls_tab]. split; [exact R|]. rewrite len_app. change (len [0]) with 1. lia.
  - apply some_pair in St; destruct St as [-> ->]. cbn [reserve set_tab ls_status ls_tab]. split; [exact R|]. rewrite len_upd. lia.
  - apply some_pair in St; destruct St as [-> ->]. cbn [reserve finish ls_status ls_tab]. split; [exact R|lia].
  - destruct (ls_lock s); [discriminate|]. pose proof Ti as (S1 & S2 & S3).
    assert (M8 : mul64 8 n = 8 * n).
    { apply mul64_small. unfold two64. change (2 ^ 54) with 18014398509481984 in S3. lia. }
    rewrite M8 in St. replace (8 * n / 8) with n in St by (symmetry; rewrite N.mul_comm; apply N.div_mul; discriminate).
    destruct (N.leb_spec (8 * len (ls_tab s) + 8 * n) (8 * label_capacity)); [|lia].
    apply some_pair in St; destruct St as [-> ->]. cbn [reserve ls_status ls_tab]. split; [exact R|]. rewrite len_app.
    unfold len at 2. rewrite repeat_length, N2Nat.id. lia.
  - remember (encode (TSource false src (off + k))) as w.
    destruct (k <? n); apply some_pair in St; destruct St as [-> ->]; cbn [reserve set_tab finish ls_status ls_tab]; (split; [exact R|]); rewrite ?len_upd; lia.
  - destruct Ti as (Ur & Fa). destruct todo as [|x todo]; [destruct q as [|x q]|].
    + apply some_pair in St; destruct St as [-> ->]. cbn [reserve finish ls_status ls_tab]. split; [exact R|lia].
    + cbn in Fa. apply Forall_cons_iff in Fa. destruct Fa as [Ux Fq]. destruct (RD x Ux) as (tn & Rd & _).
      unfold with_word in St. rewrite Rd in St. apply some_pair in St; destruct St as [-> ->]. cbn [reserve]. split; [exact R|lia].
    + cbn in Fa. apply Forall_cons_iff in Fa. destruct Fa as [Ux Fq]. destruct (RD x Ux) as (tn & Rd & _).
      unfold with_word in St. rewrite Rd in St. destruct (check_affects_control_flow (encode tn)); [|destruct (is_source_taint (encode tn))];
      apply some_pair in St; destruct St as [-> ->]; cbn [reserve]; (split; [exact R|lia]).
  - destruct Ti as (Ur & Fa & _). apply Forall_cons_iff in Fa. destruct Fa as [Ux Fq]. destruct (RD x Ux) as (tn & Rd & _).
    unfold with_word in St. rewrite Rd in St. apply some_pair in St; destruct St as [-> ->]. cbn [reserve]. split; [exact R|lia].
  - apply some_pair in St; destruct St as [-> ->]. cbn [reserve set_tab ls_status ls_tab]. split; [exact R|]. rewrite len_upd. lia.
  - destruct Ti as (Ur & Fa & _). apply Forall_cons_iff in Fa. destruct Fa as [Ux Fq]. destruct (RD x Ux) as (tn & Rd & _).
    unfold with_word in St. rewrite Rd in St. apply some_pair in St; destruct St as [-> ->]. cbn [reserve]. split; [exact R|lia].
  - destruct Ti as (Ur & Fa & (tn & te & V & Vte & -> & Ee) & _). rewrite decode_encode in St by assumption.
    apply some_pair in St; destruct St as [-> ->]. cbn [reserve set_tab ls_status ls_tab]. split; [exact R|]. rewrite len_upd. lia.
Qed.

Lemma room_run schedule : forall ct fl s ts, ginv ct fl s ts -> legal (s, ts) schedule -> ls_status s = Running ->
  len (ls_tab s) + reserves ts + demands (s, ts) schedule <= label_capacity ->
  ls_status (fst (run tstep (s, ts) schedule)) = Running.
Proof.
  induction schedule as [|x l IH]; intros ct fl s ts Gv L R Rm; [exact R|].
  destruct L as [L1 L2]. cbn [fst snd] in L1.
  cbn [demands fst snd] in Rm.
  change (run tstep (s, ts) (x :: l)) with (run tstep (move tstep (s, ts) x) l).
  destruct (move_cases tstep (s, ts) x) as [E|(t & [t' s'] & G & E & M)].
  - rewrite E in *. apply (IH ct fl); auto. lia.
  - cbn [fst snd] in *. rewrite M in *. rewrite G in Rm. assert (Ok0 : t = TIdle -> call_ok (ls_log s) (snd x)) by (intros ->; auto).
    destruct (ginv_step ct fl s ts (fst x) (snd x) t t' s' Gv G E Ok0) as (ct1 & fl1 & G1 & X1).
    assert (RG := reserves_ge _ _ _ G).
    destruct (room_step ct fl s ts (fst x) (snd x) t t' s' Gv G E Ok0 R ltac:(lia)) as [R' Rm'].
    apply (IH ct1 fl1); auto. pose proof (reserves_upd ts (fst x) t t' G). lia.
Qed.

(** ** Checking schedules *)
Definition handedb (h : list (lcall * N)) (l : N) : bool :=
  existsb (fun x => match fst x with
    | KSource _ _ n => (snd x <=? l) && (l <? snd x + n)
    | KUnion _ _ => snd x =? l
    | KMark _ => false end) h.
Lemma handedb_ok h l : handedb h l = true -> handed h l.
Proof.
  unfold handedb. intros H. apply existsb_exists in H. destruct H as ([c x] & I & E). destruct c as [src off n|a d|m]; cbn [fst snd] in E.
  - apply andb_prop in E. destruct E as [E1 E2]. apply N.leb_le in E1. apply N.ltb_lt in E2. left. exists src, off, n, x. auto.
  - apply N.eqb_eq in E. subst. right. exists a, d. exact I.
  - discriminate.
Qed.
Definition call_okb (h : list (lcall * N)) (c : lcall) : bool :=
  match c with
  | KSource src off n => (src <=? 255) && (1 <=? n) && (off + n <=? 2 ^ 54)
  | KUnion l r => handedb h l && handedb h r
  | KMark l => handedb h l
  end.
Lemma call_okb_ok h c : call_okb h c = true -> call_ok h c.
Proof.
  destruct c; cbn [call_okb call_ok]; intros H.
  - apply andb_prop in H. destruct H as [H H3]. apply andb_prop in H. destruct H as [H1 H2].
    apply N.leb_le in H1. apply N.leb_le in H2. apply N.leb_le in H3. auto.
  - apply andb_prop in H. destruct H. auto using handedb_ok.
  - auto using handedb_ok.
Qed.
Fixpoint legalb (z : lshared * list lthread) (schedule : list (N * lcall)) : bool :=
  match schedule with
  | [] => true
  | x :: rest => match get (snd z) (fst x) with Some TIdle => call_okb (ls_log (fst z)) (snd x) | _ => true end &&
                 legalb (move tstep z x) rest
  end.
Lemma legalb_ok schedule : forall z, legalb z schedule = true -> legal z schedule.
Proof.
  induction schedule as [|x l IH]; intros z H; cbn [legalb legal] in *; [exact Logic.I|].
  apply andb_prop in H. destruct H as [H1 H2]. split; [|auto].
  intros E. rewrite E in H1. now apply call_okb_ok.
Qed.
