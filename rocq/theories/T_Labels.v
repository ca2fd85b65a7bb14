(** C04-C10, C12: the label table. *)
From Coq Require Import NArith List Bool Lia.
From Verif Require Import M_Base M_Encoding M_Union M_LabelDeq M_Labels S_Encoding S_Provenance S_Labels
  P_Base P_Encoding P_Labels P_ControlFlow P_History P_Demo.
Import ListNotations.
Open Scope N_scope.

(** C04: the label returned by a union stands for exactly the bytes of both operands
    and no other label changes its meaning. *)
Theorem C04_union_exact : forall t l r x t',
  reachable t -> in_use t l -> in_use t r -> union_taint t l r = Ok (x, t') ->
  in_use t' x /\
  (forall b, derives (view t') x b <-> derives (view t) l b \/ derives (view t) r b) /\
  (forall y b, in_use t y -> (derives (view t') y b <-> derives (view t) y b)).
Proof.
  intros t l r x t' R Ul Ur H. assert (I := reachable_inv _ R).
  destruct (union_taint_ok _ _ _ _ _ (proj1 I) Ul Ur H) as (W' & Ux & _ & _ & D).
  destruct (lstep_inv _ (LUnion l r) _ _ I (conj Ul Ur) (st_union _ _ _ _ _ H)) as [I' E].
  split; [exact Ux|]. split; [exact D|]. intros y b [Uy1 Uy2]. symmetry. now apply extends_derives.
Qed.

(** The same over whole histories, against the plain set semantics of the calls. *)
Theorem C04_history_semantics : forall h t l b,
  ltrace h t -> in_use t l -> (derives (view t) l b <-> stands h l b).
Proof. exact derives_stands_iff. Qed.

Example C04_case : exists x t', union_taint demo 9 4 = Ok (x, t') /\ in_use demo 9 /\ in_use demo 4 /\ len demo < x + 1.
Proof. eexists _, _. split; [vm_compute; reflexivity|]. unfold in_use. vm_compute. intuition congruence. Qed.
(** A label outside of the hypotheses: 0 ("untainted") must not be passed. *)
Example C04_label_zero_terminates_the_process : union_taint demo 0 4 = Exit.
Proof. vm_compute. reflexivity. Qed.

(** C05. *)
Theorem C05_taint_graph_well_formed : forall t l, reachable t -> in_use t l ->
  exists tn, read_label t l = Ok tn /\
  match tn with
  | TSource _ index offset => index <= 255 /\ offset < 2 ^ 54
  | TRange _ first last => 1 <= first /\ first < last /\ last < l
  | TUnion _ lower higher => 1 <= lower /\ lower + 1 < higher /\ higher < l
  end.
Proof.
  intros t l R U. destruct (wf_view t l (reachable_wf _ R) U) as (tn & _ & V & Wt & _).
  exists tn. split; [|exact Wt]. unfold view in V. destruct (read_label t l); congruence.
Qed.

(** No assertion fires: neither a union nor a marking of labels in use is ever [UB],
    and a marking never terminates the process. *)
Theorem C05_no_assertion_fires : forall t l r fuel junk, reachable t -> in_use t l -> in_use t r ->
  union_taint t l r <> UB /\
  affects_control_flow fuel junk t l <> UB /\ affects_control_flow fuel junk t l <> Exit.
Proof.
  intros t l r fuel junk R Ul Ur. split.
  - destruct (union_taint_total t l r (reachable_wf _ R) Ul Ur) as [(x & t' & ->)|(-> & _)]; discriminate.
  - apply affects_never_bad; auto using reachable_inv.
Qed.

Example C05_case : reachable demo /\ in_use demo 8 /\ view demo 8 = Some (TRange true 6 7).
Proof. split; [exact demo_reachable|]. vm_compute. intuition congruence. Qed.

(** C06. *)
Theorem C06_labels_immutable : forall t ops t' l tn,
  reachable t -> lsteps t ops t' -> in_use t l -> view t l = Some tn ->
  len t <= len t' /\ in_use t' l /\
  exists tn', view t' l = Some tn' /\ erase_cf tn' = erase_cf tn /\
              (flag_of tn = true -> flag_of tn' = true).
Proof.
  intros t ops t' l tn R S U V. destruct (lsteps_extends _ _ _ R S) as [L E].
  split; [exact L|]. split; [destruct U; split; lia|].
  destruct (E l (proj2 U)) as [Er F]. destruct (view_erase _ _ _ _ Er V) as (tn' & V' & Q).
  exists tn'. split; [exact V'|]. split; [exact Q|]. intros Ft.
  destruct F as (tn2 & V2 & F2); [exists tn; auto|]. rewrite V' in V2. inversion V2; subst. exact F2.
Qed.

(** New labels are larger than all earlier ones. *)
Theorem C06_fresh_labels : forall t o x t', reachable t -> lop_ok t o -> lstep t o x t' ->
  match o with
  | LSource _ _ n => x = len t /\ len t' = len t + n
  | LUnion _ _ => (in_use t x /\ t' = t) \/ (x = len t /\ len t' = len t + 1)
  | LMark _ => len t' = len t
  end.
Proof.
  intros t o x t' R K S. destruct (reachable_inv _ R) as [W C].
  destruct S as [src off n f la t' H|l r y t' H|l fuel junk t' H]; cbn in K.
  - destruct K as (K1 & K2 & K3). destruct (create_source_ok _ _ _ _ _ _ _ W K1 K2 K3 H) as (_ & Hf & _ & Ln & _). auto.
  - destruct K as (K1 & K2). destruct (union_taint_ok _ _ _ _ _ W K1 K2 H) as (_ & Ux & _ & [->|(-> & tn & -> & _)] & _); auto.
    right. split; auto. rewrite len_app. reflexivity.
  - destruct (affects_ok _ _ _ _ _ W C K H) as ((_ & Ln & _) & _). exact Ln.
Qed.

Example C06_case : exists t', lsteps demo [LUnion 9 4; LMark 10] t' /\ view demo 4 = Some (TSource false 3 40) /\
  view t' 4 = Some (TSource true 3 40).
Proof.
  eexists. split; [|split; [vm_compute; reflexivity|]].
  - eapply ls_cons; [split; vm_compute; intuition congruence|constructor; vm_compute; reflexivity|].
    eapply ls_cons; [split; vm_compute; intuition congruence| |apply ls_nil].
    eapply (st_mark _ 10 100%nat 0). vm_compute. reflexivity.
  - vm_compute. reflexivity.
Qed.

(** C07. *)
Theorem C07_source_labels : forall t src offset n first last t',
  reachable t -> src <= 255 -> 1 <= n -> offset + n <= 2 ^ 54 ->
  create_source_labels t src offset n = Ok (first, last, t') ->
  first = len t /\ last = first + n - 1 /\ len t' = len t + n /\
  (forall l, in_use t l -> view t' l = view t l) /\
  (forall i, i < n -> view t' (first + i) = Some (TSource false src (offset + i))).
Proof.
  intros t src off n f la t' R K1 K2 K3 H. assert (W := reachable_wf _ R).
  destruct (create_source_ok _ _ _ _ _ _ _ W K1 K2 K3 H) as (_ & Hf & Hl & Ln & Eq).
  repeat (split; [assumption|]). split.
  - intros l [_ L]. rewrite Eq. now apply view_app.
  - intros i Hi. exact (create_source_view _ _ _ _ _ _ _ i W K1 K2 K3 H Hi).
Qed.

(** The call returns whenever the labels fit. *)
Theorem C07_source_labels_total : forall t src offset n,
  reachable t -> 1 <= n -> len t + n <= 2 ^ 31 ->
  exists first last t', create_source_labels t src offset n = Ok (first, last, t').
Proof.
  intros t src off n _ N1 Fit. change (2 ^ 31) with 2147483648 in Fit.
  unfold create_source_labels, label_capacity, max_label.
  rewrite mul64_small by (unfold two64; lia).
  destruct (N.leb_spec (8 * len t + 8 * n) (8 * (2147483647 + 1))); [|lia].
  destruct (N.ltb_spec (len t) (2147483647 + 1)); [|lia]. eauto.
Qed.

Example C07_case : exists first last t', create_source_labels demo 7 1000 5 = Ok (first, last, t') /\
  first = 10 /\ last = 14 /\ view t' 12 = Some (TSource false 7 1002).
Proof. eexists _, _, _. vm_compute. auto. Qed.

(** Beyond 2^54 the offset silently wraps. *)
Theorem C07_offset_beyond_limit_refuted : exists src offset n first last t' i,
  src <= 255 /\ i < n /\
  create_source_labels labels_new src offset n = Ok (first, last, t') /\
  view t' (first + i) <> Some (TSource false src (offset + i)).
Proof.
  exists 1, (2 ^ 54 - 1), 2, 1, 2. eexists. exists 1.
  split; [vm_compute; discriminate|]. split; [reflexivity|]. split; [vm_compute; reflexivity|].
  vm_compute. discriminate.
Qed.

(** A request whose byte size overflows 64 bits is silently shortened. *)
Theorem C07_huge_request_refuted : exists src offset n first last t',
  src <= 255 /\ 1 <= n /\
  create_source_labels labels_new src offset n = Ok (first, last, t') /\ len t' <> 1 + n.
Proof.
  exists 1, 0, (2 ^ 61 + 3). eexists _, _, _.
  split; [vm_compute; discriminate|]. split; [vm_compute; discriminate|].
  split; [vm_compute; reflexivity|]. vm_compute. discriminate.
Qed.

(** C08. *)
Theorem C08_union_self : forall t l, union_taint t l l = Ok (l, t).
Proof. intros t l. unfold union_taint. now rewrite N.eqb_refl. Qed.

Theorem C08_union_commutes : forall t l r x t1 y t2, reachable t -> in_use t l -> in_use t r ->
  union_taint t l r = Ok (x, t1) -> union_taint t r l = Ok (y, t2) ->
  forall b, derives (view t1) x b <-> derives (view t2) y b.
Proof.
  intros t l r x t1 y t2 R Ul Ur H1 H2 b.
  destruct (C04_union_exact _ _ _ _ _ R Ul Ur H1) as (_ & D1 & _).
  destruct (C04_union_exact _ _ _ _ _ R Ur Ul H2) as (_ & D2 & _).
  rewrite D1, D2. tauto.
Qed.

Theorem C08_union_again_allocates_nothing : forall t l r x t1, reachable t -> in_use t l -> in_use t r ->
  union_taint t l r = Ok (x, t1) ->
  union_taint t1 l r = Ok (x, t1) /\ exists y, union_taint t1 r l = Ok (y, t1).
Proof. exact (fun t l r x t1 R => union_again t l r x t1 (reachable_wf _ R)). Qed.

Theorem C08_union_associates : forall t l r s x t1 xs t2 y t3 ly t4,
  reachable t -> in_use t l -> in_use t r -> in_use t s ->
  union_taint t l r = Ok (x, t1) -> union_taint t1 x s = Ok (xs, t2) ->
  union_taint t r s = Ok (y, t3) -> union_taint t3 l y = Ok (ly, t4) ->
  forall b, derives (view t2) xs b <-> derives (view t4) ly b.
Proof.
  intros t l r s x t1 xs t2 y t3 ly t4 R Ul Ur Us H1 H2 H3 H4 b.
  destruct (C04_union_exact _ _ _ _ _ R Ul Ur H1) as (Ux & D1 & O1).
  destruct (C04_union_exact _ _ _ _ _ R Ur Us H3) as (Uy & D3 & O3).
  assert (R1 : reachable t1) by (eapply lsteps_reachable; [exact R|];
    eapply ls_cons; [|apply st_union; exact H1|apply ls_nil]; now split).
  assert (R3 : reachable t3) by (eapply lsteps_reachable; [exact R|];
    eapply ls_cons; [|apply st_union; exact H3|apply ls_nil]; now split).
  assert (E1 : len t <= len t1) by (destruct (union_taint_ok _ _ _ _ _ (reachable_wf _ R) Ul Ur H1) as (_ & _ & L & _); exact L).
  assert (E3 : len t <= len t3) by (destruct (union_taint_ok _ _ _ _ _ (reachable_wf _ R) Ur Us H3) as (_ & _ & L & _); exact L).
  assert (Us1 : in_use t1 s) by (destruct Us; split; lia).
  assert (Ul3 : in_use t3 l) by (destruct Ul; split; lia).
  destruct (C04_union_exact _ _ _ _ _ R1 Ux Us1 H2) as (_ & D2 & _).
  destruct (C04_union_exact _ _ _ _ _ R3 Ul3 Uy H4) as (_ & D4 & _).
  rewrite D2, D4, D1, D3, (O1 s b Us), (O3 l b Ul). tauto.
Qed.

Example C08_case : exists x t1, union_taint demo 4 9 = Ok (x, t1) /\ len t1 = len demo + 1 /\
  union_taint t1 9 4 = Ok (x, t1).
Proof. eexists _, _. split; [vm_compute; reflexivity|]. vm_compute. auto. Qed.

(** C09: the call terminates, with a result that does not depend on the uninitialised
    memory [junk], and flags exactly the labels [l] is built from. *)
Theorem C09_marking_exact : forall t l, reachable t -> in_use t l ->
  exists t' steps,
    (forall fuel junk, (steps <= fuel)%nat -> affects_control_flow fuel junk t l = Ok t') /\
    len t' = len t /\
    (forall x, option_map erase_cf (view t' x) = option_map erase_cf (view t x)) /\
    (forall x, flagged (view t') x <-> flagged (view t) x \/ built_from (view t) l x).
Proof.
  intros t l R U. destruct (reachable_inv _ R) as [W C].
  destruct (affects_total t l W C U) as (t' & F & H). exists t', F. split; [exact H|].
  destruct (affects_ok _ _ _ _ _ W C U (H F 0 (le_n F))) as ((_ & Ln & Er & _) & _ & Fl).
  split; [exact Ln|]. split; [intros; symmetry; apply Er|]. intros x. rewrite !flagged_flg. apply Fl.
Qed.

(** Any terminating run, whatever the bound on steps, has that result. *)
Theorem C09_marking_exact_any_run : forall t l fuel junk t', reachable t -> in_use t l ->
  affects_control_flow fuel junk t l = Ok t' ->
  (forall x, option_map erase_cf (view t' x) = option_map erase_cf (view t x)) /\
  (forall x, flagged (view t') x <-> flagged (view t) x \/ built_from (view t) l x).
Proof.
  intros t l fuel junk t' R U H. destruct (reachable_inv _ R) as [W C].
  destruct (affects_ok _ _ _ _ _ W C U H) as ((_ & Ln & Er & _) & _ & Fl).
  split; [intros; symmetry; apply Er|]. intros x. rewrite !flagged_flg. apply Fl.
Qed.

Example C09_case : reachable demo /\ in_use demo 9 /\ view demo 9 = Some (TRange false 1 3).
Proof. split; [exact demo_reachable|]. vm_compute. intuition congruence. Qed.

(** C10. *)
Theorem C10_flagged_labels_closed : forall t l m,
  reachable t -> flagged (view t) l -> built_from (view t) l m -> flagged (view t) m.
Proof.
  intros t l m R F B. destruct (reachable_inv _ R) as [_ C]. apply flagged_flg. apply flagged_flg in F.
  induction B; auto. apply IHB. eapply C; eauto.
Qed.

Theorem C10_flagged_iff_marked : forall h t x, ltrace h t ->
  (flagged (view t) x <-> exists l r, In (LMark l, r) h /\ built_from (view t) l x).
Proof. exact trace_flags. Qed.

Example C10_case : reachable demo /\ flagged (view demo) 8 /\ built_from (view demo) 8 5.
Proof.
  split; [exact demo_reachable|]. split.
  - right; left. exists 6, 7. vm_compute. reflexivity.
  - eapply bf_step; [eapply comp_range with (m := 7); [vm_compute; reflexivity|vm_compute; intuition congruence]|].
    eapply bf_step; [eapply comp_higher; vm_compute; reflexivity|constructor].
Qed.

(** C12. *)
Theorem C12_union_exhaustion : forall t l r, reachable t -> in_use t l -> in_use t r ->
  (len t < 2 ^ 31 -> exists x t', union_taint t l r = Ok (x, t')) /\
  (union_taint t l r = Exit -> len t = 2 ^ 31) /\
  (forall x t', union_taint t l r = Ok (x, t') -> len t = 2 ^ 31 -> t' = t) /\
  union_taint t l r <> UB.
Proof.
  intros t l r R Ul Ur. assert (W := reachable_wf _ R). change (2 ^ 31) with label_capacity.
  destruct (union_taint_total t l r W Ul Ur) as [(x & t' & E)|(E & L)]; rewrite E;
    (split; [|split; [|split]]); try discriminate; eauto.
  - intros x' t'' E' Full. inversion E'; subst.
    destruct (union_taint_ok _ _ _ _ _ W Ul Ur E) as ((_ & Lc & _) & _ & _ & [->|(-> & tn & -> & _)] & _); auto.
    rewrite len_app in Lc. change (len [encode tn]) with 1 in Lc. lia.
  - intros H. lia.
Qed.

Example C12_case : len demo < 2 ^ 31 /\ in_use demo 9 /\ in_use demo 4.
Proof. vm_compute. intuition congruence. Qed.

(** Source labels: a request that does not fit is undefined behaviour, for every table
    and already for the first read of 2^31 bytes. *)
Theorem C12_source_exhaustion_is_undefined : forall t src offset n, reachable t ->
  n < 2 ^ 61 -> 2 ^ 31 < len t + n -> create_source_labels t src offset n = UB.
Proof.
  intros t src off n R B F. change (2 ^ 61) with 2305843009213693952 in B. change (2 ^ 31) with 2147483648 in F.
  unfold create_source_labels, label_capacity, max_label. rewrite mul64_small by (unfold two64; lia).
  destruct (N.leb_spec (8 * len t + 8 * n) (8 * (2147483647 + 1))); [lia|reflexivity].
Qed.

Theorem C12_source_exhaustion_refuted : exists t src offset n,
  reachable t /\ lop_ok t (LSource src offset n) /\ create_source_labels t src offset n = UB.
Proof.
  exists labels_new, 0, 0, (2 ^ 31). split; [exists []; constructor|].
  split; vm_compute; intuition congruence.
Qed.

Print Assumptions C04_union_exact.
Print Assumptions C04_history_semantics.
Print Assumptions C05_taint_graph_well_formed.
Print Assumptions C05_no_assertion_fires.
Print Assumptions C06_labels_immutable.
Print Assumptions C06_fresh_labels.
Print Assumptions C07_source_labels.
Print Assumptions C07_source_labels_total.
Print Assumptions C07_offset_beyond_limit_refuted.
Print Assumptions C07_huge_request_refuted.
Print Assumptions C08_union_self.
Print Assumptions C08_union_commutes.
Print Assumptions C08_union_again_allocates_nothing.
Print Assumptions C08_union_associates.
Print Assumptions C09_marking_exact.
Print Assumptions C09_marking_exact_any_run.
Print Assumptions C10_flagged_labels_closed.
Print Assumptions C10_flagged_iff_marked.
Print Assumptions C12_union_exhaustion.
Print Assumptions C12_source_exhaustion_is_undefined.
Print Assumptions C12_source_exhaustion_refuted.
