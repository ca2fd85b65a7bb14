(** The number of labels taken from the queue by one affects_control_flow call. *)
From Coq Require Import NArith List Bool Lia.
From Verif Require Import M_Base M_Encoding M_Union M_LabelDeq M_Labels S_Encoding S_Provenance S_Labels
  P_Base P_Encoding P_Labels P_ControlFlow P_History T_Labels.
Import ListNotations.
Open Scope N_scope.

(** ** Layered tables *)

(** [clean t k l]: an unmarked binary tree of unions of depth [k] (with shared nodes)
    hangs below [l]; sources at the bottom. *)
Fixpoint clean (t : table) (k : nat) (l : N) : Prop :=
  match k with
  | O => exists cf i o, view t l = Some (TSource cf i o)
  | S j => exists lo hi, view t l = Some (TUnion false lo hi) /\ clean t j lo /\ clean t j hi
  end.
(** The same with a possibly marked root. *)
Definition item (t : table) (k : nat) (l : N) : Prop :=
  match k with
  | O => False
  | S j => exists cf lo hi, view t l = Some (TUnion cf lo hi) /\ clean t j lo /\ clean t j hi
  end.

Lemma clean_item t k l : (1 <= k)%nat -> clean t k l -> item t k l.
Proof. destruct k as [|k]; [lia|]. intros _ (lo & hi & V & C). exists false, lo, hi. auto. Qed.

Lemma clean_level t k : forall j l, clean t k l -> clean t j l -> k = j.
Proof.
  induction k as [|k IH]; intros [|j] l C D; auto.
  - destruct C as (cf & i & o & V), D as (lo & hi & V' & _). congruence.
  - destruct D as (cf & i & o & V), C as (lo & hi & V' & _). congruence.
  - destruct C as (lo & hi & V & C1 & _), D as (lo' & hi' & V' & D1 & _). f_equal.
    apply (IH j lo); [exact C1|]. congruence.
Qed.

Lemma clean_item_level t k j l : clean t k l -> item t j l -> k = j.
Proof.
  destruct j as [|j]; [contradiction|]. intros C (cf & lo & hi & V & D & _). destruct k as [|k].
  - destruct C as (cf' & i & o & V'). congruence.
  - destruct C as (lo' & hi' & V' & C1 & _). f_equal. apply (clean_level t k j lo); [|exact D]. congruence.
Qed.

(** Views that agree below are enough. *)
Lemma clean_ext t t' k : (forall x, in_use t x -> view t' x = view t x) -> wf_table t -> forall l, clean t k l -> clean t' k l.
Proof.
  intros H W. induction k as [|k IH]; intros l C.
  - destruct C as (cf & i & o & V). exists cf, i, o. rewrite H; [exact V|]. eapply view_in_use; eauto.
  - destruct C as (lo & hi & V & C1 & C2). exists lo, hi. rewrite H; [auto|]. eapply view_in_use; eauto.
Qed.

(** Marking a label of level [k] leaves the trees of the lower levels clean. *)
Lemma clean_mark t t' k l tn : view t l = Some tn -> view t' l = Some (set_cf tn) ->
  (forall x, x <> l -> view t' x = view t x) -> item t k l ->
  forall j x, (j < k)%nat -> clean t j x -> clean t' j x.
Proof.
  intros V V' O I. induction j as [|j IH]; intros x J C.
  - destruct C as (cf & i & o & Vx). destruct (N.eq_dec x l) as [->|Ne].
    + rewrite V in Vx. injection Vx as ->. cbn in V'. exists true, i, o. exact V'.
    + exists cf, i, o. now rewrite O.
  - assert (Ne : x <> l).
    { intros ->. assert (E := clean_item_level t (S j) k l C I). lia. }
    destruct C as (lo & hi & Vx & C1 & C2). exists lo, hi. rewrite O by exact Ne. split; [exact Vx|].
    split; apply IH; auto; lia.
Qed.

Lemma item_mark t t' k l tn : view t l = Some tn -> view t' l = Some (set_cf tn) ->
  (forall x, x <> l -> view t' x = view t x) -> item t k l -> forall x, item t k x -> item t' k x.
Proof.
  intros V V' O I x Ix. destruct k as [|k]; [contradiction|]. destruct Ix as (cf & lo & hi & Vx & C1 & C2).
  assert (M := clean_mark t t' (S k) l tn V V' O I k).
  destruct (N.eq_dec x l) as [->|Ne].
  - rewrite V in Vx. injection Vx as ->. cbn in V'. exists true, lo, hi. split; [exact V'|]. auto.
  - exists cf, lo, hi. rewrite O by exact Ne. auto.
Qed.

Lemma item_mark_lower t t' k l tn : view t l = Some tn -> view t' l = Some (set_cf tn) ->
  (forall x, x <> l -> view t' x = view t x) -> item t (S k) l -> forall x, item t k x -> item t' k x.
Proof.
  intros V V' O I x Ix. destruct k as [|k]; [contradiction|]. destruct Ix as (cf & lo & hi & Vx & C1 & C2).
  assert (M : forall z, clean t k z -> clean t' k z)
    by (intros z; apply (clean_mark t t' (S (S k)) l tn V V' O I k); lia).
  destruct (N.eq_dec x l) as [->|Ne].
  - rewrite V in Vx. injection Vx as ->. cbn in V'. exists true, lo, hi. split; [exact V'|]. auto.
  - exists cf, lo, hi. rewrite O by exact Ne. auto.
Qed.

(** Marks of source labels do not matter. *)
Lemma item_source_mark t t' x tn : view t x = Some tn -> is_src tn = true -> view t' x = Some (set_cf tn) ->
  (forall y, y <> x -> view t' y = view t y) -> forall y, item t 1 y -> item t' 1 y.
Proof.
  intros V S V' O y (cf & lo & hi & Vy & C1 & C2).
  assert (Ne : y <> x) by (intros ->; rewrite V in Vy; injection Vy as ->; discriminate S).
  assert (Cl : forall z, clean t 0 z -> clean t' 0 z).
  { intros z (c & i & o & Vz). destruct (N.eq_dec z x) as [->|Nz].
    - rewrite V in Vz. injection Vz as ->. cbn in V'. exists true, i, o. exact V'.
    - exists c, i, o. now rewrite O. }
  exists cf, lo, hi. rewrite O by exact Ne. auto.
Qed.

(** ** The number of rounds *)
Definition w (k : nat) : N := 2 ^ N.of_nat k - 1.
Lemma w_succ k : w (S k) = 1 + 2 * w k.
Proof.
  unfold w. rewrite Nat2N.inj_succ, N.pow_succ_r'. assert (P : 1 <= 2 ^ N.of_nat k) by (apply N.lt_pred_le; apply N.neq_0_lt_0; apply N.pow_nonzero; discriminate).
  lia.
Qed.

Lemma visit_source_child t q x : wf_table t -> clean t 0 x ->
  exists t', visit_label_l t q x = Ok (t', q) /\ wf_table t' /\
    (forall y, item t 1 y -> item t' 1 y) /\ (forall y, clean t 0 y -> clean t' 0 y).
Proof.
  intros W (cf & i & o & V). unfold visit_label_l. destruct (add_to_q_spec t x _ W V) as (A1 & _ & A3).
  destruct cf.
  - rewrite A1 by reflexivity. cbn [bind fst snd]. exists t. auto.
  - destruct A3 as (t' & A & S); [reflexivity|reflexivity|]. rewrite A. cbn [bind fst snd]. exists t'.
    split; [reflexivity|]. destruct (set_flag_spec t x _ W V) as (t1 & S1 & W1 & _ & V1 & O1).
    rewrite S in S1. injection S1 as <-. split; [exact W1|].
    split; [exact (item_source_mark t t' x _ V eq_refl V1 O1)|].
    intros y (c & i' & o' & Vy). destruct (N.eq_dec y x) as [->|Ne].
    + cbn in V1. exists true, i, o. exact V1.
    + exists c, i', o'. now rewrite O1.
Qed.

Lemma visit_clean_child t q x k : wf_table t -> clean t (S k) x -> visit_label_l t q x = Ok (t, q ++ [x]).
Proof.
  intros W (lo & hi & V & _). unfold visit_label_l. destruct (add_to_q_spec t x _ W V) as (_ & A2 & _).
  rewrite A2 by reflexivity. reflexivity.
Qed.

(** One round: a queue entry of level k + 1 is replaced by two of level k. *)
Lemma round_step t l q k : wf_table t -> item t (S k) l ->
  exists t2 q2, wf_table t2 /\
    (forall f, cf_loop_l (S f) t (l :: q) = cf_loop_l f t2 (q ++ q2)) /\
    (forall x, item t (S k) x -> item t2 (S k) x) /\ (forall x, item t k x -> item t2 k x) /\
    (forall x, In x q2 -> item t2 k x) /\ len q2 = match k with O => 0 | S _ => 2 end.
Proof.
  intros W I. assert (I0 := I). destruct I as (cf & lo & hi & V & C1 & C2).
  destruct (view_wf _ _ _ W V) as (Wt & Vt & G).
  destruct (set_flag_spec t l _ W V) as (t1 & S1 & W1 & L1 & V1 & O1).
  assert (Cl := clean_mark t t1 (S k) l _ V V1 O1 I0 k).
  assert (It := item_mark t t1 (S k) l _ V V1 O1 I0).
  assert (Il := item_mark_lower t t1 k l _ V V1 O1 I0).
  assert (Dec : decode (encode (TUnion cf lo hi)) = Ok (TUnion cf lo hi)).
  { unfold view, read_label, read_word in V. rewrite G in V. cbn [bind] in V.
    destruct (decode (encode (TUnion cf lo hi))); congruence. }
  assert (R : forall f, cf_loop_l (S f) t (l :: q) =
     (do p <- visit_labels_l t1 q [lo; hi]; cf_loop_l f (fst p) (snd p))).
  { intros f. cbn [cf_loop_l]. unfold read_word. rewrite G. cbn [bind]. rewrite S1. cbn [bind]. rewrite Dec. reflexivity. }
  destruct k as [|k].
  - destruct (visit_source_child t1 q lo W1) as (t2 & E2 & W2 & I2 & K2); [apply Cl; auto|].
    destruct (visit_source_child t2 q hi W2) as (t3 & E3 & W3 & I3 & _); [apply K2; apply Cl; auto|].
    exists t3, []. split; [exact W3|]. split; [|split; [|split; [|split; [|reflexivity]]]].
    + intros f. rewrite R. cbn [visit_labels_l]. rewrite E2. cbn [bind fst snd]. rewrite E3. cbn [bind fst snd]. now rewrite app_nil_r.
    + intros x Ix. apply I3, I2, It, Ix.
    + intros x [].
    + intros x [].
  - assert (D1 : clean t1 (S k) lo) by (apply Cl; auto).
    assert (D2 : clean t1 (S k) hi) by (apply Cl; auto).
    exists t1, [lo; hi]. split; [exact W1|]. split; [|split; [exact It|split; [exact Il|split; [|reflexivity]]]].
    + intros f. rewrite R. cbn [visit_labels_l]. rewrite (visit_clean_child t1 q lo k W1 D1). cbn [bind fst snd].
      rewrite (visit_clean_child t1 (q ++ [lo]) hi k W1 D2). cbn [bind fst snd]. rewrite <- app_assoc. reflexivity.
    + intros x [<-|[<-|[]]]; apply clean_item; auto; lia.
Qed.

Lemma rounds fuel : forall k t A B, wf_table t -> (forall x, In x A -> item t (S k) x) ->
  (forall x, In x B -> item t k x) ->
  N.of_nat fuel < w (S k) * len A + w k * len B -> cf_loop_l fuel t (A ++ B) = Fuel.
Proof.
  induction fuel as [|f IH]; intros k t A B W IA CB Hf.
  - destruct (A ++ B) as [|x q] eqn:E; [|reflexivity].
    apply app_eq_nil in E. destruct E as [-> ->]. cbn in Hf. lia.
  - assert (Step : forall k l A B, (forall x, In x (l :: A) -> item t (S k) x) -> (forall x, In x B -> item t k x) ->
      N.of_nat (S f) < w (S k) * len (l :: A) + w k * len B -> cf_loop_l (S f) t ((l :: A) ++ B) = Fuel).
    { clear k A B IA CB Hf. intros k l A B IA CB Hf. cbn [app].
      destruct (round_step t l (A ++ B) k W (IA l (or_introl eq_refl))) as (t2 & q2 & W2 & R & It & Il & Iq & Lq).
      rewrite R, <- app_assoc. apply (IH k); auto.
      - intros x Hx. apply It, IA. now right.
      - intros x Hx. apply in_app_or in Hx. destruct Hx; auto.
      - rewrite len_cons in Hf. rewrite len_app, Lq, w_succ in *. destruct k as [|k]; [change (w 0) with 0 in *|]; lia. }
    destruct A as [|l A]; [|now apply (Step k)].
    rewrite (len_nil (A := N)), N.mul_0_r, N.add_0_l in Hf. cbn [app].
    destruct k as [|k]; [change (w 0) with 0 in Hf; lia|].
    destruct B as [|l B]; [rewrite (len_nil (A := N)) in Hf; lia|].
    rewrite <- (app_nil_r (l :: B)). apply (Step k); auto.
    + intros x [].
    + lia.
Qed.

Lemma affects_rounds fuel junk t l k : wf_table t -> clean t (S k) l -> N.of_nat fuel < w (S k) ->
  affects_control_flow fuel junk t l = Fuel.
Proof.
  intros W C F. rewrite affects_rel. unfold affects_l. assert (C0 := C). destruct C as (lo & hi & V & _).
  destruct (add_to_q_spec t l _ W V) as (_ & A2 & _). rewrite A2 by reflexivity. cbn [bind fst snd].
  rewrite <- (app_nil_r [l]). apply (rounds fuel k); auto.
  - intros x [<-|[]]. apply clean_item; auto. lia.
  - intros x [].
  - change (len [l]) with 1. lia.
Qed.

(** ** A table with such a label *)
Lemma fresh_union t l r lt rt : reachable t -> view t l = Some lt -> view t r = Some rt -> l + 1 < r ->
  compute l lt r rt = union_labels l r -> (forall y cf, view t y <> Some (TUnion cf l r)) -> len t < label_capacity ->
  exists t', reachable t' /\ len t' = len t + 1 /\ view t' (len t) = Some (TUnion false l r) /\
    (forall y, in_use t y -> view t' y = view t y).
Proof.
  intros R Vl Vr Lr C Nd Cap. assert (W := reachable_wf _ R).
  assert (Ul := view_in_use _ _ _ W Vl). assert (Ur := view_in_use _ _ _ W Vr).
  set (tn := TUnion false l r).
  assert (Bd : len t <= label_capacity) by lia. change label_capacity with 2147483648 in Bd, Cap.
  assert (UL : union_labels l r = Ok (RTaint tn)).
  { destruct Ul, Ur. unfold union_labels. rewrite !add32_small by (unfold two32; lia).
    destruct (N.eqb_spec (l + 1) r); [lia|]. destruct (N.eqb_spec (r + 1) l); [lia|].
    unfold mk_union. rewrite !add32_small by (unfold two32; lia).
    destruct (N.eqb_spec l r); [lia|]. destruct (N.eqb_spec l (r + 1)); [lia|]. destruct (N.eqb_spec r (l + 1)); [lia|].
    destruct (N.ltb_spec l r); [reflexivity|lia]. }
  assert (Wtn : wf_taint (len t) tn) by (destruct Ul, Ur; cbn; lia).
  assert (Vtn : valid_taint tn) by (apply (wf_valid (len t)); [change label_capacity with 2147483648; lia|exact Wtn]).
  assert (U : union_taint t l r = Ok (len t, t ++ [encode tn])).
  { unfold union_taint. destruct (N.eqb_spec l r); [lia|].
    assert (Rl : read_label t l = Ok lt) by (unfold view in Vl; destruct (read_label t l); congruence).
    assert (Rr : read_label t r = Ok rt) by (unfold view in Vr; destruct (read_label t r); congruence).
    rewrite Rl. cbn [bind]. rewrite Rr. cbn [bind]. rewrite C, UL. cbn [bind].
    remember (encode tn) as e eqn:Ee.
    destruct (duplicate_check t (N.max l r) e) as [d|] eqn:D.
    - exfalso. assert (Hm : N.max l r < len t) by (destruct Ul, Ur; lia).
      destruct (duplicate_check_some t _ _ _ Hm D) as (D1 & D2 & w0 & G & Q).
      assert (Ud : in_use t d) by (destruct Ul, Ur; split; lia).
      destruct (wf_view t d W Ud) as (td & Gd & Vd & _ & Vtd). rewrite G in Gd. injection Gd as ->. subst e.
      apply equal_ignore_cf_encode in Q; auto. destruct td as [? ? ?|? ? ?|cf a b]; cbn in Q; try discriminate Q.
      injection Q as -> ->. exact (Nd d cf Vd).
    - unfold construct. change label_capacity with 2147483648. destruct (N.ltb_spec (len t) 2147483648); [reflexivity|lia]. }
  exists (t ++ [encode tn]). destruct R as [h T]. split.
  { exists (h ++ [(LUnion l r, len t)]). eapply tr_snoc; [exact T|split; assumption|constructor; exact U]. }
  split; [now rewrite len_app|]. split.
  - apply view_get; [apply get_app_last|exact Vtn].
  - intros y [_ Y]. now apply view_app.
Qed.

Lemma add_source t : reachable t -> len t + 1 <= label_capacity ->
  exists t', reachable t' /\ len t' = len t + 1 /\ view t' (len t) = Some (TSource false 0 (len t)) /\
    (forall y, in_use t y -> view t' y = view t y).
Proof.
  intros R Cap. change label_capacity with 2147483648 in Cap.
  destruct (C07_source_labels_total t 0 (len t) 1 R) as (f & la & t' & E); [lia|change (2 ^ 31) with 2147483648; lia|].
  assert (Ok1 : lop_ok t (LSource 0 (len t) 1)).
  { cbn. change (2 ^ 54) with 18014398509481984. lia. }
  destruct Ok1 as (K1 & K2 & K3).
  destruct (C07_source_labels t 0 (len t) 1 f la t' R K1 K2 K3 E) as (-> & _ & L & V & Vn).
  exists t'. destruct R as [h T]. split.
  { exists (h ++ [(LSource 0 (len t) 1, len t)]). eapply tr_snoc; [exact T|split; [exact K1|split; assumption]|].
    econstructor. exact E. }
  split; [exact L|]. split; [|exact V].
  specialize (Vn 0 ltac:(lia)). rewrite !N.add_0_r in Vn. exact Vn.
Qed.

Definition no_range (t : table) : Prop := forall y cf lo hi, view t y <> Some (TRange cf lo hi).

Lemma no_range_snoc t t' b tn : reachable t' -> len t' = b + 1 -> len t = b -> view t' b = Some tn ->
  match tn with TRange _ _ _ => False | _ => True end -> (forall y, in_use t y -> view t' y = view t y) ->
  no_range t -> no_range t'.
Proof.
  intros R L L0 V C O N y cf lo hi Vy. assert (U := view_in_use _ _ _ (reachable_wf _ R) Vy). destruct U as [U1 U2].
  destruct (N.eq_dec y b) as [->|Ne].
  - rewrite V in Vy. injection Vy as ->. exact C.
  - rewrite O in Vy by (split; lia). exact (N _ _ _ _ Vy).
Qed.

Definition tops (t : table) (n : nat) : Prop :=
  let b := 6 * N.of_nat n + 1 in
  match n with
  | O => view t b = Some (TSource false 0 b) /\ view t (b + 2) = Some (TSource false 0 (b + 2)) /\
         view t (b + 4) = Some (TSource false 0 (b + 4))
  | S _ => view t b = Some (TUnion false (b - 6) (b - 4)) /\ view t (b + 2) = Some (TUnion false (b - 4) (b - 2)) /\
           view t (b + 4) = Some (TUnion false (b - 6) (b - 2))
  end.

Definition layered (t : table) (n : nat) : Prop :=
  let b := 6 * N.of_nat n + 1 in
  reachable t /\ len t = 6 * N.of_nat n + 7 /\ tops t n /\
  no_range t /\ clean t n b /\ clean t n (b + 2) /\ clean t n (b + 4) /\
  (forall y cf lo hi, view t y = Some (TUnion cf lo hi) -> hi < b).

Lemma grow t b : reachable t -> len t = b -> b + 1 <= label_capacity ->
  exists t', reachable t' /\ len t' = b + 1 /\ view t' b = Some (TSource false 0 b) /\
    (forall y, in_use t y -> view t' y = view t y).
Proof. intros R <- C. now apply add_source. Qed.

Lemma layered_0 : exists t, layered t 0.
Proof.
  assert (R0 : reachable labels_new) by (exists []; constructor).
  assert (L0 : len labels_new = 1) by reflexivity.
  destruct (grow labels_new 1 R0 L0) as (t1 & R1 & L1 & V1 & O1); [vm_compute; discriminate|].
  destruct (grow t1 2 R1 L1) as (t2 & R2 & L2 & V2 & O2); [vm_compute; discriminate|].
  destruct (grow t2 3 R2 L2) as (t3 & R3 & L3 & V3 & O3); [vm_compute; discriminate|].
  destruct (grow t3 4 R3 L3) as (t4 & R4 & L4 & V4 & O4); [vm_compute; discriminate|].
  destruct (grow t4 5 R4 L4) as (t5 & R5 & L5 & V5 & O5); [vm_compute; discriminate|].
  destruct (grow t5 6 R5 L5) as (t6 & R6 & L6 & V6 & O6); [vm_compute; discriminate|].
  exists t6. unfold layered. cbn [N.of_nat N.mul N.add tops].
  change (6 * 0 + 1) with 1. change (1 + 2) with 3. change (1 + 4) with 5.
  assert (E1 : view t6 1 = Some (TSource false 0 1)).
  { rewrite O6, O5, O4, O3, O2 by (unfold in_use; lia). exact V1. }
  assert (E2 : view t6 2 = Some (TSource false 0 2)).
  { rewrite O6, O5, O4, O3 by (unfold in_use; lia). exact V2. }
  assert (E3 : view t6 3 = Some (TSource false 0 3)).
  { rewrite O6, O5, O4 by (unfold in_use; lia). exact V3. }
  assert (E4 : view t6 4 = Some (TSource false 0 4)).
  { rewrite O6, O5 by (unfold in_use; lia). exact V4. }
  assert (E5 : view t6 5 = Some (TSource false 0 5)).
  { rewrite O6 by (unfold in_use; lia). exact V5. }
  split; [exact R6|]. split; [exact L6|]. split; [auto|]. split.
  { intros y cf lo hi V. assert (U := view_in_use _ _ _ (reachable_wf _ R6) V).
    destruct U as [U1 U2]. rewrite L6 in U2.
    assert (Q : y = 1 \/ y = 2 \/ y = 3 \/ y = 4 \/ y = 5 \/ y = 6) by lia.
    destruct Q as [->|[->|[->|[->|[->| ->]]]]]; congruence. }
  split; [cbn; eauto|]. split; [cbn; eauto|]. split; [cbn; eauto|].
  intros y cf lo hi V. exfalso. assert (U := view_in_use _ _ _ (reachable_wf _ R6) V).
  destruct U as [U1 U2]. rewrite L6 in U2.
  assert (Q : y = 1 \/ y = 2 \/ y = 3 \/ y = 4 \/ y = 5 \/ y = 6) by lia.
  destruct Q as [->|[->|[->|[->|[->| ->]]]]]; congruence.
Qed.

Lemma tops_compute t n l r lt rt : tops t n -> let b := 6 * N.of_nat n + 1 in
  (l = b /\ r = b + 2) \/ (l = b + 2 /\ r = b + 4) \/ (l = b /\ r = b + 4) ->
  view t l = Some lt -> view t r = Some rt -> compute l lt r rt = union_labels l r.
Proof.
  intros T b C Vl Vr. unfold tops in T. fold b in T. destruct n as [|n].
  - assert (B : b = 1) by reflexivity. rewrite B in *. clear b B. destruct T as (T1 & T2 & T3).
    destruct C as [[-> ->]|[[-> ->]|[-> ->]]].
    + rewrite T1 in Vl. rewrite T2 in Vr. injection Vl as <-. injection Vr as <-. reflexivity.
    + rewrite T2 in Vl. rewrite T3 in Vr. injection Vl as <-. injection Vr as <-. reflexivity.
    + rewrite T1 in Vl. rewrite T3 in Vr. injection Vl as <-. injection Vr as <-. reflexivity.
  - assert (B : 7 <= b) by (unfold b; lia). clearbody b. destruct T as (T1 & T2 & T3).
    assert (K : forall lo hi lo' hi', hi < r -> lo < r -> hi' < l -> lo' < l -> lo <> lo' \/ hi <> hi' ->
      compute l (TUnion false lo hi) r (TUnion false lo' hi') = union_labels l r).
    { clear. intros lo hi lo' hi' H1 H2 H3 H4 H5. cbn [compute]. unfold encloses_union_label.
      destruct (N.eqb_spec hi r); [lia|]. destruct (N.eqb_spec lo r); [lia|]. cbn [orb].
      destruct (N.eqb_spec hi' l); [lia|]. destruct (N.eqb_spec lo' l); [lia|]. cbn [orb].
      destruct (N.eqb_spec hi hi'), (N.eqb_spec lo lo'); cbn [andb]; auto. lia. }
    destruct C as [[-> ->]|[[-> ->]|[-> ->]]].
    + rewrite T1 in Vl. rewrite T2 in Vr. injection Vl as <-. injection Vr as <-. clear - K B. apply K; lia.
    + rewrite T2 in Vl. rewrite T3 in Vr. injection Vl as <-. injection Vr as <-. clear - K B. apply K; lia.
    + rewrite T1 in Vl. rewrite T3 in Vr. injection Vl as <-. injection Vr as <-. clear - K B. apply K; lia.
Qed.

Lemma tops_views t n : tops t n -> let b := 6 * N.of_nat n + 1 in
  exists x y z, view t b = Some x /\ view t (b + 2) = Some y /\ view t (b + 4) = Some z.
Proof.
  intros T b. unfold tops in T. fold b in T. clearbody b.
  destruct n; destruct T as (A & B & C); do 3 eexists; exact (conj A (conj B C)).
Qed.

Lemma layered_step t n : layered t n -> len t + 6 <= label_capacity -> exists t', layered t' (S n).
Proof.
  intros (R & L & T & NR & C1 & C2 & C3 & F) Cap.
  set (b := 6 * N.of_nat n + 1) in *. assert (L' : len t = b + 6) by (unfold b; lia).
  rewrite L' in Cap. assert (W := reachable_wf _ R).
  destruct (tops_views t n T) as (x & y & z & Vx & Vy & Vz). fold b in Vx, Vy, Vz.
  assert (U : forall v, 1 <= v -> v < b + 6 -> in_use t v) by (intros v V1 V2; split; lia).
  (* b + 6 *)
  destruct (fresh_union t b (b + 2) x y R Vx Vy) as (t1 & R1 & L1 & V1 & O1); [lia| | |lia|].
  { apply (tops_compute t n); auto. }
  { intros v cf V. apply F in V. lia. }
  rewrite L' in V1, L1.
  assert (F1 : forall v cf lo hi, view t1 v = Some (TUnion cf lo hi) -> hi < b \/ (lo = b /\ hi = b + 2)).
  { intros v cf lo hi V. assert (Uv := view_in_use _ _ _ (reachable_wf _ R1) V). destruct Uv as [Uv1 Uv2].
    destruct (N.eq_dec v (b + 6)) as [->|Ne]; [rewrite V1 in V; injection V as <- <- <-; auto|].
    rewrite O1 in V by (apply U; lia). left. eapply F; eauto. }
  (* b + 7 *)
  destruct (grow t1 (b + 7) R1) as (t2 & R2 & L2 & V2 & O2); [lia|lia|].
  assert (F2 : forall v cf lo hi, view t2 v = Some (TUnion cf lo hi) -> hi < b \/ (lo = b /\ hi = b + 2)).
  { intros v cf lo hi V. assert (Uv := view_in_use _ _ _ (reachable_wf _ R2) V). destruct Uv as [Uv1 Uv2].
    destruct (N.eq_dec v (b + 7)) as [->|Ne]; [congruence|]. rewrite O2 in V by (split; lia). eapply F1; eauto. }
  assert (A2 : forall v, in_use t v -> view t2 v = view t v).
  { intros v Uv. rewrite O2, O1; auto. destruct Uv. split; lia. }
  (* b + 8 *)
  destruct (fresh_union t2 (b + 2) (b + 4) y z R2) as (t3 & R3 & L3 & V3 & O3).
  { rewrite A2; [exact Vy|apply U; lia]. }
  { rewrite A2; [exact Vz|apply U; lia]. }
  { lia. }
  { apply (tops_compute t n); auto. }
  { intros v cf V. apply F2 in V. lia. }
  { lia. }
  rewrite L2 in V3, L3.
  assert (F3 : forall v cf lo hi, view t3 v = Some (TUnion cf lo hi) -> hi < b \/ (lo = b /\ hi = b + 2) \/ (lo = b + 2 /\ hi = b + 4)).
  { intros v cf lo hi V. assert (Uv := view_in_use _ _ _ (reachable_wf _ R3) V). destruct Uv as [Uv1 Uv2].
    destruct (N.eq_dec v (b + 7 + 1)) as [->|Ne]; [rewrite V3 in V; injection V as <- <- <-; auto|].
    rewrite O3 in V by (split; lia). destruct (F2 _ _ _ _ V); auto. }
  (* b + 9 *)
  destruct (grow t3 (b + 9) R3) as (t4 & R4 & L4 & V4 & O4); [lia|lia|].
  assert (F4 : forall v cf lo hi, view t4 v = Some (TUnion cf lo hi) -> hi < b \/ (lo = b /\ hi = b + 2) \/ (lo = b + 2 /\ hi = b + 4)).
  { intros v cf lo hi V. assert (Uv := view_in_use _ _ _ (reachable_wf _ R4) V). destruct Uv as [Uv1 Uv2].
    destruct (N.eq_dec v (b + 9)) as [->|Ne]; [congruence|]. rewrite O4 in V by (split; lia). eapply F3; eauto. }
  assert (A4 : forall v, in_use t v -> view t4 v = view t v).
  { intros v Uv. rewrite O4, O3, A2; auto; destruct Uv; split; lia. }
  (* b + 10 *)
  destruct (fresh_union t4 b (b + 4) x z R4) as (t5 & R5 & L5 & V5 & O5).
  { rewrite A4; [exact Vx|apply U; lia]. }
  { rewrite A4; [exact Vz|apply U; lia]. }
  { lia. }
  { apply (tops_compute t n); auto. }
  { intros v cf V. apply F4 in V. lia. }
  { lia. }
  rewrite L4 in V5, L5.
  assert (F5 : forall v cf lo hi, view t5 v = Some (TUnion cf lo hi) -> hi < b + 6).
  { intros v cf lo hi V. assert (Uv := view_in_use _ _ _ (reachable_wf _ R5) V). destruct Uv as [Uv1 Uv2].
    destruct (N.eq_dec v (b + 9 + 1)) as [->|Ne]; [rewrite V5 in V; injection V as <- <- <-; lia|].
    rewrite O5 in V by (split; lia). apply F4 in V. lia. }
  (* b + 11 *)
  destruct (grow t5 (b + 11) R5) as (t6 & R6 & L6 & V6 & O6); [lia|lia|].
  assert (A6 : forall v, in_use t v -> view t6 v = view t v).
  { intros v Uv. rewrite O6, O5, A4; auto; destruct Uv; split; lia. }
  exists t6. unfold layered.
  assert (Eb : 6 * N.of_nat (S n) + 1 = b + 6) by (unfold b; lia). rewrite Eb.
  assert (W1 : view t6 (b + 6) = Some (TUnion false b (b + 2))).
  { rewrite O6, O5, O4, O3, O2 by (split; lia). exact V1. }
  assert (W2 : view t6 (b + 6 + 2) = Some (TUnion false (b + 2) (b + 4))).
  { replace (b + 6 + 2) with (b + 7 + 1) by lia. rewrite O6, O5, O4 by (split; lia). exact V3. }
  assert (W3 : view t6 (b + 6 + 4) = Some (TUnion false b (b + 4))).
  { replace (b + 6 + 4) with (b + 9 + 1) by lia. rewrite O6 by (split; lia). exact V5. }
  assert (Cl : forall v, clean t n v -> clean t6 n v) by (apply clean_ext; auto).
  split; [exact R6|]. split; [lia|]. split.
  { unfold tops. rewrite Eb. replace (b + 6 - 6) with b by lia. replace (b + 6 - 4) with (b + 2) by lia.
    replace (b + 6 - 2) with (b + 4) by lia. auto. }
  split.
  { assert (N1 : no_range t1) by (apply (no_range_snoc t t1 (b + 6) _ R1 L1 L' V1 I O1 NR)).
    assert (N2 : no_range t2) by (apply (no_range_snoc t1 t2 (b + 7) _ R2 L2 ltac:(lia) V2 I O2 N1)).
    assert (N3 : no_range t3) by (apply (no_range_snoc t2 t3 (b + 7 + 1) _ R3 L3 L2 V3 I O3 N2)).
    assert (N4 : no_range t4) by (apply (no_range_snoc t3 t4 (b + 9) _ R4 L4 ltac:(lia) V4 I O4 N3)).
    assert (N5 : no_range t5) by (apply (no_range_snoc t4 t5 (b + 9 + 1) _ R5 L5 L4 V5 I O5 N4)).
    apply (no_range_snoc t5 t6 (b + 11) _ R6 L6 ltac:(lia) V6 I O6 N5). }
  split; [exists b, (b + 2); auto|]. split; [exists (b + 2), (b + 4); auto|]. split; [exists b, (b + 4); auto|].
  intros v cf lo hi V. assert (Uv := view_in_use _ _ _ (reachable_wf _ R6) V). destruct Uv as [Uv1 Uv2].
  destruct (N.eq_dec v (b + 11)) as [->|Ne]; [congruence|]. rewrite O6 in V by (split; lia). eapply F5; eauto.
Qed.

Lemma layered_exists n : 6 * N.of_nat n + 7 <= label_capacity -> exists t, layered t n.
Proof.
  induction n as [|n IH]; intros C; [exact layered_0|].
  destruct IH as (t & H); [lia|]. apply (layered_step t n H). destruct H as (_ & L & _). rewrite L. lia.
Qed.

Lemma affects_bound t l : wf_table t -> cf_closed t -> in_use t l ->
  exists t', forall fuel junk, (N.to_nat (2 ^ l) <= fuel)%nat -> affects_control_flow fuel junk t l = Ok t'.
Proof.
  intros W C U. destruct (affects_start t l W C U) as [(t1 & E & R)|(E & I)].
  - exists t1. intros. rewrite affects_rel. apply E.
  - assert (M : msum [l] = 2 ^ l) by (cbn [msum]; unfold pw; lia).
    destruct (cf_loop_total t l W (N.to_nat (2 ^ l)) t [l] I) as (t' & H); [rewrite M; lia|].
    exists t'. intros. rewrite affects_rel, E.
    replace fuel with (N.to_nat (2 ^ l) + (fuel - N.to_nat (2 ^ l)))%nat by lia.
    now apply cf_loop_l_mono.
Qed.
