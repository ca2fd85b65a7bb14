(** Invariants of the label table. *)
From Coq Require Import ZArith NArith List Bool Lia ZifyBool ZifyNat ZifyN.
From Verif Require Import M_Base M_Encoding M_Union M_LabelDeq M_Labels
  S_Provenance S_Labels P_Base P_Encoding.
Import ListNotations.
Open Scope N_scope.

(** A taint stored at label [n]: its members are older labels. *)
Definition wf_taint (n : N) (tn : taint) : Prop :=
  match tn with
  | TSource _ i o => i <= 255 /\ o < 2 ^ 54
  | TRange _ f l => 1 <= f /\ f < l /\ l < n
  | TUnion _ lo hi => 1 <= lo /\ lo + 1 < hi /\ hi < n
  end.

Definition wf_table (t : table) : Prop :=
  get t 0 = Some 0 /\ len t <= label_capacity /\
  forall i, 1 <= i -> i < len t ->
    exists tn, get t i = Some (encode tn) /\ wf_taint i tn.

Lemma wf_valid n tn : n <= label_capacity -> wf_taint n tn -> valid_taint tn.
Proof.
  unfold label_capacity, max_label. change (2^54) with 18014398509481984.
  destruct tn; simpl; unfold max_source_index, max_source_offset, max_label;
  change (2^54) with 18014398509481984; lia.
Qed.

Lemma wf_taint_mono n m tn : n <= m -> wf_taint n tn -> wf_taint m tn.
Proof. destruct tn; simpl; lia. Qed.

Lemma wf_new : wf_table labels_new.
Proof.
  split; [reflexivity|]. split.
  - change (len labels_new) with 1. unfold label_capacity. lia.
  - change (len labels_new) with 1. lia.
Qed.

Lemma view_get t i tn : get t i = Some (encode tn) -> valid_taint tn -> view t i = Some tn.
Proof.
  intros G V. unfold view, read_label, read_word. rewrite G. cbn [bind].
  now rewrite decode_encode.
Qed.

Lemma wf_view t i : wf_table t -> in_use t i ->
  exists tn, get t i = Some (encode tn) /\ view t i = Some tn /\ wf_taint i tn /\ valid_taint tn.
Proof.
  intros (W0 & Wc & W) [H1 H2]. destruct (W i H1 H2) as (tn & G & Wt).
  assert (valid_taint tn) by (eapply wf_valid; [|exact Wt]; lia).
  exists tn. eauto using view_get.
Qed.

Lemma view_zero t : wf_table t -> view t 0 = None.
Proof.
  intros (W0 & _). unfold view, read_label, read_word. rewrite W0. reflexivity.
Qed.

Lemma view_in_use t i tn : wf_table t -> view t i = Some tn -> in_use t i.
Proof.
  intros W V. destruct (N.eq_dec i 0) as [->|Hz].
  - rewrite view_zero in V by assumption. discriminate.
  - split; [lia|]. destruct (N.ltb_spec i (len t)); auto.
    unfold view, read_label, read_word in V. rewrite (proj2 (get_none t i)) in V by lia.
    destruct (i <? label_capacity); cbn [bind] in V; discriminate.
Qed.

Lemma view_wf t i tn : wf_table t -> view t i = Some tn ->
  wf_taint i tn /\ valid_taint tn /\ get t i = Some (encode tn).
Proof.
  intros W V. destruct (wf_view t i W (view_in_use _ _ _ W V)) as (tn' & G & V' & Wt & Vt).
  rewrite V' in V. inversion V; subst. auto.
Qed.

Lemma component_lt t l m : wf_table t -> component (view t) l m ->
  1 <= m /\ m < l /\ l < len t.
Proof.
  intros W C. inversion C; subst.
  - destruct (view_wf _ _ _ W H) as (Wt & _). apply (view_in_use _ _ _ W) in H. 
    simpl in Wt. destruct H. lia.
  - destruct (view_wf _ _ _ W H) as (Wt & _). apply (view_in_use _ _ _ W) in H. 
    simpl in Wt. destruct H. lia.
  - destruct (view_wf _ _ _ W H) as (Wt & _). apply (view_in_use _ _ _ W) in H. 
    simpl in Wt. destruct H. lia.
Qed.

Lemma built_from_le t l m : wf_table t -> built_from (view t) l m -> m <= l.
Proof.
  intros W B. induction B; [lia|]. apply component_lt in H; auto. lia.
Qed.

Lemma built_from_in_use t l m : wf_table t -> in_use t l -> built_from (view t) l m -> in_use t m.
Proof.
  intros W U B. induction B; auto. apply IHB. apply component_lt in H; auto. split; lia.
Qed.

Lemma built_from_trans look l m k : built_from look l m -> built_from look m k -> built_from look l k.
Proof. induction 1; auto. intros. econstructor; eauto. Qed.

(** One-level unfolding of provenance. *)
Definition den (look : N -> option taint) (tn : taint) (b : input_byte) : Prop :=
  match tn with
  | TSource _ i o => b = (i, o)
  | TRange _ f l => exists m, f <= m <= l /\ derives look m b
  | TUnion _ lo hi => derives look lo b \/ derives look hi b
  end.

Lemma derives_den look l tn b : look l = Some tn -> (derives look l b <-> den look tn b).
Proof.
  intros V. split.
  - intros (m & cf & B & S). inversion B; subst.
    + rewrite V in S. inversion S; subst. simpl. now destruct b.
    + inversion H; subst; rewrite V in H1; inversion H1; subst; simpl.
      * exists m0. split; auto. exists m, cf. auto.
      * left. exists m, cf. auto.
      * right. exists m, cf. auto.
  - destruct tn; simpl.
    + intros ->. exists l, cf. split; [constructor|]. exact V.
    + intros (m & R & k & c & B & S). exists k, c. split; auto.
      eapply bf_step; eauto. eapply comp_range; eauto.
    + intros [(k & c & B & S)|(k & c & B & S)]; exists k, c; split; auto;
      eapply bf_step; eauto.
      * eapply comp_lower; eauto.
      * eapply comp_higher; eauto.
Qed.

Lemma den_erase look tn tn' b : erase_cf tn = erase_cf tn' -> (den look tn b <-> den look tn' b).
Proof. destruct tn, tn'; simpl; intros E; inversion E; subst; tauto. Qed.

(** Tables that agree below [n] up to the flags. *)
Definition agree (n : N) (t t' : table) : Prop :=
  forall i, i < n -> option_map erase_cf (view t i) = option_map erase_cf (view t' i).

Lemma agree_sym n t t' : agree n t t' -> agree n t' t.
Proof. intros A i Hi. symmetry. auto. Qed.
Lemma agree_trans n t t' t'' : agree n t t' -> agree n t' t'' -> agree n t t''.
Proof. intros A B i Hi. rewrite A; auto. Qed.
Lemma agree_le n m t t' : m <= n -> agree n t t' -> agree m t t'.
Proof. intros H A i Hi. apply A. lia. Qed.

Lemma agree_component n t t' l m : agree n t t' -> l < n ->
  component (view t) l m -> component (view t') l m.
Proof.
  intros A Hl C. inversion C; subst; specialize (A l Hl); rewrite H in A; cbn in A;
  destruct (view t' l) as [[]|] eqn:E; cbn in A; inversion A; subst.
  - eapply comp_range; eauto.
  - eapply comp_lower; eauto.
  - eapply comp_higher; eauto.
Qed.

Lemma agree_built_from n t t' l m : wf_table t -> agree n t t' -> l < n ->
  built_from (view t) l m -> built_from (view t') l m.
Proof.
  intros W A Hl B. induction B; [constructor|].
  econstructor; [eapply agree_component; eauto|]. apply IHB.
  apply component_lt in H; auto. lia.
Qed.

Lemma agree_derives_1 n t t' l b : wf_table t -> agree n t t' -> l < n ->
  derives (view t) l b -> derives (view t') l b.
Proof.
  intros W A Hl (m & cf & B & S).
  assert (m <= l) by (eapply built_from_le; eauto).
  assert (Am := A m ltac:(lia)). rewrite S in Am. cbn in Am.
  destruct (view t' m) as [tm|] eqn:E; [|discriminate].
  destruct tm; cbn in Am; inversion Am; subst.
  exists m, cf0. split; auto. eapply agree_built_from; eauto.
Qed.

Lemma agree_derives n t t' l b : wf_table t -> wf_table t' -> agree n t t' -> l < n ->
  (derives (view t) l b <-> derives (view t') l b).
Proof.
  intros. split; eapply agree_derives_1; eauto using agree_sym.
Qed.

(** ** Appending *)
Lemma view_app t ws i : i < len t -> view (t ++ ws) i = view t i.
Proof.
  intros H. unfold view, read_label, read_word. rewrite get_app_l by assumption. reflexivity.
Qed.

Lemma agree_app t ws : agree (len t) t (t ++ ws).
Proof. intros i Hi. now rewrite view_app. Qed.

Lemma wf_app1 t tn : wf_table t -> len t < label_capacity -> wf_taint (len t) tn ->
  wf_table (t ++ [encode tn]).
Proof.
  intros (W0 & Wc & W) Hc Wt. split; [|split].
  - rewrite get_app_l; auto. apply get_some in W0. exact W0.
  - rewrite len_app. change (len [encode tn]) with 1. lia.
  - intros i H1 H2. rewrite len_app in H2. change (len [encode tn]) with 1 in H2.
    destruct (N.ltb_spec i (len t)).
    + rewrite get_app_l by assumption. auto.
    + replace i with (len t) by lia. rewrite get_app_last. eauto.
Qed.

(** ** The union rules *)
Ltac split_if :=
  match goal with
  | |- context[if ?c then _ else _] => destruct c eqn:?
  end.

Lemma add32_small a : a < two32 - 1 -> add32 a 1 = a + 1.
Proof. intros. unfold add32, two32 in *. apply N.mod_small. lia. Qed.

Lemma union_labels_ok l r : l <> r -> 1 <= l -> 1 <= r -> l <= max_label -> r <= max_label ->
  exists tn, union_labels l r = Ok (RTaint tn) /\ cf_of tn = false /\
    wf_taint (N.max l r + 1) tn /\
    forall look b, den look tn b <-> derives look l b \/ derives look r b.
Proof.
  intros Hne Hl Hr Ml Mr. unfold union_labels, ret_range, max_label in *.
  rewrite !add32_small by (unfold two32; lia).
  destruct (N.eqb_spec (l + 1) r).
  { unfold mk_range. destruct (N.ltb_spec l r); [|lia]. cbn [bind].
    eexists. split; [reflexivity|]. split; [reflexivity|]. split; [simpl; lia|].
    intros look b. simpl. split.
    - intros (m & R & D). assert (m = l \/ m = r) as [->| ->] by lia; auto.
    - intros [D|D]; [exists l|exists r]; split; auto; lia. }
  destruct (N.eqb_spec (r + 1) l).
  { unfold mk_range. destruct (N.ltb_spec r l); [|lia]. cbn [bind].
    eexists. split; [reflexivity|]. split; [reflexivity|]. split; [simpl; lia|].
    intros look b. simpl. split.
    - intros (m & R & D). assert (m = l \/ m = r) as [->| ->] by lia; auto.
    - intros [D|D]; [exists l|exists r]; split; auto; lia. }
  unfold mk_union. rewrite !add32_small by (unfold two32; lia).
  destruct (N.eqb_spec l r); [lia|].
  destruct (N.eqb_spec l (r + 1)); [lia|].
  destruct (N.eqb_spec r (l + 1)); [lia|].
  destruct (N.ltb_spec l r); cbn [bind];
    (eexists; split; [reflexivity|]; split; [reflexivity|]; split; [simpl; lia|];
     intros look b; simpl; tauto).
Qed.

Lemma ret_range_ok f l : f < l -> ret_range f l = Ok (RTaint (TRange false f l)).
Proof. intros H. unfold ret_range, mk_range. destruct (N.ltb_spec f l); [reflexivity|lia]. Qed.

(** The contract of [compute]. *)
Definition good_ret (look : N -> option taint) (l : N) (lt : taint) (r : N) (rt : taint)
  (ret : Res union_ret) : Prop :=
  match ret with
  | Ok (RLabel x) => (x = l \/ x = r) /\
      forall b, derives look x b <-> den look lt b \/ den look rt b
  | Ok (RTaint tn) => cf_of tn = false /\ wf_taint (N.max l r + 1) tn /\
      forall b, den look tn b <-> den look lt b \/ den look rt b
  | _ => False
  end.

Section Compute.
  Variable look : N -> option taint.
  Variables (l r : N) (lt rt : taint).
  Hypothesis Hl : look l = Some lt.
  Hypothesis Hr : look r = Some rt.
  Hypothesis Wl : wf_taint l lt.
  Hypothesis Wr : wf_taint r rt.
  Hypothesis Hne : l <> r.
  Hypothesis L1 : 1 <= l.
  Hypothesis R1 : 1 <= r.
  Hypothesis Ml : l <= max_label.
  Hypothesis Mr : r <= max_label.

  Lemma good_union_labels : good_ret look l lt r rt (union_labels l r).
  Proof.
    destruct (union_labels_ok l r) as (tn & -> & C & W & D); auto.
    cbn. split; [|split]; auto. intros b. rewrite D.
    rewrite (derives_den look l lt b Hl), (derives_den look r rt b Hr). tauto.
  Qed.

  Lemma good_left : (forall b, den look rt b -> den look lt b) ->
    good_ret look l lt r rt (Ok (RLabel l)).
  Proof.
    intros H. cbn. split; auto. intros b. rewrite (derives_den look l lt b Hl).
    specialize (H b). tauto.
  Qed.

  Lemma good_right : (forall b, den look lt b -> den look rt b) ->
    good_ret look l lt r rt (Ok (RLabel r)).
  Proof.
    intros H. cbn. split; auto. intros b. rewrite (derives_den look r rt b Hr).
    specialize (H b). tauto.
  Qed.

  Lemma good_range f la : 1 <= f -> f < la -> la <= N.max l r ->
    (forall b, (exists m, f <= m <= la /\ derives look m b) <-> den look lt b \/ den look rt b) ->
    good_ret look l lt r rt (ret_range f la).
  Proof.
    intros H1 H2 H3 H. rewrite ret_range_ok by assumption. cbn.
    split; [reflexivity|]. split; [lia|]. exact H.
  Qed.
End Compute.

Lemma good_swap look l lt r rt ret :
  good_ret look l lt r rt ret -> good_ret look r rt l lt ret.
Proof.
  unfold good_ret. destruct ret as [[x|tn]| | |]; auto.
  - intros [H D]. split; [tauto|]. intros b. rewrite D. tauto.
  - intros (C & W & D). split; auto. rewrite N.max_comm. split; auto.
    intros b. rewrite D. tauto.
Qed.

Ltac bools :=
  repeat match goal with
  | H : (_ && _) = true |- _ => apply andb_true_iff in H; destruct H
  | H : (_ && _) = false |- _ => apply andb_false_iff in H
  | H : (_ || _) = true |- _ => apply orb_true_iff in H
  | H : (_ || _) = false |- _ => apply orb_false_iff in H; destruct H
  | H : (_ =? _) = true |- _ => apply N.eqb_eq in H
  | H : (_ =? _) = false |- _ => apply N.eqb_neq in H
  | H : (_ <=? _) = true |- _ => apply N.leb_le in H
  | H : (_ <=? _) = false |- _ => apply N.leb_gt in H
  | H : (_ <? _) = true |- _ => apply N.ltb_lt in H
  | H : (_ <? _) = false |- _ => apply N.ltb_ge in H
  end.

Lemma good_union_labels_any look l lt r rt a b :
  look l = Some lt -> look r = Some rt -> l <> r -> 1 <= l -> 1 <= r ->
  l <= max_label -> r <= max_label ->
  (a = l /\ b = r) \/ (a = r /\ b = l) ->
  good_ret look l lt r rt (union_labels a b).
Proof.
  intros ? ? ? ? ? ? ? [[-> ->]|[-> ->]].
  - apply good_union_labels; auto.
  - apply good_swap. apply good_union_labels; auto.
Qed.

(** range [l] against source [r] *)
Lemma good_range_source look l cf f la r cf' i o a b :
  look l = Some (TRange cf f la) -> look r = Some (TSource cf' i o) ->
  wf_taint l (TRange cf f la) ->
  l <> r -> 1 <= l -> 1 <= r -> l <= max_label -> r <= max_label ->
  (a = l /\ b = r) \/ (a = r /\ b = l) ->
  good_ret look l (TRange cf f la) r (TSource cf' i o) (range_source a b f la l r).
Proof.
  intros Hl Hr Wl Hne L1 R1 Ml Mr Hab. cbn [wf_taint] in Wl.
  assert (UL := good_union_labels_any look l _ r _ a b Hl Hr Hne L1 R1 Ml Mr Hab).
  unfold max_label in *.
  unfold range_source, encloses_range_label.
  rewrite !add32_small by (unfold two32; lia).
  destruct (_ && _) eqn:E1; bools.
  { apply good_left; auto. intros x Hx. apply (derives_den look r _ x Hr) in Hx.
    exists r. split; auto. }
  destruct (r + 1 =? f) eqn:E2; bools.
  { subst f. apply good_range; auto; try lia. intros x.
    rewrite <- (derives_den look r _ x Hr). cbn [den]. split.
    - intros (m & R & D). destruct (N.eq_dec m r); [subst; auto|].
      left. exists m. split; auto. lia.
    - intros [(m & R & D)|D]; [exists m|exists r]; split; auto; lia. }
  destruct (la + 1 =? r) eqn:E3; bools.
  { subst r. apply good_range; auto; try lia. intros x.
    rewrite <- (derives_den look (la+1) _ x Hr). cbn [den]. split.
    - intros (m & R & D). destruct (N.eq_dec m (la + 1)); [subst; auto|].
      left. exists m. split; auto. lia.
    - intros [(m & R & D)|D]; [exists m|exists (la+1)]; split; auto; lia. }
  exact UL.
Qed.

Lemma good_union_source look l cf lo hi r cf' i o a b :
  look l = Some (TUnion cf lo hi) -> look r = Some (TSource cf' i o) ->
  l <> r -> 1 <= l -> 1 <= r -> l <= max_label -> r <= max_label ->
  (a = l /\ b = r) \/ (a = r /\ b = l) ->
  good_ret look l (TUnion cf lo hi) r (TSource cf' i o) (union_source a b lo hi l r).
Proof.
  intros Hl Hr Hne L1 R1 Ml Mr Hab.
  assert (UL := good_union_labels_any look l _ r _ a b Hl Hr Hne L1 R1 Ml Mr Hab).
  unfold union_source, encloses_union_label.
  destruct (_ || _) eqn:E1; bools; [|exact UL].
  apply good_left; auto. intros x Hx. apply (derives_den look r _ x Hr) in Hx. cbn [den].
  destruct E1; bools; subst; auto.
Qed.

(** union [l] against range [r] *)
Lemma good_union_range look l cf lo hi r cf' f la a b :
  look l = Some (TUnion cf lo hi) -> look r = Some (TRange cf' f la) ->
  wf_taint l (TUnion cf lo hi) -> wf_taint r (TRange cf' f la) ->
  l <> r -> 1 <= l -> 1 <= r -> l <= max_label -> r <= max_label ->
  (a = l /\ b = r) \/ (a = r /\ b = l) ->
  good_ret look l (TUnion cf lo hi) r (TRange cf' f la) (union_range a b lo hi l f la r).
Proof.
  intros Hl Hr Wl Wr Hne L1 R1 Ml Mr Hab. cbn [wf_taint] in Wl, Wr.
  assert (UL := good_union_labels_any look l _ r _ a b Hl Hr Hne L1 R1 Ml Mr Hab).
  unfold max_label in *.
  assert (Tail : good_ret look l (TUnion cf lo hi) r (TRange cf' f la)
                   (union_range_tail a b l f la)).
  { unfold union_range_tail. rewrite !add32_small by (unfold two32; lia).
    destruct (l + 1 =? f) eqn:E2; bools.
    { subst f. apply good_range; auto; try lia. intros x.
      rewrite <- (derives_den look l _ x Hl). cbn [den]. split.
      - intros (m & R & D). destruct (N.eq_dec m l); [subst; auto|].
        right. exists m. split; auto. lia.
      - intros [D|(m & R & D)]; [exists l|exists m]; split; auto; lia. }
    destruct (la + 1 =? l) eqn:E3; bools; [|exact UL].
    subst l. apply good_range; auto; try lia. intros x.
    rewrite <- (derives_den look (la+1) _ x Hl). cbn [den]. split.
    - intros (m & R & D). destruct (N.eq_dec m (la + 1)); [subst; auto|].
      right. exists m. split; auto. lia.
    - intros [D|(m & R & D)]; [exists (la+1)|exists m]; split; auto; lia. }
  unfold union_range, encloses_range_label, encloses_range_union, encloses_union_label.
  rewrite !add32_small by (unfold two32; lia).
  destruct ((f <=? l) && (l <=? la)) eqn:E1; bools.
  { apply good_right; auto. intros x Hx. apply (derives_den look l _ x Hl) in Hx. exists l. auto. }
  destruct ((f <=? lo) && (hi <=? la)) eqn:E2; bools.
  { apply good_right; auto. intros x [D|D]; [exists lo|exists hi]; split; auto; lia. }
  destruct ((hi =? r) || (lo =? r)) eqn:E3; bools.
  { apply good_left; auto. intros x Hx. apply (derives_den look r _ x Hr) in Hx. cbn [den].
    destruct E3; bools; subst; auto. }
  destruct (lo + 1 =? f) eqn:E4; bools.
  - destruct ((f <=? hi) && (hi <=? la)) eqn:E5; bools.
    { apply good_range; auto; try lia. intros x. cbn [den]. split.
      - intros (m & R & D). destruct (N.eq_dec m lo); [subst; auto|].
        right. exists m. split; auto. lia.
      - intros [[D|D]|(m & R & D)]; [exists lo|exists hi|exists m]; split; auto; lia. }
    destruct (hi =? la + 1) eqn:E6; bools; [|exact Tail].
    apply good_range; auto; try lia. intros x. cbn [den]. split.
    + intros (m & R & D). destruct (N.eq_dec m lo); [subst; auto|].
      destruct (N.eq_dec m hi); [subst; auto|].
      right. exists m. split; auto. lia.
    + intros [[D|D]|(m & R & D)]; [exists lo|exists hi|exists m]; split; auto; lia.
  - destruct (hi =? la + 1) eqn:E6; bools; [|exact Tail].
    destruct ((f <=? lo) && (lo <=? la)) eqn:E5; bools; [|exact Tail].
    apply good_range; auto; try lia. intros x. cbn [den]. split.
    + intros (m & R & D). destruct (N.eq_dec m hi); [subst; auto|].
      right. exists m. split; auto. lia.
    + intros [[D|D]|(m & R & D)]; [exists lo|exists hi|exists m]; split; auto; lia.
Qed.

Lemma compute_good look l lt r rt :
  look l = Some lt -> look r = Some rt -> wf_taint l lt -> wf_taint r rt ->
  l <> r -> 1 <= l -> 1 <= r -> l <= max_label -> r <= max_label ->
  good_ret look l lt r rt (compute l lt r rt).
Proof.
  intros Hl Hr Wl Wr Hne L1 R1 Ml Mr.
  assert (UL := good_union_labels_any look l _ r _ l r Hl Hr Hne L1 R1 Ml Mr (or_introl (conj eq_refl eq_refl))).
  destruct lt as [cf i o|cf f la|cf lo hi], rt as [cf' i' o'|cf' f' la'|cf' lo' hi'];
    unfold compute.
  - destruct (_ && _) eqn:E; [|exact UL]. bools. subst.
    apply good_left; auto.
  - apply good_swap. apply good_range_source; auto.
  - apply good_swap. apply good_union_source; auto.
  - apply good_range_source; auto.
  - cbn [wf_taint] in Wl, Wr. unfold max_label in *.
    unfold encloses_range_label, encloses_range_range.
    rewrite !add32_small by (unfold two32; lia).
    destruct ((f <=? r) && (r <=? la)) eqn:E1; bools.
    { apply good_left; auto. intros x Hx. apply (derives_den look r _ x Hr) in Hx. exists r. auto. }
    destruct ((f' <=? l) && (l <=? la')) eqn:E2; bools.
    { apply good_right; auto. intros x Hx. apply (derives_den look l _ x Hl) in Hx. exists l. auto. }
    destruct ((f <=? f') && (la' <=? la)) eqn:E3; bools.
    { apply good_left; auto. intros x (m & R & D). exists m. split; auto. lia. }
    destruct ((f' <=? f) && (la <=? la')) eqn:E4; bools.
    { apply good_right; auto. intros x (m & R & D). exists m. split; auto. lia. }
    destruct (la + 1 =? f') eqn:E5; bools.
    { apply good_range; auto; try lia. intros x. cbn [den]. split.
      - intros (m & R & D). destruct (N.leb_spec m la); [left|right]; exists m; split; auto; lia.
      - intros [(m & R & D)|(m & R & D)]; exists m; split; auto; lia. }
    destruct (la' + 1 =? f) eqn:E6; bools; [|exact UL].
    apply good_range; auto; try lia. intros x. cbn [den]. split.
    + intros (m & R & D). destruct (N.leb_spec m la'); [right|left]; exists m; split; auto; lia.
    + intros [(m & R & D)|(m & R & D)]; exists m; split; auto; lia.
  - apply good_swap. apply good_union_range; auto.
  - apply good_union_source; auto.
  - apply good_union_range; auto.
  - unfold encloses_union_label.
    destruct ((hi =? r) || (lo =? r)) eqn:E1; bools.
    { apply good_left; auto. intros x Hx. apply (derives_den look r _ x Hr) in Hx. cbn [den].
      destruct E1; bools; subst; auto. }
    destruct ((hi' =? l) || (lo' =? l)) eqn:E2; bools.
    { apply good_right; auto. intros x Hx. apply (derives_den look l _ x Hl) in Hx. cbn [den].
      destruct E2; bools; subst; auto. }
    destruct ((hi =? hi') && (lo =? lo')) eqn:E3; bools; [|exact UL].
    subst. apply good_left; auto.
Qed.

(** ** Duplicate scan *)
Lemma scan_back_spec entries l e d :
  scan_back entries l e = Some d -> len entries <= l + 1 ->
  exists k w, get entries k = Some w /\ d = l - k /\ k <= l /\ equal_ignore_cf w e = true.
Proof.
  revert l; induction entries as [|w rest IH]; intros l H Hl; [discriminate|].
  cbn [scan_back] in H. rewrite len_cons in Hl. destruct (equal_ignore_cf w e) eqn:E.
  - inversion H; subst. exists 0, w. repeat split; auto; lia.
  - destruct (N.eq_dec l 0) as [->|Hz].
    { assert (rest = []) as ->. { destruct rest; auto. rewrite len_cons in Hl. lia. }
      discriminate. }
    apply IH in H; [|lia]. destruct H as (k & w' & G & D & K & E').
    exists (k + 1), w'. rewrite get_cons_S by lia. replace (k + 1 - 1) with k by lia.
    repeat split; auto; lia.
Qed.

Lemma scan_back_none entries l e k w :
  scan_back entries l e = None -> get entries k = Some w -> equal_ignore_cf w e = false.
Proof.
  revert l k; induction entries as [|w0 rest IH]; intros l k H G; [now rewrite get_nil in G|].
  cbn [scan_back] in H. destruct (equal_ignore_cf w0 e) eqn:E; [discriminate|].
  destruct (N.eq_dec k 0) as [->|Hz].
  - cbn in G. inversion G; subst. assumption.
  - rewrite get_cons_S in G by lia. eapply IH; eauto.
Qed.

Lemma len_firstn {A} (n : N) (l : list A) : n <= len l -> len (firstn (N.to_nat n) l) = n.
Proof. unfold len. intros. rewrite firstn_length. lia. Qed.

Definition scan_len (t : table) (hilbl : N) : N :=
  if redundant_label_range <=? len t - hilbl then redundant_label_range else len t - hilbl.

Lemma scan_len_le t h : h < len t -> 1 <= scan_len t h /\ scan_len t h <= len t - h.
Proof.
  intros. unfold scan_len, redundant_label_range.
  destruct (N.leb_spec 100 (len t - h)); lia.
Qed.

Lemma duplicate_check_some t h e d : h < len t -> duplicate_check t h e = Some d ->
  h <= d /\ d < len t /\ exists w, get t d = Some w /\ equal_ignore_cf w e = true.
Proof.
  intros Hh H. unfold duplicate_check in H. fold (scan_len t h) in H.
  destruct (scan_len_le t h Hh) as [S1 S2].
  assert (Ln : len (firstn (N.to_nat (scan_len t h)) (rev t)) = scan_len t h)
    by (apply len_firstn; rewrite len_rev; lia).
  apply scan_back_spec in H; [|lia].
  destruct H as (k & w & G & D & K & E).
  assert (Hk := get_some _ _ _ G). rewrite Ln in Hk.
  rewrite get_firstn in G by lia. rewrite get_rev in G by lia.
  subst d. split; [lia|]. split; [lia|]. exists w. split; auto.
Qed.

Lemma duplicate_check_none t h e d w : h < len t -> duplicate_check t h e = None ->
  h <= d -> d < len t -> len t - d <= redundant_label_range -> get t d = Some w ->
  equal_ignore_cf w e = false.
Proof.
  intros Hh H H1 H2 H3 G. unfold duplicate_check in H. fold (scan_len t h) in H.
  assert (len t - d <= scan_len t h).
  { unfold scan_len in *. destruct (N.leb_spec redundant_label_range (len t - h)); lia. }
  eapply (scan_back_none _ _ _ (len t - 1 - d)); [exact H|].
  rewrite get_firstn by lia. rewrite get_rev by lia.
  replace (len t - 1 - (len t - 1 - d)) with d by lia. exact G.
Qed.

(** ** union_taint *)
Lemma union_taint_total t l r : wf_table t -> in_use t l -> in_use t r ->
  (exists x t', union_taint t l r = Ok (x, t')) \/
  (union_taint t l r = Exit /\ len t = label_capacity).
Proof.
  intros W Ul Ur. unfold union_taint.
  destruct (N.eqb_spec l r); [left; eauto|].
  destruct (wf_view t l W Ul) as (lt & Gl & Vl & Wl & VVl).
  destruct (wf_view t r W Ur) as (rt & Gr & Vr & Wr & VVr).
  assert (RL : read_label t l = Ok lt).
  { unfold read_label, read_word. rewrite Gl. cbn [bind]. now apply decode_encode. }
  assert (RR : read_label t r = Ok rt).
  { unfold read_label, read_word. rewrite Gr. cbn [bind]. now apply decode_encode. }
  rewrite RL, RR. cbn [bind].
  destruct W as (W0 & Wc & W). destruct Ul, Ur. unfold label_capacity in Wc.
  assert (G : good_ret (view t) l lt r rt (compute l lt r rt))
    by (apply compute_good; auto; lia).
  destruct (compute l lt r rt) as [[x|tn]| | |]; try contradiction; cbn [bind].
  - left. eauto.
  - destruct (duplicate_check _ _ _); [left; eauto|].
    unfold construct. destruct (N.ltb_spec (len t) label_capacity); [left; eauto|].
    right. split; auto. unfold label_capacity in *. lia.
Qed.

Lemma union_taint_ok t l r x t' : wf_table t -> in_use t l -> in_use t r ->
  union_taint t l r = Ok (x, t') ->
  wf_table t' /\ in_use t' x /\ len t <= len t' /\
  (t' = t \/ (x = len t /\ exists tn, t' = t ++ [encode tn] /\ cf_of tn = false /\
                        wf_taint (len t) tn)) /\
  (forall b, derives (view t') x b <-> derives (view t) l b \/ derives (view t) r b).
Proof.
  intros W Ul Ur H. unfold union_taint in H.
  destruct (N.eqb_spec l r).
  { inversion H; subst. split; [auto|]. split; [auto|]. split; [lia|]. split; [auto|].
    intros; tauto. }
  destruct (wf_view t l W Ul) as (lt & Gl & Vl & Wl & VVl).
  destruct (wf_view t r W Ur) as (rt & Gr & Vr & Wr & VVr).
  assert (RL : read_label t l = Ok lt).
  { unfold read_label, read_word. rewrite Gl. cbn [bind]. now apply decode_encode. }
  assert (RR : read_label t r = Ok rt).
  { unfold read_label, read_word. rewrite Gr. cbn [bind]. now apply decode_encode. }
  rewrite RL, RR in H. cbn [bind] in H.
  assert (Wc : len t <= max_label + 1) by (destruct W as (_ & ? & _); auto).
  destruct Ul as [Ul1 Ul2], Ur as [Ur1 Ur2].
  assert (G : good_ret (view t) l lt r rt (compute l lt r rt))
    by (apply compute_good; auto; lia).
  destruct (compute l lt r rt) as [[y|tn]| | |]; try contradiction; cbn [bind] in H.
  - inversion H; subst. destruct G as [G1 G2].
    split; [auto|]. split; [unfold in_use; destruct G1; subst; auto|]. split; [lia|]. split; [auto|].
    intros b. rewrite G2.
    rewrite (derives_den _ _ _ b Vl), (derives_den _ _ _ b Vr). tauto.
  - destruct G as (C & Wt & D).
    assert (Vt : valid_taint tn).
    { eapply wf_valid; [|exact Wt]. unfold label_capacity. lia. }
    destruct (duplicate_check t (N.max l r) (encode tn)) as [d|] eqn:E.
    + inversion H; subst. apply duplicate_check_some in E; [|lia].
      destruct E as (E1 & E2 & w & Gw & Ew).
      assert (Ux : in_use t' x) by (split; lia).
      destruct (wf_view t' x W Ux) as (tx & Gx & Vx & Wx & VVx).
      rewrite Gx in Gw. inversion Gw; subst w.
      apply equal_ignore_cf_encode in Ew; auto.
      split; [auto|]. split; [auto|]. split; [lia|]. split; [auto|].
      intros b. rewrite (derives_den _ _ _ b Vx).
      rewrite (den_erase _ _ _ b Ew). rewrite D.
      rewrite (derives_den _ _ _ b Vl), (derives_den _ _ _ b Vr). tauto.
    + unfold construct in H. destruct (N.ltb_spec (len t) label_capacity) as [Hc|Hc]; [|discriminate].
      inversion H; subst x t'.
      assert (W' : wf_table (t ++ [encode tn])).
      { apply wf_app1; auto. eapply wf_taint_mono; [|exact Wt]. lia. }
      split; [auto|].
      assert (Ln : len (t ++ [encode tn]) = len t + 1) by (rewrite len_app; reflexivity).
      split; [split; lia|]. split; [lia|].
      split; [right; split; [reflexivity|]; exists tn; repeat split; auto;
              eapply wf_taint_mono; [|exact Wt]; lia|].
      intros b.
      assert (Vn : view (t ++ [encode tn]) (len t) = Some tn)
        by (apply view_get; auto using get_app_last).
      rewrite (derives_den _ _ _ b Vn).
      specialize (D b). rewrite <- (derives_den _ _ _ b Vl), <- (derives_den _ _ _ b Vr) in D.
      rewrite <- D.
      assert (A : forall m, m < len t ->
        (derives (view (t ++ [encode tn])) m b <-> derives (view t) m b)).
      { intros m Hm. symmetry. eapply agree_derives; eauto using agree_app. }
      destruct tn as [c i o|c f la|c lo hi]; cbn [den] in *.
      * tauto.
      * cbn [wf_taint] in Wt. split; intros (m & R & Dm); exists m; split; auto; apply A; auto; lia.
      * cbn [wf_taint] in Wt. rewrite !A by lia. tauto.
Qed.

(** ** create_source_labels *)
Lemma source_words_length src off n : len (source_words src off n) = N.of_nat n.
Proof. unfold source_words. rewrite len_map. apply len_nseq. Qed.

Lemma get_source_words src off n i : i < N.of_nat n ->
  get (source_words src off n) i = Some (encode (TSource false src (off + i))).
Proof.
  intros H. unfold source_words. rewrite get_map, get_nseq by assumption. reflexivity.
Qed.

Lemma wf_app_sources t src off n : wf_table t -> len t + N.of_nat n <= label_capacity ->
  src <= 255 -> off + N.of_nat n <= 2 ^ 54 ->
  wf_table (t ++ source_words src off n).
Proof.
  intros (W0 & Wc & W) Hc Hs Ho. split; [|split].
  - rewrite get_app_l; auto. apply get_some in W0. exact W0.
  - rewrite len_app, source_words_length. assumption.
  - intros i H1 H2. rewrite len_app, source_words_length in H2.
    destruct (N.ltb_spec i (len t)).
    + rewrite get_app_l by assumption. auto.
    + rewrite get_app_r by assumption. rewrite get_source_words by lia.
      eexists. split; [reflexivity|]. cbn [wf_taint]. lia.
Qed.

Lemma mul64_small n : 8 * n < two64 -> mul64 8 n = 8 * n.
Proof. intros. unfold mul64. apply N.mod_small. assumption. Qed.

Lemma create_source_ok t src off n f la t' : wf_table t ->
  src <= 255 -> 1 <= n -> off + n <= 2 ^ 54 ->
  create_source_labels t src off n = Ok (f, la, t') ->
  wf_table t' /\ f = len t /\ la = f + n - 1 /\ len t' = len t + n /\
  t' = t ++ source_words src off (N.to_nat n).
Proof.
  intros W Hs Hn Ho H. unfold create_source_labels in H.
  change (2 ^ 54) with 18014398509481984 in *.
  rewrite mul64_small in H by (unfold two64; lia).
  assert (Hd : 8 * n / 8 = n) by (rewrite N.mul_comm; apply N.div_mul; discriminate).
  rewrite Hd in H.
  destruct (N.leb_spec (8 * len t + 8 * n) (8 * label_capacity)) as [Hc|]; [|discriminate].
  destruct (N.ltb_spec (len t) label_capacity) as [Hl|]; [|discriminate].
  inversion H; subst. unfold label_capacity, max_label in *.
  assert (H1 : 1 <= len t).
  { destruct W as (W0 & _). apply get_some in W0. lia. }
  split; [apply wf_app_sources; auto; unfold label_capacity, max_label; change (2 ^ 54) with 18014398509481984; lia|].
  split; [auto|]. split; [apply N.mod_small; unfold two32; lia|]. split; [|auto].
  rewrite len_app, source_words_length. lia.
Qed.

Lemma create_source_view t src off n f la t' i : wf_table t ->
  src <= 255 -> 1 <= n -> off + n <= 2 ^ 54 ->
  create_source_labels t src off n = Ok (f, la, t') -> i < n ->
  view t' (f + i) = Some (TSource false src (off + i)).
Proof.
  intros W Hs Hn Ho H Hi.
  destruct (create_source_ok _ _ _ _ _ _ _ W Hs Hn Ho H) as (W' & -> & _ & Ln & ->).
  apply view_get.
  - rewrite get_app_r by lia. replace (len t + i - len t) with i by lia.
    apply get_source_words. lia.
  - cbn. unfold max_source_index, max_source_offset. change (2^54) with 18014398509481984 in Ho. lia.
Qed.
