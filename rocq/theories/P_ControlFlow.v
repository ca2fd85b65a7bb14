(** Correctness and termination of affects_control_flow. *)
From Coq Require Import ZArith NArith List Bool Lia ZifyBool ZifyNat ZifyN.
From Verif Require Import M_Base M_Encoding M_Union M_LabelDeq M_Labels
  S_Provenance S_Labels P_Base P_Encoding P_Labels P_LabelDeq.
Import ListNotations.
Open Scope N_scope.

(** ** The same algorithm on a plain list queue *)
Definition visit_label_l (t : table) (q : list N) (l : N) : Res (table * list N) :=
  do p <- add_to_q t l;
  if fst p then Ok (snd p, q ++ [l]) else Ok (snd p, q).

Fixpoint visit_labels_l (t : table) (q : list N) (ls : list N) : Res (table * list N) :=
  match ls with
  | [] => Ok (t, q)
  | l :: rest => do p <- visit_label_l t q l; visit_labels_l (fst p) (snd p) rest
  end.

Fixpoint cf_loop_l (fuel : nat) (t : table) (q : list N) : Res table :=
  match q with
  | [] => Ok t
  | l :: q1 =>
      match fuel with
      | O => Fuel
      | S f =>
          do encoded <- read_word t l;
          do t1 <- set_affects_control_flow t l;
          do tn <- decode encoded;
          do p2 <- visit_labels_l t1 q1 (visit_order tn);
          cf_loop_l f (fst p2) (snd p2)
      end
  end.

Definition affects_l (fuel : nat) (t : table) (l : N) : Res table :=
  do p <- add_to_q t l;
  if fst p then cf_loop_l fuel (snd p) [l] else Ok (snd p).

Definition res_rel {A B} (R : A -> B -> Prop) (a : Res A) (b : Res B) : Prop :=
  match a, b with
  | Ok x, Ok y => R x y
  | Exit, Exit => True
  | UB, UB => True
  | Fuel, Fuel => True
  | _, _ => False
  end.

Notation drep := (deq_rep cf_queue_cap).

Lemma cap_ok : 1 <= cf_queue_cap.
Proof. unfold cf_queue_cap. lia. Qed.

Lemma visit_labels_rel ls : forall t q ql, drep q ql ->
  res_rel (fun a b => fst a = fst b /\ drep (snd a) (snd b))
          (visit_labels t q ls) (visit_labels_l t ql ls).
Proof.
  induction ls as [|l ls IH]; intros t q ql R; cbn [visit_labels visit_labels_l].
  - cbn. auto.
  - unfold visit_label, visit_label_l.
    destruct (add_to_q t l) as [[b t1]| | |]; cbn [bind fst snd res_rel]; auto.
    destruct b; cbn [bind fst snd].
    + destruct (deq_push_rep _ cap_ok q ql l R) as (q' & P & R'). rewrite P. cbn [bind fst snd].
      apply IH. exact R'.
    + apply IH. exact R.
Qed.

Lemma cf_loop_rel fuel : forall t q ql, drep q ql -> cf_loop fuel t q = cf_loop_l fuel t ql.
Proof.
  induction fuel as [|f IH]; intros t q ql R; cbn [cf_loop cf_loop_l];
    rewrite (deq_empty_rep _ cap_ok _ _ R).
  - destruct ql; reflexivity.
  - destruct ql as [|l ql1]; [reflexivity|].
    destruct (deq_pop_rep _ cap_ok q l ql1 R) as (q' & P & R'). rewrite P. cbn [bind].
    destruct (read_word t l); cbn [bind]; auto.
    destruct (set_affects_control_flow t l); cbn [bind]; auto.
    destruct (decode a) as [tn| | |]; cbn [bind]; auto.
    assert (V := visit_labels_rel (visit_order tn) a0 q' ql1 R').
    destruct (visit_labels a0 q' (visit_order tn)) as [[t2 q2]| | |],
      (visit_labels_l a0 ql1 (visit_order tn)) as [[t3 q3]| | |]; cbn in V; try contradiction; auto.
    destruct V as [-> V]. cbn [bind fst snd]. now apply IH.
Qed.

Lemma affects_rel fuel junk t l : affects_control_flow fuel junk t l = affects_l fuel t l.
Proof.
  unfold affects_control_flow, affects_l.
  destruct (add_to_q t l) as [[b t1]| | |]; cbn [bind fst snd]; auto.
  destruct b; auto.
  destruct (deq_push_rep _ cap_ok (deq_new cf_queue_cap junk) [] l (deq_new_rep _ cap_ok junk))
    as (q' & P & R'). rewrite P. cbn [bind].
  apply cf_loop_rel. exact R'.
Qed.

Lemma cf_loop_l_mono f : forall t q t', cf_loop_l f t q = Ok t' ->
  forall k, cf_loop_l (f + k) t q = Ok t'.
Proof.
  induction f as [|f IH]; intros t q t' H k.
  - destruct q; [destruct k; exact H|discriminate].
  - destruct q as [|l q]; [exact H|]. cbn [cf_loop_l Nat.add] in *.
    apply bind_ok in H. destruct H as (w & E1 & H). rewrite E1. cbn [bind].
    apply bind_ok in H. destruct H as (t1 & E2 & H). rewrite E2. cbn [bind].
    apply bind_ok in H. destruct H as (tn & E3 & H). rewrite E3. cbn [bind].
    apply bind_ok in H. destruct H as (p & E4 & H). rewrite E4. cbn [bind].
    now apply IH.
Qed.

(** ** Flags *)
Definition flg (t : table) (x : N) : Prop := exists tn, view t x = Some tn /\ cf_of tn = true.

Lemma flagged_flg t x : flagged (view t) x <-> flg t x.
Proof.
  unfold flagged, flg. split.
  - intros [(i & o & H)|[(f & la & H)|(lo & hi & H)]]; eexists; split; try eassumption; reflexivity.
  - intros (tn & V & C). destruct tn; cbn in C; subst; eauto 6.
Qed.

Lemma set_flag_spec t l tn : wf_table t -> view t l = Some tn ->
  exists t', set_affects_control_flow t l = Ok t' /\ wf_table t' /\ len t' = len t /\
    view t' l = Some (set_cf tn) /\ (forall x, x <> l -> view t' x = view t x).
Proof.
  intros W V. destruct (view_wf _ _ _ W V) as (Wt & Vt & G).
  assert (U := view_in_use _ _ _ W V).
  unfold set_affects_control_flow. rewrite G. rewrite add_cf_encode by assumption.
  eexists. split; [reflexivity|].
  assert (Hl : l < len t) by (destruct U; auto).
  assert (Gl : get (upd t l (encode (set_cf tn))) l = Some (encode (set_cf tn))) by now apply get_upd_eq.
  destruct W as (W0 & Wc & W).
  split; [split; [|split]|split; [|split]].
  - rewrite get_upd_neq; auto. destruct U. lia.
  - now rewrite len_upd.
  - intros i H1 H2. rewrite len_upd in H2. destruct (N.eq_dec i l) as [->|Hne].
    + rewrite Gl. eexists. split; [reflexivity|]. now destruct tn.
    + rewrite get_upd_neq by auto. auto.
  - apply len_upd.
  - apply view_get; auto. now apply set_cf_valid.
  - intros x Hx. unfold view, read_label, read_word. now rewrite get_upd_neq by auto.
Qed.

Lemma add_to_q_spec t l tn : wf_table t -> view t l = Some tn ->
  (cf_of tn = true -> add_to_q t l = Ok (false, t)) /\
  (cf_of tn = false -> is_src tn = false -> add_to_q t l = Ok (true, t)) /\
  (cf_of tn = false -> is_src tn = true ->
    exists t', add_to_q t l = Ok (false, t') /\ set_affects_control_flow t l = Ok t').
Proof.
  intros W V. destruct (view_wf _ _ _ W V) as (Wt & Vt & G).
  unfold add_to_q, read_word. rewrite G. cbn [bind].
  rewrite check_cf_encode, is_source_encode by assumption.
  split; [|split].
  - intros ->. reflexivity.
  - intros -> ->. reflexivity.
  - intros -> ->. destruct (set_flag_spec t l tn W V) as (t' & S & _). rewrite S. cbn [bind]. eauto.
Qed.

(** [upto t t']: [t'] is [t] with some more flags set. *)
Definition upto (t t' : table) : Prop :=
  wf_table t' /\ len t' = len t /\
  (forall x, option_map erase_cf (view t x) = option_map erase_cf (view t' x)) /\
  (forall x, flg t x -> flg t' x).

Lemma upto_refl t : wf_table t -> upto t t.
Proof. intros W. repeat split; auto; apply W. Qed.

Lemma upto_trans t t' t'' : upto t t' -> upto t' t'' -> upto t t''.
Proof.
  intros (A1 & A2 & A3 & A4) (B1 & B2 & B3 & B4). repeat split; try apply B1; auto.
  - congruence.
  - intros x. rewrite A3. apply B3.
Qed.

Lemma upto_agree n t t' : upto t t' -> agree n t t'.
Proof. intros (_ & _ & A & _) i _. apply A. Qed.

Lemma upto_set t l tn t' : wf_table t -> view t l = Some tn ->
  set_affects_control_flow t l = Ok t' ->
  upto t t' /\ (forall x, flg t' x <-> flg t x \/ x = l).
Proof.
  intros W V S. destruct (set_flag_spec t l tn W V) as (t1 & S1 & W1 & L1 & V1 & O1).
  rewrite S in S1. inversion S1; subst t1.
  assert (F : forall x, flg t' x <-> flg t x \/ x = l).
  { intros x. unfold flg. destruct (N.eq_dec x l) as [->|Hne].
    - rewrite V1. split; auto. intros _. eexists. split; [reflexivity|]. now destruct tn.
    - rewrite O1 by assumption. tauto. }
  split; [|exact F].
  split; [exact W1|]. split; [exact L1|]. split.
  - intros x. destruct (N.eq_dec x l) as [->|Hne].
    + rewrite V, V1. cbn. now rewrite erase_set.
    + now rewrite O1.
  - intros x Hx. apply F. auto.
Qed.

Lemma upto_view t t' x tn : upto t t' -> view t x = Some tn ->
  exists tn', view t' x = Some tn' /\ erase_cf tn' = erase_cf tn.
Proof.
  intros (_ & _ & A & _) V. specialize (A x). rewrite V in A. cbn in A.
  destruct (view t' x); cbn in A; inversion A. eauto.
Qed.

Lemma upto_component t t' x m : upto t t' -> (component (view t) x m <-> component (view t') x m).
Proof.
  intros U. split; intros C.
  - eapply (agree_component (x + 1)); eauto using upto_agree. lia.
  - eapply (agree_component (x + 1)); eauto using upto_agree, agree_sym. lia.
Qed.

Lemma upto_built_from t t' x m : wf_table t -> upto t t' ->
  (built_from (view t) x m <-> built_from (view t') x m).
Proof.
  intros W U. split; intros B.
  - eapply (agree_built_from (x + 1)); eauto using upto_agree. lia.
  - assert (W' : wf_table t') by apply U.
    eapply (agree_built_from (x + 1)); eauto using upto_agree, agree_sym. lia.
Qed.

(** ** Visiting the members of one label *)
Definition pw (x : N) : N := 2 ^ x.
Fixpoint msum (l : list N) : N := match l with [] => 0 | x :: r => pw x + msum r end.
Lemma msum_app a b : msum (a ++ b) = msum a + msum b.
Proof. induction a; simpl; lia. Qed.

Lemma visit_spec ls : forall t q, wf_table t -> (forall x, In x ls -> in_use t x) ->
  exists t' qs, visit_labels_l t q ls = Ok (t', q ++ qs) /\ upto t t' /\
    (forall x, In x qs -> In x ls) /\
    (forall x, In x ls -> flg t' x \/ In x qs) /\
    (forall x, flg t' x -> flg t x \/
       (In x ls /\ exists cf i o, view t' x = Some (TSource cf i o))) /\
    msum qs <= msum ls.
Proof.
  induction ls as [|l ls IH]; intros t q W U.
  - exists t, []. cbn. rewrite app_nil_r. split; [reflexivity|].
    split; [now apply upto_refl|]. repeat split; auto; try tauto; lia.
  - cbn [visit_labels_l]. unfold visit_label_l.
    destruct (wf_view t l W (U l (or_introl eq_refl))) as (tn & G & V & Wt & Vt).
    destruct (add_to_q_spec t l tn W V) as (A1 & A2 & A3).
    destruct (cf_of tn) eqn:Ec; [|destruct (is_src tn) eqn:Es].
    + rewrite A1 by reflexivity. cbn [bind fst snd].
      destruct (IH t q W) as (t' & qs & E & Up & Q1 & Q2 & Q3 & Q4); [intros; apply U; now right|].
      exists t', qs. split; [exact E|]. split; [exact Up|]. split; [intros; right; auto|]. split; [|split].
      * intros x [->|Hx]; auto. left. apply Up. exists tn. auto.
      * intros x Hx. destruct (Q3 x Hx) as [|(I & S)]; auto. right. split; auto. now right.
      * cbn [msum]. lia.
    + destruct A3 as (t1 & A & S); auto. rewrite A. cbn [bind fst snd].
      destruct (upto_set t l tn t1 W V S) as (Up1 & F1).
      destruct (IH t1 q) as (t' & qs & E & Up & Q1 & Q2 & Q3 & Q4).
      { apply Up1. }
      { intros x Hx. destruct (U x) as [U1 U2]; [now right|]. destruct Up1 as (_ & Ln & _).
        split; auto. now rewrite Ln. }
      exists t', qs. split; [exact E|]. split; [eapply upto_trans; eauto|].
      split; [intros; right; auto|]. split; [|split].
      * intros x [->|Hx]; auto. left. apply Up. apply F1. auto.
      * intros x Hx. destruct (Q3 x Hx) as [Hf|(I & S')].
        -- apply F1 in Hf. destruct Hf as [|Hf]; auto. subst x. right.
           split; [now left|]. destruct tn; try discriminate.
           destruct (upto_view t t' l _ (upto_trans _ _ _ Up1 Up) V) as (tn' & V' & Er).
           destruct tn'; cbn in Er; inversion Er; subst. eauto.
        -- right. split; auto. now right.
      * cbn [msum]. lia.
    + rewrite A2 by auto. cbn [bind fst snd].
      destruct (IH t (q ++ [l]) W) as (t' & qs & E & Up & Q1 & Q2 & Q3 & Q4); [intros; apply U; now right|].
      exists t', (l :: qs). rewrite <- app_assoc in E. split; [exact E|]. split; [exact Up|].
      split; [|split; [|split]].
      * intros x [->|Hx]; [now left|right; auto].
      * intros x [->|Hx]; [right; now left|]. destruct (Q2 x Hx); auto. right. now right.
      * intros x Hx. destruct (Q3 x Hx) as [|(I & S)]; auto. right. split; auto. now right.
      * cbn [msum]. lia.
Qed.

Lemma visit_order_component t l tn : view t l = Some tn ->
  forall m, In m (visit_order tn) <-> component (view t) l m.
Proof.
  intros V m. destruct tn; cbn [visit_order].
  - split; [intros []|]. intros C. inversion C; subst; congruence.
  - rewrite in_nseq. split.
    + intros H. eapply comp_range; eauto. lia.
    + intros C. inversion C; subst; rewrite V in H; inversion H; subst. lia.
  - split.
    + intros [<-|[<-|[]]]; [eapply comp_lower|eapply comp_higher]; eauto.
    + intros C. inversion C; subst; rewrite V in H; inversion H; subst; cbn; auto.
Qed.

Lemma msum_nseq f n : msum (nseq f n) + pw f = pw (f + N.of_nat n).
Proof.
  revert f; induction n; intros f.
  - cbn. now rewrite N.add_0_r.
  - cbn [nseq msum]. specialize (IHn (f + 1)). unfold pw in *.
    rewrite N.pow_add_r in IHn at 1. change (2^1) with 2 in IHn.
    replace (f + 1 + N.of_nat n) with (f + N.of_nat (S n)) in IHn by lia. lia.
Qed.

Lemma pw_mono a b : a <= b -> pw a <= pw b.
Proof. intros. apply N.pow_le_mono_r; lia. Qed.
Lemma pw_pos a : 1 <= pw a.
Proof. unfold pw. assert (2 ^ a <> 0) by (apply N.pow_nonzero; discriminate). lia. Qed.

Lemma msum_visit_order l tn : wf_taint l tn -> msum (visit_order tn) < pw l.
Proof.
  destruct tn; cbn [wf_taint visit_order]; intros H.
  - cbn. pose proof (pw_pos l). lia.
  - pose proof (msum_nseq first (N.to_nat (last + 1 - first))) as E.
    assert (pw (first + N.of_nat (N.to_nat (last + 1 - first))) <= pw l) by (apply pw_mono; lia).
    pose proof (pw_pos first). lia.
  - cbn. assert (pw (higher + 1) <= pw l) by (apply pw_mono; lia).
    assert (pw (lower + 1) <= pw higher) by (apply pw_mono; lia).
    unfold pw in *. rewrite N.pow_add_r in *. change (2^1) with 2 in *.
    pose proof (pw_pos lower). unfold pw in *. lia.
Qed.

(** ** The loop invariant *)
Record cfinv (t0 : table) (root : N) (t : table) (q : list N) : Prop := {
  ci_upto : upto t0 t;
  ci_only : forall x, flg t x -> flg t0 x \/ built_from (view t0) root x;
  ci_q : forall x, In x q -> in_use t0 x /\ built_from (view t0) root x;
  ci_closed : forall x m, flg t x -> component (view t0) x m -> flg t m \/ In m q;
  ci_root : flg t root \/ In root q
}.

Lemma cfinv_step t0 root t l q : wf_table t0 -> cfinv t0 root t (l :: q) ->
  exists w t1 tn t2 qs, read_word t l = Ok w /\ set_affects_control_flow t l = Ok t1 /\
    decode w = Ok tn /\ visit_labels_l t1 q (visit_order tn) = Ok (t2, q ++ qs) /\
    msum qs < pw l /\ cfinv t0 root t2 (q ++ qs).
Proof.
  intros W0 [Up Only Q Cl Rt].
  destruct (Q l (or_introl eq_refl)) as [Ul Bl].
  assert (W : wf_table t) by apply Up.
  assert (Ln : len t = len t0) by apply Up.
  assert (Ul' : in_use t l) by (destruct Ul; split; auto; lia).
  destruct (wf_view t l W Ul') as (tn & G & V & Wt & Vt).
  destruct (set_flag_spec t l tn W V) as (t1 & S & W1 & L1 & V1 & O1).
  destruct (upto_set t l tn t1 W V S) as (Up1 & F1).
  destruct (visit_spec (visit_order tn) t1 q W1) as (t2 & qs & E & Up2 & Q1 & Q2 & Q3 & Q4).
  { intros x Hx. apply (visit_order_component t l tn V) in Hx.
    apply component_lt in Hx; auto. split; lia. }
  exists (encode tn), t1, tn, t2, qs.
  split; [unfold read_word; now rewrite G|]. split; [exact S|].
  split; [now apply decode_encode|]. split; [exact E|].
  split; [pose proof (msum_visit_order l tn Wt); lia|].
  assert (Upa : upto t t2) by (eapply upto_trans; eauto).
  assert (Upb : upto t0 t2) by (eapply upto_trans; eauto).
  assert (Cmp : forall m, In m (visit_order tn) <-> component (view t0) l m).
  { intros m. rewrite (visit_order_component t l tn V). symmetry. now apply upto_component. }
  constructor.
  - exact Upb.
  - intros x Hx. destruct (Q3 x Hx) as [Hf|(I & _)].
    + apply F1 in Hf. destruct Hf as [Hf| ->]; auto.
    + right. apply Cmp in I. eapply built_from_trans; [exact Bl|]. econstructor; [exact I|constructor].
  - intros x Hx. apply in_app_or in Hx. destruct Hx as [Hx|Hx]; [apply Q; now right|].
    apply Q1 in Hx. apply Cmp in Hx. split.
    + apply component_lt in Hx; auto. split; lia.
    + eapply built_from_trans; [exact Bl|]. econstructor; [exact Hx|constructor].
  - intros x m Hx Hc. destruct (Q3 x Hx) as [Hf|(I & cf & i & o & Vs)].
    + apply F1 in Hf. destruct Hf as [Hf| ->].
      * destruct (Cl x m Hf Hc) as [Hm|[<-|Hm]].
        -- left. apply Upa. exact Hm.
        -- left. apply Up2. apply F1. auto.
        -- right. apply in_or_app. auto.
      * apply Cmp in Hc. destruct (Q2 m Hc) as [|Hm]; auto. right. apply in_or_app. auto.
    + exfalso. apply (upto_component t0 t2) in Hc; auto. inversion Hc; subst; congruence.
  - destruct Rt as [Hr|[<-|Hr]].
    + left. apply Upa. exact Hr.
    + left. apply Up2. apply F1. auto.
    + right. apply in_or_app. auto.
Qed.

Lemma cf_loop_total t0 root : wf_table t0 -> forall fuel t q, cfinv t0 root t q ->
  (N.to_nat (msum q) <= fuel)%nat ->
  exists t', cf_loop_l fuel t q = Ok t'.
Proof.
  intros W0. induction fuel as [|f IH]; intros t q I Hf.
  - destruct q as [|l q]; [cbn; eauto|]. exfalso. cbn [msum] in Hf. pose proof (pw_pos l). lia.
  - destruct q as [|l q]; [cbn; eauto|].
    destruct (cfinv_step t0 root t l q W0 I) as (w & t1 & tn & t2 & qs & E1 & E2 & E3 & E4 & Hm & I2).
    cbn [cf_loop_l]. rewrite E1. cbn [bind]. rewrite E2. cbn [bind]. rewrite E3. cbn [bind].
    rewrite E4. cbn [bind fst snd]. apply IH; auto.
    cbn [msum] in Hf. rewrite msum_app. lia.
Qed.

Lemma cf_loop_inv t0 root : wf_table t0 -> forall fuel t q t', cfinv t0 root t q ->
  cf_loop_l fuel t q = Ok t' -> cfinv t0 root t' [].
Proof.
  intros W0. induction fuel as [|f IH]; intros t q t' I H.
  - destruct q as [|l q]; [cbn in H; inversion H; subst; exact I|discriminate].
  - destruct q as [|l q]; [cbn in H; inversion H; subst; exact I|].
    destruct (cfinv_step t0 root t l q W0 I) as (w & t1 & tn & t2 & qs & E1 & E2 & E3 & E4 & Hm & I2).
    cbn [cf_loop_l] in H. rewrite E1 in H. cbn [bind] in H. rewrite E2 in H. cbn [bind] in H.
    rewrite E3 in H. cbn [bind] in H. rewrite E4 in H. cbn [bind fst snd] in H. eapply IH; eauto.
Qed.

(** Flags are closed under going to members. *)
Definition cf_closed (t : table) : Prop :=
  forall x m, flg t x -> component (view t) x m -> flg t m.

Definition cf_result (t : table) (l : N) (t' : table) : Prop :=
  upto t t' /\ cf_closed t' /\
  forall x, flg t' x <-> flg t x \/ built_from (view t) l x.

Lemma cfinv_final t l t' : wf_table t -> cfinv t l t' [] -> cf_result t l t'.
Proof.
  intros W [Up Only Q Cl Rt]. destruct Rt as [Rt|[]].
  assert (C : cf_closed t').
  { intros x m Hx Hc. apply (upto_component t t') in Hc; auto.
    destruct (Cl x m Hx Hc) as [|[]]; auto. }
  split; [exact Up|]. split; [exact C|].
  intros x. split; [apply Only|]. intros [H|H].
  - now apply Up.
  - apply (upto_built_from t t') in H; auto. clear - H Rt C.
    induction H; auto. apply IHbuilt_from. eapply C; eauto.
Qed.

(** For a closed table, a label and the result of the call (any fuel). *)
Lemma affects_start t l : wf_table t -> cf_closed t -> in_use t l ->
  (exists t', (forall fuel, affects_l fuel t l = Ok t') /\ cf_result t l t') \/
  ((forall fuel, affects_l fuel t l = cf_loop_l fuel t [l]) /\ cfinv t l t [l]).
Proof.
  intros W C U. destruct (wf_view t l W U) as (tn & G & V & Wt & Vt).
  destruct (add_to_q_spec t l tn W V) as (A1 & A2 & A3).
  unfold affects_l. destruct (cf_of tn) eqn:Ec; [|destruct (is_src tn) eqn:Es].
  - left. exists t. rewrite A1 by reflexivity. split; [reflexivity|].
    split; [now apply upto_refl|]. split; [exact C|].
    intros x. split; auto. intros [H|H]; auto.
    assert (F : flg t l) by (exists tn; auto). clear - F C H.
    induction H; auto. apply IHbuilt_from. eapply C; eauto.
  - left. destruct A3 as (t1 & A & S); auto. exists t1. rewrite A. split; [reflexivity|].
    destruct (upto_set t l tn t1 W V S) as (Up1 & F1). split; [exact Up1|].
    assert (NC : forall m, ~ component (view t) l m).
    { intros m Hc. destruct tn; try discriminate. inversion Hc; subst; congruence. }
    split.
    + intros x m Hx Hc. apply (upto_component t t1) in Hc; auto. apply F1.
      apply F1 in Hx. destruct Hx as [Hx| ->]; [left; eapply C; eauto|]. exfalso. eapply NC; eauto.
    + intros x. rewrite F1. split; intros [H|H]; auto.
      * subst. right. constructor.
      * inversion H; subst; auto. exfalso. eapply NC; eauto.
  - right. rewrite A2 by auto. split; [reflexivity|].
    constructor.
    + now apply upto_refl.
    + auto.
    + intros x [<-|[]]. split; auto. constructor.
    + intros x m Hx Hc. left. eapply C; eauto.
    + right. now left.
Qed.

Lemma affects_ok fuel junk t l t' : wf_table t -> cf_closed t -> in_use t l ->
  affects_control_flow fuel junk t l = Ok t' -> cf_result t l t'.
Proof.
  intros W C U H. rewrite affects_rel in H.
  destruct (affects_start t l W C U) as [(t1 & E & R)|(E & I)].
  - rewrite E in H. inversion H; subst. exact R.
  - rewrite E in H. apply cfinv_final; auto. eapply cf_loop_inv; eauto.
Qed.

Lemma affects_total t l : wf_table t -> cf_closed t -> in_use t l ->
  exists t' F, forall fuel junk, (F <= fuel)%nat -> affects_control_flow fuel junk t l = Ok t'.
Proof.
  intros W C U. destruct (affects_start t l W C U) as [(t1 & E & R)|(E & I)].
  - exists t1, O. intros. rewrite affects_rel. apply E.
  - destruct (cf_loop_total t l W (N.to_nat (msum [l])) t [l] I) as (t' & H); [lia|].
    exists t', (N.to_nat (msum [l])). intros. rewrite affects_rel, E.
    replace fuel with (N.to_nat (msum [l]) + (fuel - N.to_nat (msum [l])))%nat by lia.
    now apply cf_loop_l_mono.
Qed.

(** ** Every operation preserves the invariants *)
Definition linv (t : table) : Prop := wf_table t /\ cf_closed t.

Lemma flg_app t ws x : x < len t -> (flg (t ++ ws) x <-> flg t x).
Proof. intros H. unfold flg. now rewrite view_app. Qed.

Lemma component_app t ws x m : wf_table t -> x < len t ->
  (component (view (t ++ ws)) x m <-> component (view t) x m).
Proof.
  intros W H. split; intros C.
  - eapply (agree_component (len t)); [|exact H|exact C]. apply agree_sym, agree_app.
  - eapply (agree_component (len t)); eauto using agree_app.
Qed.

(** Relation between a table and a later one. *)
Definition extends (t t' : table) : Prop :=
  len t <= len t' /\ forall l, l < len t ->
    option_map erase_cf (view t l) = option_map erase_cf (view t' l) /\
    (flg t l -> flg t' l).

Lemma extends_refl t : extends t t.
Proof. split; [lia|]. auto. Qed.
Lemma extends_trans t t' t'' : extends t t' -> extends t' t'' -> extends t t''.
Proof.
  intros (A1 & A2) (B1 & B2). split; [lia|]. intros l Hl.
  destruct (A2 l Hl) as [E F]. destruct (B2 l ltac:(lia)) as [E' F']. split; auto. congruence.
Qed.
Lemma extends_app t ws : extends t (t ++ ws).
Proof.
  split; [rewrite len_app; lia|]. intros l Hl. rewrite view_app by assumption.
  split; auto. now rewrite flg_app.
Qed.
Lemma extends_upto t t' : upto t t' -> extends t t'.
Proof. intros (A & B & C & D). split; [lia|]. auto. Qed.
Lemma extends_agree t t' : extends t t' -> agree (len t) t t'.
Proof. intros (_ & H) i Hi. now apply H. Qed.

Lemma lstep_inv t o res t' : linv t -> lop_ok t o -> lstep t o res t' -> linv t' /\ extends t t'.
Proof.
  intros [W C] K S. destruct S as [src off n f la t' E|l r x t' E|l fuel junk t' E].
  - destruct K as (K1 & K2 & K3).
    destruct (create_source_ok _ _ _ _ _ _ _ W K1 K2 K3 E) as (W' & Hf & _ & Ln & ->).
    split; [split; [exact W'|]|apply extends_app].
    intros x m Hx Hc. destruct (component_lt _ _ _ W' Hc) as (_ & Hm & Hx').
    destruct (N.ltb_spec x (len t)).
    + rewrite flg_app in Hx by assumption. rewrite flg_app by lia.
      apply component_app in Hc; auto. eapply C; eauto.
    + exfalso. assert (V : view (t ++ source_words src off (N.to_nat n)) x =
        Some (TSource false src (off + (x - len t)))).
      { replace x with (f + (x - len t)) at 1.
        - rewrite len_app, source_words_length in Hx'. eapply create_source_view; [exact W|exact K1|exact K2|exact K3|exact E|lia].
        - lia. }
      inversion Hc; subst; congruence.
  - destruct K as (K1 & K2).
    destruct (union_taint_ok _ _ _ _ _ W K1 K2 E) as (W' & Ux & Ln & Cs & D).
    destruct Cs as [->|(-> & tn & -> & Cf & Wn)]; [split; [split; auto|apply extends_refl]|].
    split; [split; [exact W'|]|apply extends_app].
    intros x m Hx Hc. destruct (component_lt _ _ _ W' Hc) as (_ & Hm & Hx').
    rewrite len_app in Hx'. change (len [encode tn]) with 1 in Hx'.
    destruct (N.ltb_spec x (len t)).
    + rewrite flg_app in Hx by assumption. rewrite flg_app by lia.
      apply component_app in Hc; auto. eapply C; eauto.
    + exfalso. replace x with (len t) in * by lia. destruct Hx as (tn' & V & Cf').
      destruct (view_wf _ _ _ W' V) as (Wt & Vt & G). rewrite get_app_last in G.
      inversion G as [G']. destruct Ux as [Ux1 Ux2].
      assert (Hvt : valid_taint tn).
      { eapply wf_valid; [|exact Wn]. apply W. }
      apply encode_inj in G'; auto. subst. congruence.
  - assert (R := affects_ok _ _ _ _ _ W C K E). destruct R as (Up & C' & F).
    split; [split; [apply Up|exact C']|now apply extends_upto].
Qed.
