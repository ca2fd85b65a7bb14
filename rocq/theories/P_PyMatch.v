(** Proofs about M_PyMatch. *)
From Coq Require Import NArith ZArith List Bool Lia.
From Verif Require Import M_Base M_PyGrammar M_PyEarley M_PyMatch S_Grammar S_Earley P_Base P_Grammar P_GrammarSimplify P_PyEarley P_EarleyComplete.
Import ListNotations.
Open Scope N_scope.

Lemma match_bool_charts : forall fuel g w c, match_bool fuel g w c =
  do p <- charts_of fuel g w c; if (last_match p <? Z.of_N (len w) - 1)%Z then Exit else Ok (has_tree p).
Proof.
  intros fuel g w c. unfold match_bool, charts_of. destruct (get_prod g START); cbn [bind]; try reflexivity.
  destruct (add_predictions _ _ _ _ _); cbn [bind]; reflexivity.
Qed.

Lemma has_tree_sound : forall fuel g w p1, answers g -> start_unused g ->
  charts_of fuel g w (len w) = Ok p1 -> has_tree p1 = true -> accepts g w.
Proof.
  intros fuel g w p1 A U H H'. unfold charts_of in H. destruct (get_prod g START) as [st| | |] eqn:Es; try discriminate. cbn [bind] in H.
  assert (Hs : In (START, st) (productions g)).
  { unfold get_prod in Es. destruct (find_prod (productions g) START) eqn:F; inversion Es; subst. apply find_some_in. assumption. }
  destruct (add_predictions _ _ _ _ _) as [p0| | |] eqn:E0; try discriminate. cbn [bind] in H. rename H into E1.
  apply existsb_exists in H'. destruct H' as (s & B & C).
  assert (S1 : sound g w True p1).
  { eapply parse_loop_sound; [intros _; exact U| |exact E1]. eapply predictions_sound; [apply new_sound; exact A| | | |exact E0].
    - lia.
    - intros _. left. reflexivity.
    - intros r Hr. exists st, r. auto. }
  rewrite (so_states g w True p1 S1) in B. replace (len w + 1 - 1) with (len w) in B by lia.
  destruct (so_queue g w True p1 S1 _ _ B) as [F1 F2 F3 (pre & F4 & F5) F6]. destruct (expected s) eqn:Ee; [|discriminate].
  rewrite app_nil_r in F4. subst pre. apply prod_eqb_iff in C; [|apply (so_answers g w True p1 S1)].
  assert (SR : same_rules g (pname s) START).
  { intro body. rewrite <- !(cached_rules g (pg p1) (so_cached g w True p1 S1)). apply C. }
  destruct (F6 Logic.I) as [F6'|F6']; [|contradiction]. rewrite F6', sub_all in F5.
  apply derives_name. exists (prule s). split; [|assumption]. apply SR. assumption.
Qed.

(** The charts are made: nothing is raised but for the last byte. *)
Lemma charts_exist : forall g w fuel, answers g -> nonempty_rules g -> distinct_productions g ->
  In START (names g) -> (enough g w <= fuel)%nat -> exists p, charts_of fuel g w (len w) = Ok p.
Proof.
  intros g w fuel A Ne Di Hs Hf. unfold enough in Hf. destruct A as [I A'] eqn:EA. pose proof A as A0. clear EA A'.
  unfold charts_of. destruct (get_prod_names g START Hs) as (st & -> & Hst). cbn [bind].
  destruct fuel as [|f]; [lia|].
  assert (B0 : base g w 0 (parser_new g w (len w))).
  { constructor; cbn; try contradiction; try reflexivity; [apply cached_refl|assumption|constructor]. }
  destruct (predictions_base g w I Di (rules st) f 0 (parser_new g w (len w)) START B0) as (p0 & -> & B1 & G1 & I1 & L1 & O1).
  { lia. }
  { intros r Hr. exists st, r. auto. }
  cbn [bind].
  assert (F0 : full g w 0 0 p0).
  { constructor; [assumption| |].
    - intros m s _ [Hm|[_ []]]. lia.
    - intros m Hm. rewrite L1. cbn [parser_new last_match]. destruct (N.eq_dec m 0) as [->|D]; [lia|]. rewrite O1 in Hm by assumption. cbn in Hm. congruence. }
  destruct (parse_loop_full g w I Ne Di (S (length w)) (S f) 0 p0 F0) as (p1 & -> & F1 & G2).
  { pose proof (len_length _ w). lia. }
  { lia. }
  exists p1. reflexivity.
Qed.

(** ** Asking *)
Definition settled (m : mobj) (p : parser) : Prop :=
  mparser m = Some p /\ (is_match m = None \/ is_match m = Some (has_tree p)).
Lemma ask_settled : forall fuel m p q, settled m p ->
  exists m1, ask fuel m q = Ok (m1, Answer (has_tree p)) /\ settled m1 p.
Proof.
  intros fuel [g w c mp im] p q [A B]. cbn in A, B. subst mp.
  destruct q; cbn [ask]; unfold ask_bool, ask_iter, ask_tree, parse_once; cbn [is_match mparser].
  - destruct B as [->| ->]; cbn [bind]; eexists; split; try reflexivity; split; cbn; auto.
  - destruct B as [->| ->]; cbn [bind].
    + eexists; split; try reflexivity; split; cbn; auto.
    + destruct (has_tree p) eqn:E; cbn [bind]; eexists; (split; [reflexivity|]); split; cbn; rewrite ?E; auto.
  - eexists; split; try reflexivity. split; cbn; auto.
Qed.
Lemma all_settled : forall fuel p qs m, settled m p -> ask_all fuel m qs = Ok (repeat (Answer (has_tree p)) (length qs)).
Proof.
  intros fuel p. induction qs as [|q r IH]; intros m S; [reflexivity|]. cbn [ask_all length repeat].
  destruct (ask_settled fuel m p q S) as (m1 & -> & S1). cbn [bind]. rewrite (IH m1 S1). reflexivity.
Qed.
Lemma ask_first : forall fuel g w c q p, charts_of fuel g w c = Ok p ->
  exists m1, ask fuel (match_new g w c) q =
    Ok (m1, if (last_match p <? Z.of_N (len w) - 1)%Z then Raises else Answer (has_tree p)) /\ settled m1 p.
Proof.
  intros fuel g w c q p H.
  destruct q; cbn [ask]; unfold ask_bool, ask_iter, ask_tree, parse_once, match_new; cbn [is_match mparser mgrammar msentence mchars];
    rewrite H; cbn [bind]; destruct (_ <? _)%Z; cbn [bind]; eexists; split; try reflexivity; split; cbn; auto.
Qed.
Lemma ask_first_ok : forall fuel g w c q r, ask fuel (match_new g w c) q = Ok r -> exists p, charts_of fuel g w c = Ok p.
Proof.
  intros fuel g w c q r H.
  destruct q; cbn [ask] in H; unfold ask_bool, ask_iter, ask_tree, parse_once, match_new in H; cbn [is_match mparser mgrammar msentence mchars] in H;
    destruct (charts_of fuel g w c) as [p| | |]; try discriminate H; exists p; reflexivity.
Qed.
