(** Property C123: asking a match more than once. *)
From Coq Require Import NArith ZArith List Bool Lia.
From Verif Require Import M_Base M_PyGrammar M_PyEarley M_PyMatch S_Grammar S_Earley P_Base P_Grammar P_GrammarSimplify P_PyEarley P_EarleyComplete P_PyMatch T_Grammar T_Earley.
Import ListNotations.
Open Scope N_scope.

(** C123.  For every grammar, every input and every sequence of questions (bool, parse_tree,
    iteration) put to one match: all questions get one and the same answer, but for the first,
    which may raise.  (Missing: that it does not raise, which is false, see below.) *)
Theorem C123_same_partial : forall fuel g w chars qs answers,
  ask_all fuel (match_new g w chars) qs = Ok answers ->
  exists b, answers = repeat (Answer b) (length qs) \/ answers = Raises :: repeat (Answer b) (length qs - 1).
Proof.
  intros fuel g w chars [|q r] answers H; cbn [ask_all] in H; [inversion H; exists true; left; reflexivity|].
  apply bind_ok in H. destruct H as ([m1 a] & E & H). destruct (ask_first_ok _ _ _ _ _ _ E) as [p P].
  destruct (ask_first fuel g w chars q p P) as (m2 & F & S). rewrite F in E. inversion E; subst m2. clear E F.
  rewrite (all_settled fuel p r m1 S) in H. cbn [bind] in H. inversion H. exists (has_tree p). cbn [length]. rewrite PeanoNat.Nat.sub_succ, PeanoNat.Nat.sub_0_r.
  destruct (_ <? _)%Z; subst a; [right|left]; reflexivity.
Qed.
Print Assumptions C123_same_partial.

(** C123.  In the grammars of C76 and C77, whatever was asked before, an answer is True exactly
    if the grammar accepts the input, an accepted input is never answered by an exception, and
    every answer comes.  (Missing as above, and other grammars.) *)
Theorem C123_history_partial : forall g w, in_order g -> fresh g -> productive g -> nonempty_rules g ->
  distinct_productions g -> start_unused g -> In START (map fst (productions g)) ->
  exists steps, forall fuel qs, (steps <= fuel)%nat -> exists answers,
    ask_all fuel (match_new g w (len w)) qs = Ok answers /\ length answers = length qs /\
    (forall n b, nth_error answers n = Some (Answer b) -> (b = true <-> accepts g w)) /\
    (forall n, nth_error answers n = Some Raises -> n = O /\ ~ accepts g w).
Proof.
  intros g w I F P Ne Di U Hs.
  assert (A : P_PyEarley.answers g) by (apply fresh_answers; [assumption|assumption|apply nonempty_produces; assumption]).
  exists (enough g w). intros fuel qs Hf.
  destruct (charts_exist g w fuel A Ne Di Hs Hf) as [p E].
  assert (T : has_tree p = true <-> accepts g w).
  { split; [apply (has_tree_sound fuel g w p A U E)|]. intro Acc.
    destruct (match_complete g w fuel A Ne Di Hs Hf) as [_ M]. specialize (M Acc). rewrite match_bool_charts, E in M. cbn [bind] in M.
    destruct (_ <? _)%Z in M; [discriminate|]. inversion M. reflexivity. }
  assert (R : (last_match p <? Z.of_N (len w) - 1)%Z = true -> ~ accepts g w).
  { intros L Acc. destruct (match_complete g w fuel A Ne Di Hs Hf) as [_ M]. specialize (M Acc). rewrite match_bool_charts, E in M. cbn [bind] in M.
    rewrite L in M. discriminate. }
  assert (Re : forall n k a, nth_error (repeat (Answer (has_tree p)) k) n = Some a -> a = Answer (has_tree p)).
  { intros n k a H. apply nth_error_In in H. apply repeat_spec in H. assumption. }
  destruct qs as [|q r].
  - exists []. split; [reflexivity|]. split; [reflexivity|]. split; intros [|n]; intros; discriminate.
  - destruct (ask_first fuel g w (len w) q p E) as (m1 & Q & S).
    exists ((if (last_match p <? Z.of_N (len w) - 1)%Z then Raises else Answer (has_tree p)) :: repeat (Answer (has_tree p)) (length r)).
    cbn [ask_all]. rewrite Q. cbn [bind]. rewrite (all_settled fuel p r m1 S). split; [reflexivity|].
    split; [cbn [length]; rewrite repeat_length; reflexivity|]. split.
    + intros [|n] b H; cbn [nth_error] in H.
      * destruct (_ <? _)%Z in H; inversion H. exact T.
      * apply Re in H. inversion H. exact T.
    + intros [|n] H; cbn [nth_error] in H.
      * split; [reflexivity|]. destruct (_ <? _)%Z eqn:L in H; [apply R; assumption|discriminate].
      * apply Re in H. discriminate.
Qed.
Print Assumptions C123_history_partial.

(** The grammar of [demo_tree] meets all conditions. *)
Example C123_case : exists g, parse_tree_to_grammar 10 demo_tree = Ok g /\
  (in_order g /\ fresh g /\ productive g /\ nonempty_rules g /\ distinct_productions g /\ start_unused g /\ In START (map fst (productions g))) /\
  ask_all 60 (match_new g [40; 49; 50; 51; 41] 5) [QIter; QBool; QTree; QBool] = Ok [Answer true; Answer true; Answer true; Answer true] /\
  ask_all 60 (match_new g [40; 49; 50; 51] 4) [QTree; QBool; QIter] = Ok [Answer false; Answer false; Answer false].
Proof.
  destruct C77_case as (Ht & Hl & Hs & g & E & Di & _). exists g. split; [assumption|].
  assert (Hn : (tree_size demo_tree <= 10)%nat) by (cbn; lia).
  destruct (C74_in_order 10 demo_tree g Ht Hn E) as (I & P & F).
  destruct (extract_ok 10 demo_tree Ht Hn) as (g1 & E1 & B & Nm & R). rewrite E in E1. inversion E1; subst g1.
  split.
  - repeat (split; try assumption).
    + intros; eapply (extracted_nonempty demo_tree g Ht Hl R); eassumption.
    + intros; eapply (extracted_nonempty demo_tree g Ht Hl R); eassumption.
    + eapply (extracted_unused demo_tree g Ht Di I Hs Nm R); eassumption.
    + apply Nm. exists demo_tree. split; [constructor|reflexivity].
  - vm_compute in E. inversion E. split; vm_compute; reflexivity.
Qed.

(** Refuted: that all questions get the same answer.  With START ::= "(" "1" the input "b"
    raises a ValueError when it is first asked for and is answered by False from then on. *)
Definition one_word : grammar := grammar_of [(0, [[Terminal [40]; Terminal [49]]])].
Theorem C123_same_refuted : forall q1 q2,
  ask_all 50 (match_new one_word [98] 1) [q1; q2] = Ok [Raises; Answer false].
Proof. intros [] []; vm_compute; reflexivity. Qed.
Print Assumptions C123_same_refuted.
