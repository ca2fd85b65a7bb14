(** Properties C76 and C77: matching an input against a grammar. *)
From Coq Require Import NArith ZArith List Bool Lia.
From Verif Require Import M_Base M_PyGrammar M_PyEarley S_Grammar S_Earley P_Grammar P_GrammarSimplify P_PyEarley P_EarleyComplete T_Grammar.
Import ListNotations.
Open Scope N_scope.

(** C76.  If match says True, the grammar accepts the input: for every grammar whose productions
    all derive some bytes and whose start is not used in rules, and every input.  (Missing: other
    grammars, for which it is false, see below.) *)
Theorem C76_match_partial : forall fuel g w, in_order g -> fresh g -> produces_bytes g -> start_unused g ->
  match_bool fuel g w (len w) = Ok true -> accepts g w.
Proof. intros fuel g w I F P U. apply match_sound; [apply fresh_answers; assumption|assumption]. Qed.
Print Assumptions C76_match_partial.

(** C77.  If the grammar accepts the input, match says True, and it always returns: for every
    grammar whose productions derive something, without empty rules and without two productions
    with the same rules.  (Missing: other grammars, for which it is false.) *)
Theorem C77_match_partial : forall g w, in_order g -> fresh g -> productive g -> nonempty_rules g -> distinct_productions g ->
  In START (map fst (productions g)) ->
  exists steps, forall fuel, (steps <= fuel)%nat ->
    match_bool fuel g w (len w) <> Fuel /\ (accepts g w -> match_bool fuel g w (len w) = Ok true).
Proof.
  intros g w I F P Ne Di Hs. exists (enough g w). intros fuel Hf. apply match_complete; try assumption.
  apply fresh_answers; [assumption|assumption|]. apply nonempty_produces; assumption.
Qed.
Print Assumptions C77_match_partial.
(** Both together: for a grammar extracted from a tree, if no leaf is empty, no function is
    called <START> and no two productions have the same rules, then match says True exactly for
    the inputs the grammar accepts, and the input of the tree is one of them. *)
Theorem C77_extracted_partial : forall n t g, input_tree t -> nonempty_leaves t ->
  (forall k bb cs, node_of (Node (VEvent k bb) cs) t -> k <> START) ->
  (tree_size t <= n)%nat -> parse_tree_to_grammar n t = Ok g -> distinct_productions g ->
  (forall w, exists steps, forall fuel, (steps <= fuel)%nat ->
     match_bool fuel g w (len w) <> Fuel /\ (match_bool fuel g w (len w) = Ok true <-> accepts g w)) /\
  exists steps, forall fuel, (steps <= fuel)%nat -> match_bool fuel g (yield t) (len (yield t)) = Ok true.
Proof.
  intros n t g Ht Hl Hs Hn Hg Di. destruct (C74_in_order n t g Ht Hn Hg) as (I & P & F).
  destruct (extract_ok n t Ht Hn) as (g1 & E & B & Nm & R). rewrite E in Hg. inversion Hg; subst g1.
  pose proof (extracted_nonempty t g Ht Hl R) as Ne. pose proof (extracted_unused t g Ht Di I Hs Nm R) as U.
  assert (Sg : In START (names g)) by (apply Nm; exists t; split; [constructor|inversion Ht; reflexivity]).
  split.
  - intro w. destruct (C77_match_partial g w I F P Ne Di Sg) as (steps & H). exists steps. intros fuel Hf. destruct (H fuel Hf) as (A & C).
    split; [assumption|]. split; [|assumption]. apply C76_match_partial; try assumption. apply nonempty_produces; assumption.
  - destruct (C77_match_partial g (yield t) I F P Ne Di Sg) as (steps & H). exists steps. intros fuel Hf. apply (H fuel Hf).
    destruct (C74_extract n t Ht Hn) as (_ & g2 & E2 & A). rewrite E in E2. inversion E2; subst. assumption.
Qed.
Print Assumptions C77_extracted_partial.

(** The grammar of [demo_tree] meets all conditions; digits are called recursively. *)
Example C77_case : input_tree demo_tree /\ nonempty_leaves demo_tree /\
  (forall k bb cs, node_of (Node (VEvent k bb) cs) demo_tree -> k <> START) /\
  exists g, parse_tree_to_grammar 10 demo_tree = Ok g /\ distinct_productions g /\
    match_bool 60 g [40; 49; 50; 51; 41] 5 = Ok true /\ match_bool 60 g [40; 49; 49; 50; 51; 41] 6 = Ok true /\
    match_bool 60 g [40; 49; 41] 3 = Exit /\ match_bool 60 g [40; 49; 50; 51] 4 = Ok false.
Proof.
  assert (Nd : forall u, node_of u demo_tree -> In u (pre demo_tree)) by (intro u; apply in_pre).
  split; [exact demo_tree_ok|]. split; [|split].
  - intro H. apply Nd in H. cbn in H. repeat (destruct H as [H|H]; [discriminate|]). destruct H.
  - intros k bb cs H. apply Nd in H. cbn in H. repeat (destruct H as [H|H]; [inversion H; subst; discriminate|]). destruct H.
  - eexists. split; [vm_compute; reflexivity|]. split; [|repeat split; vm_compute; reflexivity].
    intros n m A B S. apply prod_eqb_iff in S; [|repeat constructor; cbn; intuition discriminate].
    cbn [map fst productions] in A, B. repeat (destruct A as [A|A]; [subst n|]); try contradiction;
      repeat (destruct B as [B|B]; [subst m|]); try contradiction; try reflexivity; vm_compute in S; discriminate.
Qed.

(** Grammars for the refutations, with a right table of users. *)
Definition grammar_of (ps : list (N * list (list symbol))) : grammar :=
  mkGrammar (map (fun q => (fst q, fresh_prod (snd q) (negb (fst q =? START)))) ps)
    (fun m => map fst (filter (fun q => existsb (fun body => existsb (is_name m) (combine_terminals body)) (snd q)) ps)).

(** A grammar with an empty rule, for C76: START ::= A "y" and A ::= "" | "x". *)
Definition option_y : grammar := grammar_of [(0, [[NonTerminal 1; Terminal [121]]]); (1, [[]; [Terminal [120]]])].
Example C76_case : in_order option_y /\ fresh option_y /\ produces_bytes option_y /\ start_unused option_y /\
  match_bool 50 option_y [120; 121] 2 = Ok true /\ match_bool 50 option_y [121] 1 = Ok true /\ match_bool 50 option_y [120] 1 = Ok false.
Proof.
  assert (R : forall n body, rule_of option_y n body <-> (n = 0 /\ body = [NonTerminal 1; Terminal [121]]) \/ (n = 1 /\ (body = [] \/ body = [Terminal [120]]))).
  { intros n body. split.
    - intros (p & r & A & B & <-). cbn in A. destruct A as [A|[A|[]]]; inversion A; subst; cbn in B; destruct B as [<-|B]; auto; destruct B as [<-|[]] || destruct B; auto.
    - intros [[-> ->]|[-> [->| ->]]]; eexists _, _.
      + split; [left; reflexivity|split; [left; reflexivity|reflexivity]].
      + split; [right; left; reflexivity|split; [left; reflexivity|reflexivity]].
      + split; [right; left; reflexivity|split; [right; left; reflexivity|reflexivity]]. }
  assert (U : forall n m, In n (used_by option_y m) <-> n = 0 /\ m = 1).
  { intros n m. change (used_by option_y m) with (map fst (filter (fun q => existsb (fun body => existsb (is_name m) (combine_terminals body)) (snd q))
      [(0, [[NonTerminal 1; Terminal [121]]]); (1, [[]; [Terminal [120]]])])). cbn [filter snd existsb combine_terminals fold_left combine_step rev app].
    unfold is_name. cbn [symbol_eqb]. rewrite !orb_false_r. destruct (N.eqb_spec 1 m) as [<-|D]; cbn; [intuition congruence|]. intuition congruence. }
  assert (T : forall b, derives (rule_of option_y) [Terminal b] b) by (intro b; rewrite <- (app_nil_r b) at 2; repeat constructor).
  assert (X : derives (rule_of option_y) [NonTerminal 1] [120]).
  { apply derives_name. exists [Terminal [120]]. split; [apply R; auto|apply T]. }
  split; [|split; [|split; [|split; [|repeat split; vm_compute; reflexivity]]]].
  - constructor.
    + repeat constructor; cbn; intuition discriminate.
    + intros n body m A B. apply R in A. destruct A as [[-> ->]|[-> [->| ->]]]; cbn in B; repeat (destruct B as [B|B]; [try discriminate; inversion B; subst|]); try contradiction. cbn. auto.
    + intros n body m A B. apply U. apply R in A. destruct A as [[-> ->]|[-> [->| ->]]]; cbn in B; repeat (destruct B as [B|B]; [try discriminate; inversion B; subst|]); try contradiction. auto.
    + intros n m A. apply U in A. destruct A as [-> ->]. left. reflexivity.
    + intros n m A _. apply U in A. destruct A as [-> ->]. exists [NonTerminal 1; Terminal [121]]. split; [apply R; auto|left; reflexivity].
    + intro m. destruct (used_by option_y m) as [|a [|b l]] eqn:E; [constructor|repeat constructor; intros []|].
      exfalso. revert E. change (used_by option_y m) with (map fst (filter (fun q => existsb (fun body => existsb (is_name m) (combine_terminals body)) (snd q))
        [(0, [[NonTerminal 1; Terminal [121]]]); (1, [[]; [Terminal [120]]])])). cbn [filter snd existsb combine_terminals fold_left combine_step rev app].
      unfold is_name. cbn [symbol_eqb]. destruct (1 =? m); cbn; discriminate.
    + intros n p A. cbn in A. destruct A as [A|[A|[]]]; inversion A; subst; repeat constructor; cbn; intuition discriminate.
  - intros n p A. cbn in A. destruct A as [A|[A|[]]]; inversion A; subst; (split; [reflexivity|]); intros r B; cbn in B;
      repeat (destruct B as [<-|B]); try contradiction; apply rule_new_flag.
  - intros n A. cbn in A. destruct A as [<-|[<-|[]]]; [exists [120; 121]|exists [120]]; (split; [discriminate|]); [|exact X].
    apply derives_name. exists [NonTerminal 1; Terminal [121]]. split; [apply R; auto|].
    apply (derives_app _ [NonTerminal 1] [120] [Terminal [121]] [121]); [exact X|apply T].
  - intros n body m A B S. apply R in A. destruct A as [[-> ->]|[-> [->| ->]]]; cbn in B; repeat (destruct B as [B|B]; [try discriminate; inversion B; subst|]); try contradiction.
    assert (H : rule_of option_y START []) by (apply S; apply R; auto). apply R in H. destruct H as [[_ H]|[H _]]; discriminate.
Qed.

(** Refuted: C76 for a start that is used in rules.  End states are not checked to begin at 0:
    with START ::= "a" START "c" | "b" the input "ab" matches. *)
Definition nested : grammar := grammar_of [(0, [[Terminal [97]; NonTerminal 0; Terminal [99]]; [Terminal [98]]])].
Theorem C76_nested_refuted : match_bool 50 nested [97; 98] 2 = Ok true /\ ~ accepts nested [97; 98] /\ accepts nested [97; 98; 99].
Proof.
  split; [vm_compute; reflexivity|].
  assert (R : forall n body, rule_of nested n body <-> n = 0 /\ (body = [Terminal [97]; NonTerminal 0; Terminal [99]] \/ body = [Terminal [98]])).
  { intros n body. split.
    - intros (p & r & A & B & <-). cbn in A. destruct A as [A|[]]. inversion A; subst. cbn in B.
      destruct B as [<-|[<-|[]]]; split; auto.
    - intros (-> & [-> | ->]); eexists _, _; (split; [left; reflexivity|]); [split; [left; reflexivity|reflexivity]|split; [right; left; reflexivity|reflexivity]]. }
  assert (T : forall b, derives (rule_of nested) [Terminal b] b) by (intro b; rewrite <- (app_nil_r b) at 2; repeat constructor).
  split.
  - intro H. apply derives_name in H. destruct H as (body & A & D). apply R in A. destruct A as (_ & [->| ->]).
    + apply derives_terminal_inv in D. destruct D as (v & E & D). inversion E; subst v. apply derives_name_inv in D.
      destruct D as (body & v & v' & E1 & _ & _ & D2). apply derives_terminal_inv in D2. destruct D2 as (x & -> & _).
      assert (H : In 99 [98]) by (rewrite E1; apply in_app_iff; right; left; reflexivity). destruct H as [H|[]]. discriminate.
    + apply derives_terminal_inv in D. destruct D as (v & E & _). discriminate.
  - apply derives_name. eexists. split; [apply R; split; [reflexivity|left; reflexivity]|].
    change [97; 98; 99] with ([97] ++ [98] ++ [99]). constructor. econstructor; [apply R; split; [reflexivity|right; reflexivity]|apply T|apply T].
Qed.
Print Assumptions C76_nested_refuted.
(** Refuted: C76 for productions that derive only the empty string.  Such a production is
    entered as a finished state of the production that uses it: with START ::= A "x",
    A ::= E "y" and E ::= "", the input "x" matches. *)
Definition empty_below : grammar := grammar_of [(0, [[NonTerminal 1; Terminal [120]]]); (1, [[NonTerminal 2; Terminal [121]]]); (2, [[]])].
Theorem C76_empty_refuted : match_bool 50 empty_below [120] 1 = Ok true /\ ~ accepts empty_below [120].
Proof.
  split; [vm_compute; reflexivity|].
  assert (R : forall n body, rule_of empty_below n body -> (n = 0 /\ body = [NonTerminal 1; Terminal [120]]) \/
     (n = 1 /\ body = [NonTerminal 2; Terminal [121]]) \/ (n = 2 /\ body = [])).
  { intros n body (p & r & A & B & <-). cbn in A. repeat (destruct A as [A|A]; [inversion A; subst; clear A; cbn in B; destruct B as [<-|[]]; auto|]). destruct A. }
  intro H. apply derives_name in H. destruct H as (body & A & D). apply R in A. destruct A as [[_ ->]|[[A _]|[A _]]]; try discriminate.
  apply derives_name_inv in D. destruct D as (body & v & v' & E & A & D1 & D2). apply R in A.
  destruct A as [[A _]|[[_ ->]|[A _]]]; try discriminate. apply derives_name_inv in D1. destruct D1 as (b' & u & u' & E' & _ & _ & D3).
  apply derives_terminal_inv in D3. destruct D3 as (x & -> & _).
  assert (H : In 121 [120]) by (rewrite E, E'; apply in_app_iff; left; apply in_app_iff; right; left; reflexivity).
  destruct H as [H|[]]. discriminate.
Qed.
Print Assumptions C76_empty_refuted.

(** Refuted: C77 for two productions with the same rules, even for grammars of trees: two blocks
    [2] and [3] of a function [1] that both read "x".  The parser takes them for the same, and
    rejects the input the grammar was extracted from. *)
Definition same_blocks : tree :=
  Node VStart [Node (VEvent 1 false) [Node (VEvent 2 false) [leaf [120]]];
               Node (VEvent 1 false) [Node (VEvent 3 false) [leaf [120]]; leaf [121]]].
Theorem C77_same_rules_refuted : exists g, input_tree same_blocks /\ nonempty_leaves same_blocks /\
  parse_tree_to_grammar 20 same_blocks = Ok g /\ yield same_blocks = [120; 120; 121] /\ accepts g [120; 120; 121] /\
  match_bool 60 g [120; 120; 121] 3 = Exit.
Proof.
  assert (I : input_tree same_blocks) by (repeat (constructor; try discriminate)).
  destruct (C74_extract 20 same_blocks I) as (_ & g & E & A); [cbn; lia|]. exists g. split; [assumption|]. split.
  - intro H. apply in_pre in H. cbn in H. repeat (destruct H as [H|H]; [discriminate|]). destruct H.
  - split; [assumption|]. split; [reflexivity|]. split; [assumption|]. vm_compute in E. inversion E; subst g. vm_compute. reflexivity.
Qed.
Print Assumptions C77_same_rules_refuted.
(** Refuted: C77 for empty rules.  START ::= E "x" with E ::= "" is rejected, and for
    START ::= A A with A ::= "" | "x" the parser fails with an exception. *)
Definition empty_first : grammar := grammar_of [(0, [[NonTerminal 1; Terminal [120]]]); (1, [[]])].
Definition optional : grammar := grammar_of [(0, [[NonTerminal 1; NonTerminal 1]]); (1, [[]; [Terminal [120]]])].
Theorem C77_empty_refuted :
  (accepts empty_first [120] /\ match_bool 50 empty_first [120] 1 = Exit) /\
  (accepts optional [120; 120] /\ match_bool 50 optional [120; 120] 2 = Exit).
Proof.
  assert (T : forall R b, derives R [Terminal b] b) by (intros R b; rewrite <- (app_nil_r b) at 2; repeat constructor).
  split; (split; [|vm_compute; reflexivity]).
  - apply derives_name. exists [NonTerminal 1; Terminal [120]]. split; [eexists _, _; split; [left; reflexivity|split; [left; reflexivity|reflexivity]]|].
    change [120] with ([] ++ [120] : list N). econstructor; [eexists _, _; split; [right; left; reflexivity|split; [left; reflexivity|reflexivity]]|constructor|apply T].
  - apply derives_name. exists [NonTerminal 1; NonTerminal 1]. split; [eexists _, _; split; [left; reflexivity|split; [left; reflexivity|reflexivity]]|].
    assert (X : derives (rule_of optional) [NonTerminal 1] [120]).
    { apply derives_name. exists [Terminal [120]]. split; [eexists _, _; split; [right; left; reflexivity|split; [right; left; reflexivity|reflexivity]]|apply T]. }
    change [120; 120] with ([120] ++ [120]). apply (derives_app _ [NonTerminal 1] [120] [NonTerminal 1]); exact X.
Qed.
Print Assumptions C77_empty_refuted.
(** Refuted: that match says False for all other inputs (it raises an exception if the last
    bytes fit no rule), and that a str may be matched (the number of charts is that of its
    characters, here one for two bytes). *)
Definition one_char : grammar := grammar_of [(0, [[Terminal [195; 169]]])].
Theorem C77_false_refuted : match_bool 50 one_char [98] 1 = Exit /\
  match_bool 50 one_char [195; 169] 2 = Ok true /\ match_bool 50 one_char [195; 169] 1 = Exit.
Proof. repeat split; vm_compute; reflexivity. Qed.
Print Assumptions C77_false_refuted.
