(** Properties C74 and C75: grammars extracted from parse trees, and their simplification. *)
From Coq Require Import NArith List Bool Lia.
From Verif Require Import M_Base M_PyGrammar S_Grammar P_Grammar P_GrammarSimplify.
Import ListNotations.
Open Scope N_scope.

(** C74.  For every parse tree, the grammar extracted from it accepts the bytes of the tree,
    which are those matches() returns. *)
Theorem C74_extract : forall fuel t, input_tree t -> (tree_size t <= fuel)%nat ->
  tree_matches fuel t = Ok (yield t) /\
  exists g, parse_tree_to_grammar fuel t = Ok g /\ accepts g (yield t).
Proof.
  intros fuel t Ht Hf. split; [apply matches_yield; assumption|].
  destruct (extract_ok fuel t Ht Hf) as (g & E & B & Nm & R). exists g. split; [exact E|].
  apply input_derives; [assumption|]. intros u n A C. apply R. exists u. auto.
Qed.
Print Assumptions C74_extract.
(** Each event in the tree derives the bytes below it, and nothing is made up: each rule is the
    sequence of children of a node, up to joining neighbouring bytes. *)
Theorem C74_nodes : forall fuel t g, input_tree t -> (tree_size t <= fuel)%nat -> parse_tree_to_grammar fuel t = Ok g ->
  (forall n bb cs, node_of (Node (VEvent n bb) cs) t -> language g n (concat (map yield cs))) /\
  (forall n body, rule_of g n body ->
     exists u, node_of u t /\ symbol_of u = [NonTerminal n] /\
       forall R w, derives R body w <-> derives R (concat (map symbol_of (children u))) w).
Proof.
  intros fuel t g Ht Hf Hg. destruct (extract_ok fuel t Ht Hf) as (g' & E & B & Nm & R). rewrite E in Hg. inversion Hg; subst g'. split.
  - intros n bb cs H. assert (Ev : event_tree (Node (VEvent n bb) cs)).
    { inversion Ht as [ds Hn Hds Et]. subst t. inversion H as [|u v c ds' I J]; subst. eapply node_event; [|exact J]. rewrite Forall_forall in Hds. auto. }
    assert (HR : forall u k, node_of u (Node (VEvent n bb) cs) -> node_name u = Some k -> rule_of g k (body_of u)).
    { intros u k A C. apply R. exists u. split; [eapply node_trans; eassumption|auto]. }
    exact (node_derives (rule_of g) _ Ev HR).
  - intros n body H. apply R in H. destruct H as (u & A & C & ->). exists u. split; [assumption|]. split.
    + unfold node_name, symbol_of in *. destruct (value_of u); congruence.
    + intros R0 w. apply combine_derives.
Qed.
Print Assumptions C74_nodes.
(** tree.simplify() keeps the bytes, and the grammar of the simplified tree accepts them. *)
Theorem C74_tree_simplify : forall fuel t, input_tree t -> (tree_size (tree_simplify t) <= fuel)%nat ->
  tree_matches fuel (tree_simplify t) = Ok (yield t) /\
  exists g, parse_tree_to_grammar fuel (tree_simplify t) = Ok g /\ accepts g (yield t).
Proof.
  intros fuel t Ht Hf. destruct (simplify_input t Ht) as (Hs & Hy). rewrite <- Hy. apply C74_extract; assumption.
Qed.
Print Assumptions C74_tree_simplify.
(** The grammar object is in order: its bodies name productions and its table of users is
    complete and exact; and every production derives something. *)
Theorem C74_in_order : forall fuel t g, input_tree t -> (tree_size t <= fuel)%nat -> parse_tree_to_grammar fuel t = Ok g ->
  in_order g /\ productive g /\ fresh g.
Proof.
  intros fuel t g Ht Hf Hg. destruct (extract_ok fuel t Ht Hf) as (g' & E & B & Nm & R). rewrite E in Hg. inversion Hg; subst g'.
  split; [eapply extracted_in_order; eassumption|]. split; [eapply extracted_productive; eassumption|apply B].
Qed.
Print Assumptions C74_in_order.

(** Names for the examples: two functions, main [1] and digits [2], and basic blocks. *)
Definition leaf (b : list N) : tree := Node (VTerminal b) [].
(** main reads "(" , calls digits, reads ")"; digits reads "1" in a block, then calls itself. *)
Definition demo_tree : tree :=
  Node VStart [Node (VEvent 1 false)
    [leaf [40];
     Node (VEvent 2 false) [Node (VEvent 3 true) [leaf [49]]; Node (VEvent 2 false) [leaf [50]; leaf [51]]];
     leaf [41]]].
Lemma demo_tree_ok : input_tree demo_tree.
Proof. repeat (constructor; try discriminate). Qed.
Example C74_case : input_tree demo_tree /\ tree_size demo_tree = 10%nat /\ yield demo_tree = [40; 49; 50; 51; 41] /\
  (exists g, parse_tree_to_grammar 10 demo_tree = Ok g /\ accepts g [40; 49; 50; 51; 41] /\
     map fst (productions g) = [0; 1; 2; 3] /\
     rule_of g 2 [NonTerminal 3; NonTerminal 2] /\ rule_of g 2 [Terminal [50; 51]] /\
     (* and a longer input with the same structure *)
     accepts g [40; 49; 49; 50; 51; 41]) /\
  tree_simplify (Node VStart [Node (VEvent 1 true) [Node (VEvent 2 true) [leaf [7]]]]) = Node VStart [leaf [7]].
Proof.
  split; [exact demo_tree_ok|]. split; [reflexivity|]. split; [reflexivity|]. split; [|reflexivity].
  destruct (C74_extract 10 demo_tree demo_tree_ok) as (_ & g & E & A); [cbn; lia|].
  exists g. split; [exact E|]. split; [exact A|]. clear A. vm_compute in E. inversion E; subst g. clear E.
  split; [reflexivity|].
  assert (R2 : forall g, rule_of g 2 [NonTerminal 3; NonTerminal 2] -> rule_of g 2 [Terminal [50; 51]] -> rule_of g 3 [Terminal [49]] ->
    rule_of g 0 [NonTerminal 1] -> rule_of g 1 [Terminal [40]; NonTerminal 2; Terminal [41]] -> accepts g [40; 49; 49; 50; 51; 41]).
  { intros g A B C D F. apply derives_name. eexists. split; [exact D|]. apply derives_name. eexists. split; [exact F|].
    change [40; 49; 49; 50; 51; 41] with ([40] ++ [49; 49; 50; 51] ++ [41]). constructor.
    assert (T : forall b, derives (rule_of g) [Terminal b] b) by (intro b; rewrite <- (app_nil_r b) at 2; repeat constructor).
    assert (T3 : derives (rule_of g) [NonTerminal 3] [49]) by (apply derives_name; eauto).
    econstructor; [exact A| |apply T].
    change [49; 49; 50; 51] with ([49] ++ [49; 50; 51]). apply (derives_app _ [NonTerminal 3] [49] [NonTerminal 2]); [exact T3|].
    apply derives_name. exists [NonTerminal 3; NonTerminal 2]. split; [exact A|].
    change [49; 50; 51] with ([49] ++ [50; 51]). apply (derives_app _ [NonTerminal 3] [49] [NonTerminal 2]); [exact T3|].
    apply derives_name. eauto. }
  assert (RR : forall n body (g : grammar), existsb (fun q => (fst q =? n) && existsb (fun r => seq_eqb (sequence r) body) (rules (snd q))) (productions g) = true -> rule_of g n body).
  { intros n body g H. apply existsb_exists in H. destruct H as ([k p] & A & B). apply andb_true_iff in B. destruct B as [B C].
    apply N.eqb_eq in B. apply existsb_exists in C. destruct C as (r & C & D). apply seq_eqb_eq in D. cbn in *. subst. exists p, r. auto. }
  split; [apply RR; vm_compute; reflexivity|]. split; [apply RR; vm_compute; reflexivity|].
  apply R2; apply RR; vm_compute; reflexivity.
Qed.

(** C75.  The first loop of simplify (inlining productions with one rule) does not change what
    any remaining production derives, for every grammar object in order whose productions all
    derive something; no production marked as not removable is lost. *)
Theorem C75_inline : forall g, in_order g -> productive g ->
  exists g' m, trivial_loop g false (map fst (productions g)) = Ok (g', m) /\ in_order g' /\
    (forall n p, In (n, p) (productions g) -> removable p = false -> In n (map fst (productions g'))) /\
    (forall n w, In n (map fst (productions g')) -> (language g n w <-> language g' n w)).
Proof.
  intros g I Hp. destruct (trivial_loop_ok (names g) g false I Hp (io_names g I) (fun n H => H)) as (g1 & m1 & E1 & I1 & _ & _ & _ & S1 & D1 & _).
  exists g1, m1. split; [exact E1|]. split; [exact I1|]. split; [exact S1|exact D1].
Qed.
Print Assumptions C75_inline.
(** The whole of simplify does not, provided that each removable production has one rule or has
    a terminal in each of its rules.  (Missing: grammars with other productions, for which it is
    false, see below.) *)
Theorem C75_simplify_partial : forall fuel g, in_order g -> productive g -> fresh g ->
  (forall n p, In (n, p) (productions g) -> removable p = true ->
     (length (rules p) <= 1)%nat \/ forall r, In r (rules p) -> has_terminal (sequence r)) ->
  (length (productions g) <= fuel)%nat ->
  exists g' m, grammar_simplify fuel g = Ok (g', m) /\ in_order g' /\
    (forall n p, In (n, p) (productions g) -> removable p = false -> In n (map fst (productions g'))) /\
    (forall n w, In n (map fst (productions g')) -> (language g n w <-> language g' n w)).
Proof. exact simplify_ok. Qed.
Print Assumptions C75_simplify_partial.
(** Nor does it for any grammar whose second loop drops no production. *)
Theorem C75_kept_partial : forall fuel g g' m, in_order g -> productive g -> grammar_simplify fuel g = Ok (g', m) ->
  (forall g1 m1, trivial_loop g false (map fst (productions g)) = Ok (g1, m1) ->
     forall n, In n (map fst (productions g1)) -> In n (map fst (productions g'))) ->
  in_order g' /\ forall n w, In n (map fst (productions g')) -> (language g n w <-> language g' n w).
Proof. exact simplify_kept. Qed.
Print Assumptions C75_kept_partial.
(** In particular the simplified grammar of a tree still accepts the same inputs. *)
Theorem C75_extracted_partial : forall fuel t g, input_tree t -> (tree_size t <= fuel)%nat ->
  parse_tree_to_grammar fuel t = Ok g ->
  (forall n p, In (n, p) (productions g) -> n <> START ->
     (length (rules p) <= 1)%nat \/ forall r, In r (rules p) -> has_terminal (sequence r)) ->
  exists fuel' g' m, grammar_simplify fuel' g = Ok (g', m) /\
    (forall w, accepts g w <-> accepts g' w) /\ accepts g' (yield t).
Proof.
  intros fuel t g Ht Hf Hg Hq. destruct (C74_in_order fuel t g Ht Hf Hg) as (I & Hp & Fr).
  destruct (extract_ok fuel t Ht Hf) as (g1 & E & B & Nm & R). rewrite E in Hg. inversion Hg; subst g1.
  destruct (C75_simplify_partial (length (productions g)) g I Hp Fr) as (g' & m & E' & I' & K & L).
  { intros n p A C. apply (Hq n p A). intros ->. rewrite (b_removable not_start g B _ _ A) in C. discriminate. }
  { lia. }
  assert (S : In START (map fst (productions g'))).
  { assert (Sg : In START (names g)) by (apply Nm; exists t; split; [constructor|inversion Ht; reflexivity]).
    destruct (get_prod_names g START Sg) as (p & _ & Hp'). apply (K START p Hp'). rewrite (b_removable not_start g B _ _ Hp'). reflexivity. }
  exists (length (productions g)), g', m. split; [exact E'|]. split; [intro w; apply L; assumption|].
  apply (L START (yield t) S). destruct (C74_extract fuel t Ht Hf) as (_ & g2 & E2 & A). rewrite E in E2. inversion E2; subst. assumption.
Qed.
Print Assumptions C75_extracted_partial.

(** A grammar that meets the conditions: [demo_tree2], where digits [2] reads a byte itself. *)
Definition demo_tree2 : tree :=
  Node VStart [Node (VEvent 1 false)
    [leaf [40]; Node (VEvent 2 false) [leaf [49]; Node (VEvent 2 false) [Node (VEvent 3 true) [leaf [50]]; leaf [51]]]; leaf [41]]].
Example C75_case : input_tree demo_tree2 /\
  exists g g', parse_tree_to_grammar 10 demo_tree2 = Ok g /\ grammar_simplify 10 g = Ok (g', true) /\
    (forall n p, In (n, p) (productions g) -> n <> START ->
       (length (rules p) <= 1)%nat \/ forall r, In r (rules p) -> has_terminal (sequence r)) /\
    map fst (productions g) = [0; 1; 2; 3] /\ map fst (productions g') = [0; 2].
Proof.
  split; [repeat (constructor; try discriminate)|].
  eexists _, _. split; [vm_compute; reflexivity|]. split; [vm_compute; reflexivity|].
  split; [|split; reflexivity].
  intros n p H Hn. cbn in H. repeat (destruct H as [H|H]; [inversion H; subst; clear H|]); try contradiction.
  - left. cbn. lia.
  - right. intros r A. cbn in A. destruct A as [<-|[<-|[]]]; eexists; [left|right; left]; reflexivity.
  - left. cbn. lia.
Qed.

(** And one that only C75_kept_partial covers: in [demo_tree] the production digits has the rule
    [NonTerminal 3; NonTerminal 2] without a terminal, and the second loop drops nothing. *)
Example C75_kept_case : exists g g' g1, parse_tree_to_grammar 10 demo_tree = Ok g /\ in_order g /\ productive g /\
  grammar_simplify 10 g = Ok (g', true) /\ trivial_loop g false (map fst (productions g)) = Ok (g1, true) /\
  map fst (productions g1) = [0; 2] /\ map fst (productions g') = [0; 2] /\
  rule_of g' 2 [Terminal [49]; NonTerminal 2] /\ ~ has_terminal [NonTerminal 3; NonTerminal 2].
Proof.
  destruct (C74_extract 10 demo_tree demo_tree_ok) as (_ & g & E & A); [cbn; lia|].
  destruct (C74_in_order 10 demo_tree g demo_tree_ok) as (I & P & _); [cbn; lia|exact E|].
  exists g. eexists _, _. split; [exact E|]. split; [exact I|]. split; [exact P|]. clear I P A. vm_compute in E. inversion E; subst g. clear E.
  split; [vm_compute; reflexivity|]. split; [vm_compute; reflexivity|]. split; [reflexivity|]. split; [reflexivity|]. split.
  - eexists _, _. split; [right; left; reflexivity|]. split; [left; reflexivity|reflexivity].
  - intros (b & [H|[H|[]]]); discriminate.
Qed.

(** Refuted in general, even for grammars of trees: whether a rule has a terminal is noted when
    the rule is made, and not again when a name in it is replaced by a terminal, so that a
    production may be dropped as empty although it is not.  Here a function [1] reads "x" in
    block [2] or "y" in block [3]: the simplified grammar accepts nothing at all. *)
Definition two_ways : tree :=
  Node VStart [Node (VEvent 1 false) [Node (VEvent 2 false) [leaf [120]]];
               Node (VEvent 1 false) [Node (VEvent 3 false) [leaf [121]]]].
Theorem C75_flag_refuted : exists g g', input_tree two_ways /\
  parse_tree_to_grammar 10 two_ways = Ok g /\ grammar_simplify 10 g = Ok (g', true) /\
  accepts g (yield two_ways) /\ forall w, ~ accepts g' w.
Proof.
  assert (I : input_tree two_ways) by (repeat (constructor; try discriminate)).
  destruct (C74_extract 10 two_ways I) as (_ & g & E & A); [cbn; lia|].
  exists g. eexists. split; [exact I|]. split; [exact E|]. vm_compute in E. inversion E; subst g. clear E.
  split; [vm_compute; reflexivity|]. split; [exact A|].
  intros w H. apply derives_name in H. destruct H as (body & (p & r & B & C & _) & _).
  cbn in B. destruct B as [B|[]]. inversion B; subst. destruct C.
Qed.
Print Assumptions C75_flag_refuted.
(** With a byte next to it the simplified grammar accepts something else instead. *)
Definition two_ways_after : tree :=
  Node VStart [leaf [97]; Node (VEvent 1 false) [Node (VEvent 2 false) [leaf [120]]];
               Node (VEvent 1 false) [Node (VEvent 3 false) [leaf [121]]]].
Theorem C75_other_words_refuted : exists g g', input_tree two_ways_after /\
  parse_tree_to_grammar 10 two_ways_after = Ok g /\ grammar_simplify 10 g = Ok (g', true) /\
  accepts g' [97] /\ ~ accepts g [97].
Proof.
  assert (I : input_tree two_ways_after) by (repeat (constructor; try discriminate)).
  eexists _, _. split; [exact I|]. split; [vm_compute; reflexivity|]. split; [vm_compute; reflexivity|]. split.
  - apply derives_name. exists [Terminal [97]]. split.
    + eexists _, _. split; [left; reflexivity|]. split; [left; reflexivity|reflexivity].
    + exact (derives_terminal _ [97] [] [] (derives_nil _)).
  - intro H. apply derives_name in H. destruct H as (body & (p & r & B & C & <-) & D).
    cbn in B. repeat (destruct B as [B|B]; [inversion B; subst; clear B|]); try contradiction.
    destruct C as [<-|[]]. cbn [sequence] in D. apply derives_terminal_inv in D. destruct D as (v & E & D).
    inversion E. subst v. apply derives_name_inv in D. destruct D as (body & v & v' & E1 & HR & HB & _).
    symmetry in E1. apply app_eq_nil in E1. destruct E1 as [-> _].
    destruct HR as (p & r & B & C & <-). cbn in B. repeat (destruct B as [B|B]; [inversion B; subst; clear B|]); try contradiction.
    destruct C as [<-|[<-|[]]]; cbn [sequence] in HB; apply derives_name in HB; destruct HB as (body & (p & r & B & C & <-) & D);
      cbn in B; repeat (destruct B as [B|B]; [inversion B; subst; clear B|]); try contradiction;
      destruct C as [<-|[]]; cbn [sequence] in D; apply derives_terminal_inv in D; destruct D as (v & D & _); discriminate.
Qed.
Print Assumptions C75_other_words_refuted.

(** Grammars not extracted from a tree.  A rule that calls its own production among other things
    is replaced by itself and then cut: with START ::= A | "b" and A ::= "x" A "y", which derives
    nothing, the simplified grammar accepts "xy". *)
Definition fresh_prod (bodies : list (list symbol)) (rem : bool) : production := mkProd (map rule_new bodies) rem None.
Definition recursive_grammar : grammar :=
  mkGrammar [(0, fresh_prod [[NonTerminal 1]; [Terminal [98]]] false);
             (1, fresh_prod [[Terminal [120]; NonTerminal 1; Terminal [121]]] true)]
            (fun n => if n =? 1 then [0; 1] else []).
Theorem C75_recursive_refuted : exists g' m,
  in_order recursive_grammar /\ fresh recursive_grammar /\
  grammar_simplify 10 recursive_grammar = Ok (g', m) /\
  accepts g' [120; 121] /\ ~ accepts recursive_grammar [120; 121].
Proof.
  eexists _, _. split; [|split; [|split; [vm_compute; reflexivity|split]]].
  - assert (Rl : forall n body, rule_of recursive_grammar n body ->
      (n = 0 /\ (body = [NonTerminal 1] \/ body = [Terminal [98]])) \/ (n = 1 /\ body = [Terminal [120]; NonTerminal 1; Terminal [121]])).
    { intros n body (p & r & A & B & <-). cbn in A. repeat (destruct A as [A|A]; [inversion A; subst; clear A|]); try contradiction;
        cbn in B; repeat (destruct B as [<-|B]); try contradiction; auto. }
    constructor.
    + repeat constructor; cbn; intuition discriminate.
    + intros n body m A B. apply Rl in A. destruct A as [[-> [->| ->]]|[-> ->]]; cbn in B; repeat (destruct B as [B|B]; [try discriminate; inversion B; subst|]); try contradiction; cbn; auto.
    + intros n body m A B. apply Rl in A. destruct A as [[-> [->| ->]]|[-> ->]]; cbn in B; repeat (destruct B as [B|B]; [try discriminate; inversion B; subst|]); try contradiction; cbn; auto.
    + intros n k A. change (used_by recursive_grammar k) with (if k =? 1 then [0; 1] else []) in A.
      destruct (k =? 1); [|contradiction]. cbn in *. tauto.
    + intros n k A B. change (used_by recursive_grammar k) with (if k =? 1 then [0; 1] else []) in A.
      destruct (k =? 1) eqn:Ek; [|contradiction]. apply N.eqb_eq in Ek. subst k.
      destruct A as [<-|[<-|[]]]; [|congruence]. exists [NonTerminal 1]. split; [|left; reflexivity].
      eexists _, _. split; [left; reflexivity|]. split; [left; reflexivity|reflexivity].
    + intro k. change (used_by recursive_grammar k) with (if k =? 1 then [0; 1] else []). destruct (k =? 1); repeat constructor; cbn; intuition discriminate.
    + intros n p A. cbn in A. repeat (destruct A as [A|A]; [inversion A; subst; clear A|]); try contradiction; cbn; repeat constructor; cbn; intuition discriminate.
  - intros n p A. cbn in A. repeat (destruct A as [A|A]; [inversion A; subst; clear A|]); try contradiction;
      (split; [reflexivity|]); intros r B; cbn in B; repeat (destruct B as [<-|B]); try contradiction; apply rule_new_flag.
  - apply derives_name. exists [Terminal [120; 121]]. split.
    + eexists _, _. split; [left; reflexivity|]. split; [left; reflexivity|reflexivity].
    + exact (derives_terminal _ [120; 121] [] [] (derives_nil _)).
  - intro H. assert (E : forall s w, derives (rule_of recursive_grammar) s w -> ~ In (NonTerminal 1) s).
    { apply recursive_empty with [Terminal [120]; NonTerminal 1; Terminal [121]]; [|cbn; auto].
      intros body (p & r & A & B & <-). cbn in A. repeat (destruct A as [A|A]; [inversion A; subst; clear A|]); try contradiction.
      destruct B as [<-|[]]. reflexivity. }
    apply derives_name in H. destruct H as (body & (p & r & A & B & <-) & D).
    cbn in A. repeat (destruct A as [A|A]; [inversion A; subst; clear A|]); try contradiction.
    destruct B as [<-|[<-|[]]]; cbn [rule_new sequence] in D.
    + apply (E _ _ D). left. reflexivity.
    + apply derives_terminal_inv in D. destruct D as (v & D & _). discriminate.
Qed.
Print Assumptions C75_recursive_refuted.
