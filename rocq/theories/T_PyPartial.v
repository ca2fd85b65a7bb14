(** C111: partial parse trees of a fragment. *)
From Coq Require Import NArith List Bool Arith Lia.
From Verif Require Import M_Base M_PyGrammar S_Grammar M_PyPartial S_Partial P_Base P_Grammar P_Partial.
Import ListNotations.
Open Scope N_scope.

(** If the children of the trees could be assigned: for every grammar and every fragment
    the search finds exactly the trees that spell the fragment and stop at its last byte,
    and the complete trees of what comes before the rest of the fragment.  Missing for the
    full claim: as the code is, the assignment raises, see below. *)
Theorem C111_trees_partial : forall g fuel depth s ts, names_once g -> all_have_rules g -> s <> [] ->
  find_partial_trees_with true g fuel depth s = Ok ts ->
  forall t, In t ts <->
    (partial_tree g START t /\ pyield t = s) \/
    (full_tree g START t /\ exists rest, rest <> [] /\ s = pyield t ++ rest).
Proof.
  intros g fuel depth s ts NO AR Hs E t. unfold find_partial_trees_with in E.
  apply bind_ok in E. destruct E as (ms & E & Q). inversion Q; subst. clear Q.
  destruct (partial_match_spec g fuel NO AR depth START s ms Hs E) as [A B]. rewrite in_map_iff. split.
  - intros ([[t' rs] r] & <- & I). cbn [fst]. destruct (A _ _ _ I) as [[(_ & P & Y)|(K & F & Y)] _]; eauto.
  - intros [(P & Y)|(F & r & K & Y)].
    + destruct (B t []) as (rs & I); [left; auto|]. exists (t, rs, []). auto.
    + destruct (B t r) as (rs & I); [right; auto|]. exists (t, rs, r). auto.
Qed.
Print Assumptions C111_trees_partial.

(** Every accepted input has such a tree. *)
Theorem C111_accepted_partial : forall g fuel depth s ts, names_once g -> all_have_rules g -> s <> [] ->
  find_partial_trees_with true g fuel depth s = Ok ts -> accepts g s ->
  exists t, In t ts /\ pyield t = s.
Proof.
  intros g fuel depth s ts NO AR Hs E Ac. apply derives_fulls in Ac. destruct Ac as (us & F & Y).
  destruct (fulls_parts g _ us F) as (vs & P & Y'); [congruence|].
  assert (V : exists t, vs = [t] /\ partial_tree g START t).
  { inversion P as [|n body cs rest R Q|s0 rest t0 ts0 Q1 Q2]; subst.
    - eexists. split; [reflexivity|exact P].
    - inversion Q2. }
  destruct V as (t & -> & Pt). exists t. rewrite pyields_one in Y'. split; [|congruence].
  apply (C111_trees_partial g fuel depth s ts NO AR Hs E). left. split; [assumption|congruence].
Qed.
Print Assumptions C111_accepted_partial.

(** A tree that spells the fragment shows how it goes on to an accepted input. *)
Theorem C111_extends_partial : forall g fuel depth s ts t, names_once g -> all_have_rules g -> s <> [] ->
  names_known g -> productive g ->
  find_partial_trees_with true g fuel depth s = Ok ts -> In t ts -> pyield t = s ->
  exists w, accepts g (s ++ w).
Proof.
  intros g fuel depth s ts t NO AR Hs NK Pr E I Y.
  apply (C111_trees_partial g fuel depth s ts NO AR Hs E) in I. destruct I as [(P & _)|(_ & r & K & Q)].
  - assert (Hn : In START (map fst (productions g))).
    { destruct (partial_inv _ _ _ P) as (body & cs & R & _). now apply rule_of_names in R. }
    destruct (parts_extend g _ _ P) as (w & D).
    + intros n body m R J. apply Pr. eapply NK; eauto.
    + intros m [J|[]]. inversion J; subst. now apply Pr.
    + exists w. rewrite pyields_one, Y in D. exact D.
  - exfalso. rewrite Y in Q. rewrite <- (app_nil_r s) in Q at 1. apply app_inv_head in Q. congruence.
Qed.
Print Assumptions C111_extends_partial.

(** The search ends on every fragment, whatever limits above a certain one are given to
    it, if no production comes first in itself. *)
Theorem C111_ends_partial : forall g s, names_once g -> names_known g -> all_have_rules g ->
  no_left_recursion g -> In START (map fst (productions g)) ->
  exists enough ts, forall limit, (enough <= limit)%nat -> find_partial_trees_with true g limit limit s = Ok ts.
Proof.
  intros g s NO NK AR NL Hs. destruct (search_ends g NO NK AR NL s START Hs) as (f & l & E).
  exists f, (map (fun m => fst (fst m)) l). intros limit Hl. unfold find_partial_trees_with.
  now rewrite (partial_match_mono true g f limit f limit START s l Hl Hl E).
Qed.
Print Assumptions C111_ends_partial.

(** For the empty fragment there is one tree, the start production alone; as the code is. *)
Theorem C111_empty_fragment : forall g fuel depth, In START (map fst (productions g)) ->
  find_partial_trees g fuel (S depth) [] = Ok [PNode (PProduction START) []].
Proof.
  intros g fuel depth H. destruct (get_prod_names g START H) as (p & G & _).
  unfold find_partial_trees, find_partial_trees_with. cbn [partial_match]. rewrite G. cbn [bind is_nil].
  now rewrite orb_true_r.
Qed.
Print Assumptions C111_empty_fragment.

(** Refuted: as the code is, no tree is ever found.  A call that returns has found nothing
    because there is nothing; whenever there is a tree, the call raises. *)
Theorem C111_raises_refuted : forall g fuel depth s, names_once g -> all_have_rules g -> s <> [] ->
  (forall ts, find_partial_trees g fuel depth s = Ok ts -> ts = []) /\
  (forall t, partial_tree g START t -> pyield t = s -> forall ts, find_partial_trees g fuel depth s <> Ok ts) /\
  (accepts g s -> forall ts, find_partial_trees g fuel depth s <> Ok ts).
Proof.
  intros g fuel depth s NO AR Hs.
  assert (X : forall ts, find_partial_trees g fuel depth s = Ok ts ->
            ts = [] /\ find_partial_trees_with true g fuel depth s = Ok []).
  { intros ts E. unfold find_partial_trees, children_assignable, find_partial_trees_with in *.
    apply bind_ok in E. destruct E as (ms & E & Q). destruct (partial_match_sim g fuel depth START s ms E) as [E' N].
    rewrite (N AR Hs) in *. rewrite E'. inversion Q; subst. auto. }
  split; [|split].
  - intros ts E. now apply X.
  - intros t P Y ts E. destruct (X ts E) as [_ E'].
    apply (C111_trees_partial g fuel depth s [] NO AR Hs E' t). auto.
  - intros Ac ts E. destruct (X ts E) as [_ E'].
    destruct (C111_accepted_partial g fuel depth s [] NO AR Hs E' Ac) as (t & [] & _).
Qed.
Print Assumptions C111_raises_refuted.

(** Grammars as lists of rules. *)
Definition gram (ps : list (N * list (list symbol))) : grammar :=
  mkGrammar (map (fun q => (fst q, mkProd (map rule_new (snd q)) true None)) ps) (fun _ => []).

(** START ::= A "c" | A A;  A ::= "a" B | "";  B ::= "b". *)
Definition example_grammar : grammar := gram
  [(0, [[NonTerminal 1; Terminal [99]]; [NonTerminal 1; NonTerminal 1]]);
   (1, [[Terminal [97]; NonTerminal 2]; []]); (2, [[Terminal [98]]])].

Lemma example_rules n body : rule_of example_grammar n body <->
  (n = 0 /\ (body = [NonTerminal 1; Terminal [99]] \/ body = [NonTerminal 1; NonTerminal 1])) \/
  (n = 1 /\ (body = [Terminal [97]; NonTerminal 2] \/ body = [])) \/ (n = 2 /\ body = [Terminal [98]]).
Proof.
  split.
  - intros (p & r & A & B & <-). cbn in A.
    destruct A as [A|[A|[A|[]]]]; inversion A; subst; cbn in B; repeat (destruct B as [<-|B]); try contradiction; auto 6.
  - intros [[-> [->| ->]]|[[-> [->| ->]]|[-> ->]]]; eexists _, _.
    + split; [left; reflexivity|]. split; [left; reflexivity|reflexivity].
    + split; [left; reflexivity|]. split; [right; left; reflexivity|reflexivity].
    + split; [right; left; reflexivity|]. split; [left; reflexivity|reflexivity].
    + split; [right; left; reflexivity|]. split; [right; left; reflexivity|reflexivity].
    + split; [right; right; left; reflexivity|]. split; [left; reflexivity|reflexivity].
Qed.

Example C111_case : names_once example_grammar /\ names_known example_grammar /\ all_have_rules example_grammar /\
  no_left_recursion example_grammar /\ In START (map fst (productions example_grammar)) /\
  accepts example_grammar [97; 98; 99] /\
  exists ts, find_partial_trees_with true example_grammar 9 9 [97; 98; 97] = Ok ts /\ length ts = 4%nat /\
    length (filter (fun t => blist_eqb (pyield t) [97; 98; 97]) ts) = 1%nat.
Proof.
  split; [repeat constructor; cbn; intuition discriminate|]. split.
  { intros n body m A B. apply example_rules in A.
    destruct A as [[-> [->| ->]]|[[-> [->| ->]]|[-> ->]]]; cbn in B; repeat (destruct B as [B|B]; [inversion B; subst; cbn; auto|]); contradiction. }
  split; [intros n p A; cbn in A; destruct A as [A|[A|[A|[]]]]; inversion A; subst; discriminate|]. split.
  { exists (fun n => N.to_nat (2 - n)). intros n m (pre & post & A & _). apply example_rules in A.
    destruct A as [[-> [A|A]]|[[-> [A|A]]|[-> A]]];
      repeat (destruct pre as [|? pre]; cbn in A; inversion A; subst; cbn; try lia; clear A; rename H1 into A || idtac; try discriminate). }
  split; [cbn; auto|]. split.
  { apply derives_name. exists [NonTerminal 1; Terminal [99]]. split; [apply example_rules; auto|].
    apply (derives_nonterminal _ 1 [Terminal [97]; NonTerminal 2] [Terminal [99]] [97; 98] [99]).
    - apply example_rules. auto 6.
    - apply (derives_terminal _ [97]). apply (derives_nonterminal _ 2 [Terminal [98]] [] [98] []).
      + apply example_rules. auto 6.
      + apply (derives_terminal _ [98] [] []). constructor.
      + constructor.
    - apply (derives_terminal _ [99] [] []). constructor. }
  eexists. split; [vm_compute; reflexivity|]. split; reflexivity.
Qed.

(** Refuted: a tree is enumerated although no accepted input starts with the fragment. *)
Theorem C111_rest_refuted : exists g s t ts, names_once g /\ all_have_rules g /\ s <> [] /\
  find_partial_trees_with true g 9 9 s = Ok ts /\ In t ts /\ forall w, ~ accepts g (s ++ w).
Proof.
  exists (gram [(0, [[Terminal [97]]])]), [97; 98]. eexists. eexists.
  split; [repeat constructor; intros []|].
  split; [intros n p A; cbn in A; destruct A as [A|[]]; inversion A; subst; discriminate|].
  split; [discriminate|]. split; [vm_compute; reflexivity|]. split; [left; reflexivity|].
  intros w Ac. apply derives_name in Ac. destruct Ac as (body & (p & r & A & B & <-) & D).
  cbn in A. destruct A as [A|[]]. inversion A; subst. cbn in B. destruct B as [<-|[]]. cbn in D.
  apply derives_terminal_inv in D. destruct D as (v & Q & D). cbn in Q. inversion Q; subst. inversion D.
Qed.
Print Assumptions C111_rest_refuted.

(** Refuted: nothing is found for a fragment that ends inside of a terminal. *)
Theorem C111_inside_terminal_refuted : exists g s w, names_once g /\ all_have_rules g /\ s <> [] /\
  accepts g (s ++ w) /\ find_partial_trees_with true g 9 9 s = Ok [].
Proof.
  exists (gram [(0, [[Terminal [97; 98]]])]), [97], [98].
  split; [repeat constructor; intros []|].
  split; [intros n p A; cbn in A; destruct A as [A|[]]; inversion A; subst; discriminate|].
  split; [discriminate|]. split; [|vm_compute; reflexivity].
  apply derives_name. exists [Terminal [97; 98]]. split.
  - eexists _, _. split; [left; reflexivity|]. split; [left; reflexivity|reflexivity].
  - apply (derives_terminal _ [97; 98] [] []). constructor.
Qed.
Print Assumptions C111_inside_terminal_refuted.

(** Refuted: with left recursion the search does not end, on any fragment. *)
Definition left_recursive : grammar := gram [(0, [[NonTerminal 0; Terminal [97]]; [Terminal [97]]])].
Theorem C111_left_recursion_refuted : accepts left_recursive [97] /\
  forall fuel depth s, s <> [] -> find_partial_trees_with true left_recursive fuel depth s = Fuel.
Proof.
  split.
  { apply derives_name. exists [Terminal [97]]. split.
    - eexists _, _. split; [left; reflexivity|]. split; [right; left; reflexivity|reflexivity].
    - apply (derives_terminal _ [97] [] []). constructor. }
  intros fuel depth s Hs. unfold find_partial_trees_with.
  assert (X : partial_match true left_recursive fuel depth 0 s = Fuel).
  { induction depth as [|d IH]; [reflexivity|]. cbn [partial_match].
    change (get_prod left_recursive 0) with (Ok (mkProd (map rule_new [[NonTerminal 0; Terminal [97]]; [Terminal [97]]]) true None)).
    cbn [bind rules map is_nil orb]. apply is_nil_false in Hs. rewrite Hs. cbn [each_rule].
    change (sequence (rule_new [NonTerminal 0; Terminal [97]])) with [NonTerminal 0; Terminal [97]].
    destruct fuel as [|k]; [reflexivity|]. cbn [match_loop].
    destruct s as [|x s]; [discriminate|]. rewrite IH. reflexivity. }
  change START with 0. now rewrite X.
Qed.
Print Assumptions C111_left_recursion_refuted.
