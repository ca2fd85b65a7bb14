(** Specification: grammars for the parser, beside the derivations of S_Grammar. *)
From Coq Require Import NArith List.
From Verif Require Import M_Base M_PyGrammar S_Grammar.
Import ListNotations.
Open Scope N_scope.

(** Two names with the same rules. *)
Definition same_rules (g : grammar) (n m : N) : Prop := forall body, rule_of g n body <-> rule_of g m body.
(** No two productions have the same rules. *)
Definition distinct_productions (g : grammar) : Prop :=
  forall n m, In n (map fst (productions g)) -> In m (map fst (productions g)) -> same_rules g n m -> n = m.
(** The start, and what has the same rules, is not used in rules. *)
Definition start_unused (g : grammar) : Prop :=
  forall n body m, rule_of g n body -> In (NonTerminal m) body -> ~ same_rules g m START.
(** Every production derives some bytes other than the empty string. *)
Definition produces_bytes (g : grammar) : Prop :=
  forall n, In n (map fst (productions g)) -> exists w, w <> [] /\ language g n w.
(** No rule is empty, and no string of bytes in a rule is. *)
Definition nonempty_rules (g : grammar) : Prop :=
  forall n body, rule_of g n body -> body <> [] /\ ~ In (Terminal []) body.
(** The leaves of a tree are not empty. *)
Definition nonempty_leaves (t : tree) : Prop := ~ node_of (Node (VTerminal []) []) t.
