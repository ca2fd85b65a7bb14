(** Specification: context-free grammars and parse trees. *)
From Coq Require Import NArith List Bool.
From Verif Require Import M_Base M_PyGrammar.
Import ListNotations.
Open Scope N_scope.

(** [seq] derives the bytes [w], where [R n body] says that [n ::= body] is a rule. *)
Inductive derives (R : N -> list symbol -> Prop) : list symbol -> list N -> Prop :=
| derives_nil : derives R [] []
| derives_terminal : forall b seq w, derives R seq w -> derives R (Terminal b :: seq) (b ++ w)
| derives_nonterminal : forall n body seq v w,
    R n body -> derives R body v -> derives R seq w -> derives R (NonTerminal n :: seq) (v ++ w).

(** [n ::= body] is a rule of the grammar object [g]. *)
Definition rule_of (g : grammar) (n : N) (body : list symbol) : Prop :=
  exists p r, In (n, p) (productions g) /\ In r (rules p) /\ sequence r = body.
(** The language of the production [n] of [g], and that of [g]. *)
Definition language (g : grammar) (n : N) (w : list N) : Prop := derives (rule_of g) [NonTerminal n] w.
Definition accepts (g : grammar) (w : list N) : Prop := language g START w.

(** The bytes at the leaves of a tree, from left to right. *)
Fixpoint yield (t : tree) : list N :=
  let 'Node v cs := t in
  match v with
  | VTerminal b => b
  | _ => concat (map yield cs)
  end.
(** A tree of a parse: events inside, bytes at the leaves; Start is the root. *)
Inductive event_tree : tree -> Prop :=
| event_terminal : forall b, event_tree (Node (VTerminal b) [])
| event_node : forall n bb cs, cs <> [] -> Forall event_tree cs -> event_tree (Node (VEvent n bb) cs).
Inductive input_tree : tree -> Prop :=
| input_start : forall cs, cs <> [] -> Forall event_tree cs -> input_tree (Node VStart cs).

(** The number of nodes. *)
Fixpoint tree_size (t : tree) : nat := let 'Node _ cs := t in S (list_sum (map tree_size cs)).

(** [u] is a node of [t]. *)
Inductive node_of : tree -> tree -> Prop :=
| node_root : forall t, node_of t t
| node_child : forall u v c cs, In c cs -> node_of u c -> node_of u (Node v cs).
(** What a node contributes to a grammar: its name and its children. *)
Definition symbol_of (t : tree) : list symbol :=
  match value_of t with
  | VTerminal b => [Terminal b]
  | VEvent n _ => [NonTerminal n]
  | VStart => [NonTerminal START]
  end.

(** A grammar object in order: names and rules occur once, the bodies name productions, and
    the table used_by lists, for each production, the productions that use it. *)
Record in_order (g : grammar) : Prop := {
  io_names : NoDup (map fst (productions g));
  io_closed : forall n body m, rule_of g n body -> In (NonTerminal m) body -> In m (map fst (productions g));
  io_used : forall n body m, rule_of g n body -> In (NonTerminal m) body -> In n (used_by g m);
  io_users : forall n m, In n (used_by g m) -> In n (map fst (productions g));
  io_exact : forall n m, In n (used_by g m) -> n <> m -> exists body, rule_of g n body /\ In (NonTerminal m) body;
  io_set : forall m, NoDup (used_by g m);
  io_rules : forall n p, In (n, p) (productions g) -> NoDup (map sequence (rules p));
}.
(** Every production derives something. *)
Definition productive (g : grammar) : Prop :=
  forall n, In n (map fst (productions g)) -> exists w, language g n w.

(** A grammar on which nothing has been computed yet: the flag of each rule says whether its
    body has a terminal, and no production remembers whether it can produce one. *)
Definition has_terminal (body : list symbol) : Prop := exists b, In (Terminal b) body.
Definition fresh (g : grammar) : Prop :=
  forall n p, In (n, p) (productions g) ->
    cpt p = None /\ forall r, In r (rules p) -> (has_terminals r = true <-> has_terminal (sequence r)).
