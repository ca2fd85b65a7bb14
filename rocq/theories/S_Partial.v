(** Specification: parse trees of a grammar that are built from left to right and stop at
    the last byte of a fragment. *)
From Coq Require Import NArith List Bool.
From Verif Require Import M_Base M_PyGrammar S_Grammar M_PyPartial.
Import ListNotations.
Open Scope N_scope.

(** The leaf for bytes, and the tree of a production with one of its rules; a rule
    without children is shown with an empty leaf. *)
Definition leaf (b : list N) : ptree := PNode (PTerminal b) [].
Definition shown (cs : list ptree) : list ptree := match cs with [] => [leaf []] | _ => cs end.
Definition node (n : N) (body : list symbol) (cs : list ptree) : ptree :=
  PNode (PProduction n) [PNode (PRule body) (shown cs)].

(** The bytes at the leaves, from left to right. *)
Fixpoint pyield (t : ptree) : list N :=
  let 'PNode v cs := t in
  match v with
  | PTerminal b => b
  | _ => concat (map pyield cs)
  end.
Definition pyields (ts : list ptree) : list N := concat (map pyield ts).

(** Complete parse trees, one for each symbol of a sequence. *)
Inductive fulls (g : grammar) : list symbol -> list ptree -> Prop :=
| fulls_nil : fulls g [] []
| fulls_terminal : forall b rest ts, fulls g rest ts -> fulls g (Terminal b :: rest) (leaf b :: ts)
| fulls_production : forall n body cs rest ts,
    rule_of g n body -> fulls g body cs -> fulls g rest ts ->
    fulls g (NonTerminal n :: rest) (node n body cs :: ts).
Definition full_tree (g : grammar) (n : N) (t : ptree) : Prop := fulls g [NonTerminal n] [t].

(** Trees for the first symbols of a sequence: complete up to the last one, which is
    bytes or again such a tree; nothing is expanded after the last byte. *)
Inductive parts (g : grammar) : list symbol -> list ptree -> Prop :=
| parts_terminal : forall b rest, b <> [] -> parts g (Terminal b :: rest) [leaf b]
| parts_production : forall n body cs rest,
    rule_of g n body -> parts g body cs -> parts g (NonTerminal n :: rest) [node n body cs]
| parts_next : forall s rest t ts, fulls g [s] [t] -> parts g rest ts -> parts g (s :: rest) (t :: ts).
Definition partial_tree (g : grammar) (n : N) (t : ptree) : Prop := parts g [NonTerminal n] [t].

(** Names occur once, as the keys of a dict do, and rules name productions that exist. *)
Definition names_once (g : grammar) : Prop := NoDup (map fst (productions g)).
Definition names_known (g : grammar) : Prop :=
  forall n body m, rule_of g n body -> In (NonTerminal m) body -> In m (map fst (productions g)).
(** No production lacks rules. *)
Definition all_have_rules (g : grammar) : Prop :=
  forall n p, In (n, p) (productions g) -> rules p <> [].

(** Production [m] can come first in what is derived from [n]. *)
Definition comes_first (g : grammar) (n m : N) : Prop :=
  exists pre post, rule_of g n (pre ++ NonTerminal m :: post) /\ derives (rule_of g) pre [].
(** No production comes first in itself, however many steps between. *)
Definition no_left_recursion (g : grammar) : Prop :=
  exists rank : N -> nat, forall n m, comes_first g n m -> (rank m < rank n)%nat.
