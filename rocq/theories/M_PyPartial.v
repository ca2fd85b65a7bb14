(** Model of Grammar.find_partial_trees and Production.partial_match of
    polytracker/grammars.py.

    Simplifications: the generators are run to their end, a call that raises on the way
    is [Exit] as a whole; the rules of a production are visited in the order of the list
    (Python does not specify the order of a set). *)
From Coq Require Import NArith List Bool.
From Verif Require Import M_Base M_PyGrammar.
Import ListNotations.
Open Scope N_scope.

(** ParseTreeValue, grammars.py:407, and the trees of it, parsing.py:124-133. *)
Inductive pvalue : Type :=
| PProduction (name : N)
| PRule (body : list symbol)
| PTerminal (b : list N).
Inductive ptree : Type := PNode (v : pvalue) (cs : list ptree).

(** PartialMatch, grammars.py:410-421: tree, remaining_symbols, remaining_bytes. *)
Definition pmatch : Type := (ptree * list symbol * list N)%type.

(** Whether the attribute children of an ImmutableParseTree can be assigned: it is a
    property without a setter (parsing.py:131-133); only MutableParseTree has one
    (parsing.py:164-167). *)
Definition children_assignable : bool := false.

Definition is_nil {A} (l : list A) : bool := match l with [] => true | _ => false end.

(** bytes.startswith. *)
Definition starts_with (s p : list N) : bool := blist_eqb (firstn (length p) s) p.

(** make_tree, grammars.py:183-189, and the assignment of the children of the rule
    (201, 212, 239); an AttributeError if there is no setter. *)
Definition make_tree (setter : bool) (n : N) (body : list symbol) (trees : list ptree) : Res ptree :=
  if setter then Ok (PNode (PProduction n) [PNode (PRule body) trees]) else Exit.

(** An entry of the stack, grammars.py:191-193: remaining_bytes, trees,
    remaining_symbols. *)
Definition entry : Type := (list N * list ptree * list symbol)%type.

(** The loop over the matches of a nonterminal, grammars.py:231-255.  [rest] is
    remaining_symbols[1:]; len(remaining_symbols) < 2 says that it is empty.  Returns
    the matches yielded and the stack, top first. *)
Fixpoint each_match (setter : bool) (n : N) (body : list symbol) (trees : list ptree) (rest : list symbol)
    (ms : list pmatch) (stack : list entry) : Res (list pmatch * list entry) :=
  match ms with
  | [] => Ok ([], stack)
  | (t, mrs, mrb) :: ms' =>
      if is_nil mrb || (is_nil mrs && is_nil rest) then
        do r <- make_tree setter n body (trees ++ [t]);
        do p <- each_match setter n body trees rest ms' stack;
        Ok ((r, rest, mrb) :: fst p, snd p)
      else each_match setter n body trees rest ms' ((mrb, trees ++ [t], mrs ++ rest) :: stack)
  end.

(** The loop for one rule, grammars.py:194-255; [call] is partial_match of another
    production. *)
Fixpoint match_loop (setter : bool) (call : N -> list N -> Res (list pmatch)) (n : N) (body : list symbol)
    (fuel : nat) (stack : list entry) : Res (list pmatch) :=
  match stack with
  | [] => Ok []
  | (rb, trees, rs) :: st =>
      match fuel with
      | O => Fuel
      | S k =>
          match rs, rb with
          | [], _ | _, [] =>
              do t <- make_tree setter n body (if is_nil trees then [PNode (PTerminal []) []] else trees);
              do l <- match_loop setter call n body k st;
              Ok ((t, rs, rb) :: l)
          | Terminal b :: rest, _ =>
              if blist_eqb rb b then
                do t <- make_tree setter n body (trees ++ [PNode (PTerminal b) []]);
                do l <- match_loop setter call n body k st;
                Ok ((t, rest, []) :: l)
              else if starts_with rb b then
                match_loop setter call n body k
                  ((skipn (length b) rb, trees ++ [PNode (PTerminal b) []], rest) :: st)
              else match_loop setter call n body k st
          | NonTerminal m :: rest, _ =>
              do ms <- call m rb;
              do p <- each_match setter n body trees rest ms st;
              do l <- match_loop setter call n body k (snd p);
              Ok (fst p ++ l)
          end
      end
  end.

(** for rule in self.rules, grammars.py:181. *)
Fixpoint each_rule (f : list symbol -> Res (list pmatch)) (rs : list rule) : Res (list pmatch) :=
  match rs with
  | [] => Ok []
  | r :: rest => do l <- f (sequence r); do l' <- each_rule f rest; Ok (l ++ l')
  end.

(** Production.partial_match, grammars.py:172-255.  [depth] bounds the calls inside one
    another, [fuel] the passes of each loop. *)
Fixpoint partial_match (setter : bool) (g : grammar) (fuel depth : nat) (n : N) (s : list N) : Res (list pmatch) :=
  match depth with
  | O => Fuel
  | S d =>
      do p <- get_prod g n;
      if is_nil (rules p) || is_nil s then Ok [(PNode (PProduction n) [], [], s)]
      else each_rule (fun body => match_loop setter (partial_match setter g fuel d) n body fuel [(s, [], body)]) (rules p)
  end.

(** Grammar.find_partial_trees, grammars.py:994-1001, from the start production. *)
Definition find_partial_trees_with (setter : bool) (g : grammar) (fuel depth : nat) (s : list N) : Res (list ptree) :=
  do ms <- partial_match setter g fuel depth START s; Ok (map (fun m => fst (fst m)) ms).
Definition find_partial_trees := find_partial_trees_with children_assignable.
