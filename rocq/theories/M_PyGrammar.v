(** Model of polytracker/parsing.py (parse trees) and polytracker/grammars.py (grammars).

    Simplifications: names of productions are numbers (0 is "<START>"); a trace event is the
    name of its production and whether it is a BasicBlockEntry; a Python set is a list without
    duplicates in order of insertion (Python does not specify the order); progress bars are
    left out.  An exception is [Exit]. *)
From Coq Require Import NArith List Bool.
From Verif Require Import M_Base.
Import ListNotations.
Open Scope N_scope.

(** ** Parse trees, parsing.py *)
Definition START : N := 0.
(** Union[Start, TraceEvent, Terminal] (247-249, 218-222). *)
Inductive value : Type :=
| VStart
| VEvent (name : N) (basic_block : bool)
| VTerminal (b : list N).
(** ImmutableParseTree, 124-133. *)
Inductive tree : Type := Node (v : value) (cs : list tree).
Definition value_of (t : tree) : value := let 'Node v _ := t in v.
Definition children (t : tree) : list tree := let 'Node _ cs := t in cs.

(** ParseTree.preorder_traversal, 71-76: [stack] has its top first. *)
Fixpoint preorder_loop (fuel : nat) (stack : list tree) : Res (list tree) :=
  match stack with
  | [] => Ok []
  | t :: r =>
      match fuel with
      | O => Fuel
      | S f => do ts <- preorder_loop f (children t ++ r); Ok (t :: ts)
      end
  end.
Definition preorder (fuel : nat) (t : tree) : Res (list tree) := preorder_loop fuel [t].

(** ParseTree.is_leaf and leaves, 82-88. *)
Definition is_leaf (t : tree) : bool := match children t with [] => true | _ => false end.
Definition leaves (fuel : nat) (t : tree) : Res (list tree) := do ts <- preorder fuel t; Ok (filter is_leaf ts).

(** NonGeneralizedParseTree.terminals, 334-337 (the assertion), and matches, 339-340. *)
Fixpoint terminals (ls : list tree) : Res (list (list N)) :=
  match ls with
  | [] => Ok []
  | t :: r => match value_of t with VTerminal b => do bs <- terminals r; Ok (b :: bs) | _ => Exit end
  end.
Definition tree_matches (fuel : nat) (t : tree) : Res (list N) :=
  do ls <- leaves fuel t; do bs <- terminals ls; Ok (concat bs).

(** NonGeneralizedParseTree.simplify, 412-425.  The postorder traversal (60-69) reads the
    children of a node before the node is visited, and only the node visited is changed, so
    that the loop is a recursion over the tree. *)
Definition simplify_node (t : tree) : tree :=
  match t with
  | Node v [Node (VEvent n true) [c]] => Node v [c]
  | _ => t
  end.
Fixpoint tree_simplify (t : tree) : tree :=
  let 'Node v cs := t in simplify_node (Node v (map tree_simplify cs)).

(** ** Grammars, grammars.py *)
Inductive symbol : Type :=
| Terminal (b : list N)
| NonTerminal (name : N).
Fixpoint blist_eqb (a b : list N) : bool :=
  match a, b with
  | [], [] => true
  | x :: r, y :: s => (x =? y) && blist_eqb r s
  | _, _ => false
  end.
Definition symbol_eqb (a b : symbol) : bool :=
  match a, b with
  | Terminal x, Terminal y => blist_eqb x y
  | NonTerminal x, NonTerminal y => x =? y
  | _, _ => false
  end.
Fixpoint seq_eqb (a b : list symbol) : bool :=
  match a, b with
  | [], [] => true
  | x :: r, y :: s => symbol_eqb x y && seq_eqb r s
  | _, _ => false
  end.

(** Rule.combine_terminals, 60-71; the list built so far is reversed here. *)
Definition combine_step (seq : list symbol) (t : symbol) : list symbol :=
  match t, seq with
  | Terminal b, Terminal a :: r => Terminal (a ++ b) :: r
  | _, _ => t :: seq
  end.
Definition combine_terminals (sequence : list symbol) : list symbol := rev (fold_left combine_step sequence []).

(** Rule.__init__, 54-58.  has_terminals is computed here and never again. *)
Record rule : Type := mkRule { sequence : list symbol; has_terminals : bool }.
Definition is_terminal (s : symbol) : bool := match s with Terminal _ => true | NonTerminal _ => false end.
Definition rule_new (seq : list symbol) : rule :=
  let s := combine_terminals seq in mkRule s (existsb is_terminal s).
(** Rule.__eq__, 110-111 (and __hash__, 107-108): only the sequence. *)
Definition rule_eqb (a b : rule) : bool := seq_eqb (sequence a) (sequence b).

(** Rule.remove_sub_production, 79-84. *)
Definition is_name (name : N) (s : symbol) : bool := symbol_eqb s (NonTerminal name).
Definition rule_remove (name : N) (r : rule) : rule :=
  mkRule (combine_terminals (filter (fun s => negb (is_name name s)) (sequence r))) (has_terminals r).
(** Rule.replace_sub_production, 86-105, for a rule as the replacement. *)
Definition rule_replace (name : N) (by_ : list symbol) (r : rule) : bool * rule :=
  if existsb (is_name name) (sequence r)
  then (true, mkRule (combine_terminals (concat (map (fun s => if is_name name s then by_ else [s]) (sequence r)))) (has_terminals r))
  else (false, r).
Definition non_terminals (seq : list symbol) : list N :=
  concat (map (fun s => match s with NonTerminal n => [n] | Terminal _ => [] end) seq).

(** Production, 149-164: the rules, removable, _can_produce_terminal. *)
Record production : Type := mkProd { rules : list rule; removable : bool; cpt : option bool }.
(** Grammar, 982-986: productions is a dict, used_by a defaultdict(set). *)
Record grammar : Type := mkGrammar { productions : list (N * production); used_by : N -> list N }.
Definition grammar_new : grammar := mkGrammar [] (fun _ => []).

Fixpoint find_prod (ps : list (N * production)) (name : N) : option production :=
  match ps with
  | [] => None
  | (n, p) :: r => if n =? name then Some p else find_prod r name
  end.
(** Grammar.__getitem__, 1183-1184: a KeyError if it is missing. *)
Definition get_prod (g : grammar) (name : N) : Res production :=
  match find_prod (productions g) name with Some p => Ok p | None => Exit end.
Definition has_prod (g : grammar) (name : N) : bool :=
  match find_prod (productions g) name with Some _ => true | None => false end.
(** Assignment to an attribute of a production in place. *)
Definition put_prod (g : grammar) (name : N) (p : production) : grammar :=
  mkGrammar (map (fun q => if fst q =? name then (name, p) else q) (productions g)) (used_by g).

(** Sets of rules and of names. *)
Definition rule_in (r : rule) (l : list rule) : bool := existsb (rule_eqb r) l.
Definition add_rule (l : list rule) (r : rule) : list rule := if rule_in r l then l else l ++ [r].
Definition remove_rule (l : list rule) (r : rule) : list rule := filter (fun x => negb (rule_eqb r x)) l.
Definition name_in (n : N) (l : list N) : bool := existsb (N.eqb n) l.
Definition add_name (l : list N) (n : N) : list N := if name_in n l then l else l ++ [n].
Definition remove_name (l : list N) (n : N) : list N := filter (fun x => negb (x =? n)) l.
Definition upd_used (u : N -> list N) (k : N) (l : list N) : N -> list N := fun x => if x =? k then l else u x.
(** grammar.used_by[v].add(user) for every [v]. *)
Definition add_uses (u : N -> list N) (user : N) (vs : list N) : N -> list N :=
  fold_left (fun u v => upd_used u v (add_name (u v) user)) vs u.

(** Production.__init__ with one rule, 150-164. *)
Definition new_production (g : grammar) (name : N) (r : rule) (rem : bool) : Res grammar :=
  if has_prod g name then Exit
  else Ok (mkGrammar (productions g ++ [(name, mkProd [r] rem None)]) (add_uses (used_by g) name (non_terminals (sequence r)))).
(** Production.add, 356-365. *)
Definition prod_add (g : grammar) (name : N) (r : rule) : Res grammar :=
  do p <- get_prod g name;
  if rule_in r (rules p) then Ok g
  else
    let g1 := put_prod g name (mkProd (rules p ++ [r]) (removable p) (cpt p)) in
    Ok (mkGrammar (productions g1) (add_uses (used_by g1) name (non_terminals (sequence r)))).

(** production_name, 1193-1197; Start has no attribute function. *)
Definition production_name (v : value) : Res N := match v with VEvent n _ => Ok n | _ => Exit end.
(** The loop over the children in parse_tree_to_grammar, 1206-1211. *)
Fixpoint child_symbols (cs : list tree) : Res (list symbol) :=
  match cs with
  | [] => Ok []
  | c :: r =>
      do s <- match value_of c with
              | VTerminal b => Ok (Terminal b)
              | v => do n <- production_name v; Ok (NonTerminal n)
              end;
      do ss <- child_symbols r; Ok (s :: ss)
  end.
(** One round of the loop, 1203-1228. *)
Definition extract_node (g : grammar) (t : tree) : Res grammar :=
  match value_of t with
  | VTerminal _ => Ok g
  | v =>
      do ss <- child_symbols (children t);
      let r := rule_new ss in
      do name <- match v with VStart => Ok START | _ => production_name v end;
      if has_prod g name then
        do p <- get_prod g name;
        if rule_in r (rules p) then Ok g else prod_add g name r
      else new_production g name r (negb (name =? START))
  end.
Fixpoint extract_loop (g : grammar) (ts : list tree) : Res grammar :=
  match ts with
  | [] => Ok g
  | t :: r => do g1 <- extract_node g t; extract_loop g1 r
  end.
(** parse_tree_to_grammar, 1200-1231; the start production is the one named START. *)
Definition parse_tree_to_grammar (fuel : nat) (t : tree) : Res grammar :=
  do ts <- preorder fuel t;
  do g <- extract_loop grammar_new ts;
  do p <- get_prod g START;
  Ok g.

(** ** Grammar.simplify *)
(** Production.remove_recursive_rules, 255-261. *)
Definition is_recursive (name : N) (r : rule) : bool :=
  match sequence r with [s] => is_name name s | _ => false end.
Definition remove_recursive_rules (g : grammar) (name : N) : Res grammar :=
  do p <- get_prod g name;
  Ok (put_prod g name (mkProd (filter (fun r => negb (is_recursive name r)) (rules p)) (removable p) (cpt p))).

(** The loop of Production.replace_sub_production, 338-341; removing a rule that is not in
    the set is a KeyError. *)
Fixpoint replace_loop (name : N) (by_ : list symbol) (todo cur : list rule) (modified : bool) : Res (list rule * bool) :=
  match todo with
  | [] => Ok (cur, modified)
  | r :: rest =>
      if rule_in r cur then
        let '(b, r') := rule_replace name by_ r in
        replace_loop name by_ rest (add_rule (remove_rule cur r) r') (b || modified)
      else Exit
  end.
(** Production.replace_sub_production, 328-345, on production [user]. *)
Definition replace_sub_production (g : grammar) (user name : N) (by_ : rule) : Res grammar :=
  do p <- get_prod g user;
  do (rs, modified) <- replace_loop name (sequence by_) (rules p) (rules p) false;
  let g1 := put_prod g user (mkProd rs (removable p) (cpt p)) in
  if modified then
    if name_in user (used_by g1 name) then
      let u := upd_used (used_by g1) name (remove_name (used_by g1 name) user) in
      Ok (mkGrammar (productions g1) (add_uses u user (non_terminals (sequence by_))))
    else Exit
  else Ok g1.

(** Production.remove_sub_production, 319-326, on production [user]. *)
Definition remove_sub_production (g : grammar) (user name : N) : Res grammar :=
  do p <- get_prod g user;
  let rs := filter (fun r => match sequence r with [] => false | _ => true end) (map (rule_remove name) (rules p)) in
  let g1 := put_prod g user (mkProd (fold_left add_rule rs []) (removable p) (cpt p)) in
  if name_in user (used_by g1 name)
  then Ok (mkGrammar (productions g1) (upd_used (used_by g1) name (remove_name (used_by g1 name) user)))
  else Exit.
Fixpoint remove_users (g : grammar) (users : list N) (name : N) : Res grammar :=
  match users with
  | [] => Ok g
  | u :: r =>
      do g1 <- (if u =? name then Ok g else remove_sub_production g u name);
      remove_users g1 r name
  end.
(** Grammar.remove, 1020-1044. *)
Definition grammar_remove (g : grammar) (name : N) : Res (grammar * bool) :=
  match find_prod (productions g) name with
  | None => Ok (g, false)
  | Some p =>
      let vs := concat (map (fun r => non_terminals (sequence r)) (rules p)) in
      let u := fold_left (fun u v => upd_used u v (remove_name (u v) name)) vs (used_by g) in
      let g1 := mkGrammar (productions g) u in
      do g2 <- remove_users g1 (used_by g1 name) name;
      Ok (mkGrammar (filter (fun q => negb (fst q =? name)) (productions g2)) (upd_used (used_by g2) name []), true)
  end.

(** first_rule, 166-170 (a production with rules), and the loop over the users, 1110-1111. *)
Fixpoint inline_users (g : grammar) (users : list N) (name : N) : Res grammar :=
  match users with
  | [] => Ok g
  | u :: r =>
      do p <- get_prod g name;
      match rules p with
      | [] => Exit
      | by_ :: _ => do g1 <- replace_sub_production g u name by_; inline_users g1 r name
      end
  end.
(** One round of the first loop, 1105-1117.  list(prod.used_by) looks all users up first. *)
Definition simplify_trivial (g : grammar) (modified : bool) (name : N) : Res (grammar * bool) :=
  do g1 <- remove_recursive_rules g name;
  do p <- get_prod g1 name;
  match rules p with
  | [_] =>
      if removable p then
        if forallb (has_prod g1) (used_by g1 name) then
          do g2 <- inline_users g1 (used_by g1 name) name;
          do (g3, b) <- grammar_remove g2 name;
          Ok (g3, true)
        else Exit
      else Ok (g1, modified)
  | _ => Ok (g1, modified)
  end.
Fixpoint trivial_loop (g : grammar) (modified : bool) (names : list N) : Res (grammar * bool) :=
  match names with
  | [] => Ok (g, modified)
  | n :: r => do (g1, m1) <- simplify_trivial g modified n; trivial_loop g1 m1 r
  end.

(** Production.can_produce_terminal, 263-293: [queue] has the element popped next first.
    visited is a set of productions, and two productions with the same set of rules are equal
    (Production.__eq__, 376-380), whatever their names. *)
Definition rules_eqb (a b : list rule) : bool :=
  forallb (fun r => rule_in r b) a && forallb (fun r => rule_in r a) b.
Definition rules_of (g : grammar) (name : N) : list rule :=
  match find_prod (productions g) name with Some p => rules p | None => [] end.
Definition visited_in (g : grammar) (visited : list (list rule)) (name : N) : bool :=
  existsb (rules_eqb (rules_of g name)) visited.
Definition mark (g : grammar) (name : N) : grammar :=
  match find_prod (productions g) name with
  | Some p => put_prod g name (mkProd (rules p) (removable p) (Some true))
  | None => g
  end.
Fixpoint propagate (fuel : nat) (g : grammar) (queue : list N) (visited : list (list rule)) : Res grammar :=
  match queue with
  | [] => Ok g
  | n :: rest =>
      match fuel with
      | O => Fuel
      | S f =>
          if forallb (has_prod g) (used_by g n) then
            let new := filter (fun u => negb (visited_in g visited u)) (used_by g n) in
            propagate f (fold_left mark new g) (rev new ++ rest) (visited ++ map (rules_of g) new)
          else Exit
      end
  end.
Definition can_produce_terminal (fuel : nat) (g : grammar) (name : N) : Res (bool * grammar) :=
  do p <- get_prod g name;
  match cpt p with
  | Some b => Ok (b, g)
  | None =>
      let queue := map fst (filter (fun q => match cpt (snd q) with None => existsb has_terminals (rules (snd q)) | Some _ => false end) (productions g)) in
      do g1 <- propagate fuel (fold_left mark queue g) (rev queue) (map (rules_of g) queue);
      do p1 <- get_prod g1 name;
      match cpt p1 with
      | Some b => Ok (b, g1)
      | None => Ok (false, put_prod g1 name (mkProd (rules p1) (removable p1) (Some false)))
      end
  end.
(** One round of the second loop, 1125-1133. *)
Definition simplify_empty (fuel : nat) (g : grammar) (modified : bool) (name : N) : Res (grammar * bool) :=
  do p <- get_prod g name;
  if removable p then
    do (b, g1) <- can_produce_terminal fuel g name;
    if b then Ok (g1, modified)
    else
      do (g2, removed) <- grammar_remove g1 name;
      if removed then Ok (g2, true) else Exit
  else Ok (g, modified).
Fixpoint empty_loop (fuel : nat) (g : grammar) (modified : bool) (names : list N) : Res (grammar * bool) :=
  match names with
  | [] => Ok (g, modified)
  | n :: r => do (g1, m1) <- simplify_empty fuel g modified n; empty_loop fuel g1 m1 r
  end.
(** Grammar.simplify, 1093-1134 (what follows the return is never run). *)
Definition grammar_simplify (fuel : nat) (g : grammar) : Res (grammar * bool) :=
  do (g1, m1) <- trivial_loop g false (map fst (productions g));
  empty_loop fuel g1 m1 (map fst (productions g1)).
