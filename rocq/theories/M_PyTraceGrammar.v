(** Extraction of a grammar from a trace, polytracker/grammars.py:1234-1331, and
    Grammar.verify, 1046-1091.

    Simplifications: names of productions are numbers, as in M_PyGrammar.  A function
    invocation is given by its name and its basic blocks (tracing.py:973-981), each with the
    name of its production, its consumed tokens and the function it called, as in M_PyTree;
    with the latter comes whether the event after its return is the entry of the next block
    of the caller, which then is returning_to (tracing.py:871-877).  Progress bars and messages
    are left out.  An exception is [Exit]. *)
From Coq Require Import NArith List Bool.
From Verif Require Import M_Base M_PyGrammar.
Import ListNotations.
Open Scope N_scope.

Inductive func : Type := Func (name : N) (blocks : list (N * list (list N) * option (func * bool))).
Definition block : Type := N * list (list N) * option (func * bool).
Definition func_name (f : func) : N := let 'Func n _ := f in n.
Definition func_blocks (f : func) : list block := let 'Func _ bs := f in bs.
Definition block_name (b : block) : N := fst (fst b).
Definition block_tokens (b : block) : list (list N) := snd (fst b).
Definition block_call (b : block) : option (func * bool) := snd b.

(** touched_taint, tracing.py:539-541, 983-991: there are regions in a block or in a called
    function. *)
Fixpoint func_touched (f : func) : bool :=
  let 'Func _ bs := f in
  existsb (fun b => match b with (_, tokens, called) =>
    match tokens with [] => match called with Some (g, _) => func_touched g | None => false end | _ => true end end) bs.

(** Production(grammar, name), 150-164, without rules. *)
Definition new_empty (g : grammar) (name : N) : Res grammar :=
  if has_prod g name then Exit
  else Ok (mkGrammar (productions g ++ [(name, mkProd [] true None)]) (used_by g)).
(** The rule is added to the production, which is made if it is missing: 1270-1276, 1316-1324. *)
Definition put_rule (g : grammar) (name : N) (seq : list symbol) : Res grammar :=
  let r := rule_new seq in
  if has_prod g name then
    do p <- get_prod g name;
    if rule_in r (rules p) then Ok g else prod_add g name r
  else new_production g name r true.
(** The sequence of a block, 1287-1314; [next] is the name of the next block of the function. *)
Definition block_symbols (b : block) (next : option N) : list symbol :=
  let next_bb := match next with Some n => [NonTerminal n] | None => [] end in
  map Terminal (block_tokens b) ++
  match block_call b with
  | Some (g, returning) => NonTerminal (func_name g) :: (if returning then next_bb else [])
  | None => []
  end ++ next_bb.
(** The loop over the blocks, 1278-1324: the grammar and what was pushed, the last one first. *)
Fixpoint blocks_loop (g : grammar) (bs : list block) (pushed : list func) : Res (grammar * list func) :=
  match bs with
  | [] => Ok (g, pushed)
  | b :: r =>
      do g1 <- put_rule g (block_name b) (block_symbols b (match r with b' :: _ => Some (block_name b') | [] => None end));
      blocks_loop g1 r (match block_call b with Some (f, _) => f :: pushed | None => pushed end)
  end.
(** One round of the loop over the stack, 1253-1324. *)
Definition func_step (g : grammar) (f : func) : Res (grammar * list func) :=
  if func_touched f then
    match func_blocks f with
    | [] => do g1 <- new_empty g (func_name f); Ok (g1, [])
    | b :: _ =>
        do g1 <- put_rule g (func_name f) [NonTerminal (block_name b)];
        blocks_loop g1 (func_blocks f) []
    end
  else do g1 <- new_empty g (func_name f); Ok (g1, []).
Fixpoint funcs_loop (fuel : nat) (g : grammar) (stack : list func) : Res grammar :=
  match stack with
  | [] => Ok g
  | f :: rest =>
      match fuel with
      | O => Fuel
      | S k => do gp <- func_step g f; let (g1, pushed) := gp in funcs_loop k g1 (pushed ++ rest)
      end
  end.

(** Grammar.verify, 1046-1072: every name in a rule is that of a production whose users include
    the one with the rule; users exist.  A name in used_by without a production has no user
    here, since used_by has no keys of its own. *)
Definition refs_ok (g : grammar) : bool :=
  forallb (fun q =>
    forallb (fun r => forallb (fun v => has_prod g v && name_in (fst q) (used_by g v)) (non_terminals (sequence r))) (rules (snd q)) &&
    forallb (has_prod g) (used_by g (fst q))) (productions g).
(** dependency_graph and the search in it, 1073-1078, 1003-1014: productions with the same
    rules are one node.  The search goes by rounds. *)
Definition is_node (g : grammar) (visited : list N) (n : N) : bool := existsb (fun v => rules_eqb (rules_of g v) (rules_of g n)) visited.
Definition reached (g : grammar) (visited : list N) (n : N) : bool := existsb (is_node g visited) (used_by g n).
Fixpoint search (fuel : nat) (g : grammar) (visited : list N) : Res (list N) :=
  match fuel with
  | O => Fuel
  | S k =>
      match filter (fun n => negb (is_node g visited n) && reached g visited n) (map fst (productions g)) with
      | [] => Ok visited
      | new => search k g (visited ++ new)
      end
  end.
(** 1082-1091: a production that was not visited and can produce a terminal. *)
Fixpoint unvisited_ok (fuel : nat) (g : grammar) (ns : list N) (found : bool) : Res grammar :=
  match ns with
  | [] => if found then Exit else Ok g
  | n :: r => do bg <- can_produce_terminal fuel g n; let (b, g1) := bg in unvisited_ok fuel g1 r (found || b)
  end.
(** verify with start set. *)
Definition verify (fuel : nat) (g : grammar) : Res grammar :=
  if refs_ok g then
    do visited <- search (S (length (productions g))) g [START];
    unvisited_ok fuel g (filter (fun n => negb (is_node g visited n)) (map fst (productions g))) false
  else Exit.

(** trace_to_grammar, 1234-1331: the start production is the one named START; a trace without
    an entry point has only that. *)
Definition trace_to_grammar (fuel : nat) (entrypoint : option func) : Res grammar :=
  match entrypoint with
  | None => new_empty grammar_new START
  | Some f =>
      do g <- new_production grammar_new START (rule_new [NonTerminal (func_name f)]) true;
      do g1 <- funcs_loop fuel g [f];
      verify fuel g1
  end.
