(** Model of polytracker/datalog.py: a grammar as a Datalog program.

    Simplifications: clauses and facts are kept apart into relation names and arguments instead of being joined into
    one text with parentheses, commas and dots.  Production names are numbers in
    [M_PyGrammar]; [text] gives the name itself, as code points.  Declarations and .output lines are
    left out: they name each relation once and do not change what can be derived. *)
From Coq Require Import NArith List Bool.
From Verif Require Import M_Base M_PyGrammar M_Runtime.
Import ListNotations.
Open Scope N_scope.

(** '[^a-zA-Z0-9]', 28. *)
Definition alnum (c : N) : bool :=
  ((97 <=? c) && (c <=? 122)) || ((65 <=? c) && (c <=? 90)) || ((48 <=? c) && (c <=? 57)).
(** datalog_repl_match, 19-24. *)
Definition repl_match (c : N) : list N := 95 :: to_string c.
(** get_valid_datalog_name, 27-28: "GEN_" and the name. *)
Definition valid_char (c : N) : list N := if alnum c then [c] else repl_match c.
Definition valid_name (name : list N) : list N := [71; 69; 78; 95] ++ flat_map valid_char name.
(** TRUE_FACT_NAME, 15: "POLYTRACKER_TRUE_FACT". *)
Definition TRUE_FACT : list N := [80; 79; 76; 89; 84; 82; 65; 67; 75; 69; 82; 95; 84; 82; 85; 69; 95; 70; 65; 67; 84].
(** RULE_START, 180: ord("a"). *)
Definition RULE_START : N := 97.

(** DatalogTrueFact, 44-55, and DatalogRule, 89-101, in clauses: the arguments are variables, each one
    character. *)
Record atom := mkAtom { a_rel : list N; a_args : list N }.
(** end_char, 53-55 and 97. *)
Definition end_char (a : atom) : N := last (a_args a) 0.

Section Datalog.
  Variable text : N -> list N.
  (** DatalogRuleList.__init__, 138-161, for one term: its atoms, and the next variable.  (chr raises for
      numbers above 1114111.) *)
  Definition byte_atom (b start : N) : atom := mkAtom (valid_name (to_string b)) [start; start + 1].
  Fixpoint byte_atoms (bs : list N) (start : N) : list atom * N :=
    match bs with
    | [] => ([], start)
    | b :: r => let '(l, e) := byte_atoms r (start + 1) in (byte_atom b start :: l, e)
    end.
  Definition term_atoms (t : symbol) (start : N) : list atom * N :=
    match t with
    | NonTerminal n =>
        if blist_eqb (text n) TRUE_FACT then ([mkAtom (valid_name TRUE_FACT) [start]], start + 1)
        else ([mkAtom (valid_name (text n)) [start; start + 1]], start + 1)
    | Terminal b => byte_atoms b start
    end.
  Fixpoint rule_list (seq : list symbol) (start : N) : list atom :=
    match seq with
    | [] => []
    | t :: r => let '(l, e) := term_atoms t start in l ++ rule_list r e
    end.

  (** DatalogClause, 168-176: the head ends where the last atom of the body does; a body without atoms raises
      IndexError. *)
  Record clause := mkClause { c_head : atom; c_body : list atom }.
  Definition make_clause (name : N) (body : list atom) : Res clause :=
    match body with
    | [] => Exit
    | a :: r => Ok (mkClause (mkAtom (valid_name (text name)) [RULE_START; end_char (last r a)]) body)
    end.
  (** The body for a production without rules and for an empty rule, 205-211 and 215-221. *)
  Definition true_body : list atom := [mkAtom (valid_name TRUE_FACT) [RULE_START]].
  Definition rule_clause (name : N) (r : rule) : Res clause :=
    make_clause name (match sequence r with [] => true_body | s => rule_list s RULE_START end).
  Fixpoint collect (l : list (Res clause)) : Res (list clause) :=
    match l with
    | [] => Ok []
    | c :: r => do c <- c; do r <- collect r; Ok (c :: r)
    end.
  (** DatalogGrammar.extract_datalog_grammar, 189-229, after trace_to_grammar. *)
  Definition production_clauses (np : N * production) : list (Res clause) :=
    match rules (snd np) with
    | [] => [make_clause (fst np) true_body]
    | rs => map (rule_clause (fst np)) rs
    end.
  Definition datalog (g : grammar) : Res (list clause) := collect (flat_map production_clauses (productions g)).
End Datalog.

(** DatalogFact, 73-86, and the facts that the (disabled) command ExtractDatalogCommand adds for an input, 278-289: a true
    fact for each byte, and for each byte its value between its offset and the next. *)
Record fact := mkFact { f_rel : list N; f_args : list N }.
Fixpoint input_facts (data : list N) (i : N) : list fact :=
  match data with
  | [] => []
  | b :: r => mkFact (valid_name TRUE_FACT) [i] :: mkFact (valid_name (to_string b)) [i; i + 1] :: input_facts r (i + 1)
  end.
