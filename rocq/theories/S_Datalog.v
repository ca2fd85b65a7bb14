(** Datalog: what a program says of a set of facts. *)
From Coq Require Import NArith List Bool.
From Verif Require Import M_PyDatalog.
Import ListNotations.
Open Scope N_scope.

(** [holds P F r args]: relation [r] holds of [args], given the clauses [P] and the facts [F]. *)
Inductive holds (P : list clause) (F : list fact) : list N -> list N -> Prop :=
| holds_fact : forall f, In f F -> holds P F (f_rel f) (f_args f)
| holds_clause : forall c (value : N -> N), In c P ->
    (forall a, In a (c_body c) -> holds P F (a_rel a) (map value (a_args a))) ->
    holds P F (a_rel (c_head c)) (map value (a_args (c_head c))).

(** A variable: a letter (or underscore) alone.  A clause that a Datalog engine can read has no others. *)
Definition variable (v : N) : Prop := 97 <= v <= 122 \/ 65 <= v <= 90 \/ v = 95.
Definition readable (c : clause) : Prop := forall a v, In a (c_head c :: c_body c) -> In v (a_args a) -> variable v.

(** The bytes of [data] from [i] up to [j]. *)
Definition between (data : list N) (i j : N) (w : list N) : Prop :=
  exists pre post, data = pre ++ w ++ post /\ N.of_nat (length pre) = i /\ N.of_nat (length pre + length w) = j.

(** Printable ASCII. *)
Definition printable (name : list N) : Prop := forall c, In c name -> 32 <= c <= 126.

(** ** Grammars that can be translated *)
From Verif Require Import M_Base M_Runtime M_PyGrammar S_Grammar.
(** The names that a grammar uses. *)
Definition named (g : grammar) (n : N) : Prop :=
  In n (map fst (productions g)) \/ exists m body, rule_of g m body /\ In (NonTerminal n) body.
(** Production names are printable and different; none is the name of the true fact, or the number of a byte. *)
Record proper (text : N -> list N) (g : grammar) : Prop := {
  pr_printable : forall n, named g n -> printable (text n);
  pr_distinct : forall n m, named g n -> named g m -> text n = text m -> n = m;
  pr_true : forall n, named g n -> text n <> TRUE_FACT;
  pr_byte : forall n b, named g n -> b < 256 -> text n <> to_string b;
}.
(** Terminals and inputs are bytes. *)
Definition bytes_only (g : grammar) : Prop := forall n body bs b, rule_of g n body -> In (Terminal bs) body -> In b bs -> b < 256.
Definition has_rules (g : grammar) : Prop := forall n p, In (n, p) (productions g) -> rules p <> [].
(** The number of bytes and names in a rule. *)
Fixpoint places (body : list symbol) : N :=
  match body with
  | [] => 0
  | Terminal b :: r => N.of_nat (length b) + places r
  | NonTerminal _ :: r => 1 + places r
  end.
