(** Model of the class Match of polytracker/grammars.py (953-980): an object that is asked
    several times.

    Not modelled: which trees are shown, only whether there is one (see M_PyEarley and
    M_PyParseTree); an exception of the parser's loop itself (an index beyond the charts, a
    production that is missing) ends the model's run, since the charts are then left half full. *)
From Coq Require Import NArith ZArith List Bool.
From Verif Require Import M_Base M_PyGrammar M_PyEarley.
Import ListNotations.
Open Scope N_scope.

(** EarleyParser.parse, 711-749: the charts. *)
Definition charts_of (fuel : nat) (g : grammar) (sent : list N) (chars : N) : Res parser :=
  do st <- get_prod g START;
  do p0 <- add_predictions fuel (parser_new g sent chars) 0 START (rules st);
  parse_loop fuel p0 (nseq 0 (S (length sent))).
(** EarleyParser.end_states, 707-709: parse_trees yields a tree if there is one. *)
Definition has_tree (p : parser) : bool :=
  existsb (fun s => match expected s with [] => prod_eqb (pg p) (pname s) START | _ => false end)
    (queue (charts p (nstates p - 1))).

(** Match.__init__, 954-956, with the fields of its parser: [mparser] is None while parsed is
    False (702). *)
Record mobj : Type := mkMatch {
  mgrammar : grammar; msentence : list N; mchars : N; mparser : option parser; is_match : option bool }.
Definition match_new (g : grammar) (sent : list N) (chars : N) : mobj := mkMatch g sent chars None None.
Definition set_parser (m : mobj) (p : parser) : mobj := mkMatch (mgrammar m) (msentence m) (mchars m) (Some p) (is_match m).
Definition set_is_match (m : mobj) (b : bool) : mobj := mkMatch (mgrammar m) (msentence m) (mchars m) (mparser m) (Some b).

(** What a question gives: an answer, or an exception. *)
Inductive answer : Type := Answer (b : bool) | Raises.

(** EarleyParser.parse, 711-756: parsed is set before the charts are made, and the ValueError
    is raised only by the call that makes them. *)
Definition parse_once (fuel : nat) (m : mobj) : Res (mobj * answer) :=
  match mparser m with
  | Some p => Ok (m, Answer (has_tree p))
  | None =>
      do p <- charts_of fuel (mgrammar m) (msentence m) (mchars m);
      if (last_match p <? Z.of_N (len (msentence m)) - 1)%Z then Ok (set_parser m p, Raises)
      else Ok (set_parser m p, Answer (has_tree p))
  end.
(** Match.parse_tree, 958-970: whether it is a tree and not None. *)
Definition ask_tree (fuel : nat) (m : mobj) : Res (mobj * answer) :=
  match is_match m with
  | None =>
      do (m1, a) <- parse_once fuel m;
      match a with
      | Answer b => Ok (set_is_match m1 b, Answer b)
      | Raises => Ok (m1, Raises)
      end
  | Some true =>
      do (m1, a) <- parse_once fuel m;
      match a with
      | Answer true => Ok (m1, Answer true)
      | _ => Ok (m1, Raises)
      end
  | Some false => Ok (m, Answer false)
  end.
(** Match.__bool__, 972-976. *)
Definition ask_bool (fuel : nat) (m : mobj) : Res (mobj * answer) :=
  match is_match m with
  | None => ask_tree fuel m
  | Some b => Ok (m, Answer b)
  end.
(** Match.__iter__, 978-979, and parse_trees, 758-771: whether the loop is entered. *)
Definition ask_iter (fuel : nat) (m : mobj) : Res (mobj * answer) := parse_once fuel m.

(** The three questions: bool(m), m.parse_tree is not None, any(True for _ in m). *)
Inductive question : Type := QBool | QTree | QIter.
Definition ask (fuel : nat) (m : mobj) (q : question) : Res (mobj * answer) :=
  match q with
  | QBool => ask_bool fuel m
  | QTree => ask_tree fuel m
  | QIter => ask_iter fuel m
  end.
Fixpoint ask_all (fuel : nat) (m : mobj) (qs : list question) : Res (list answer) :=
  match qs with
  | [] => Ok []
  | q :: r => do (m1, a) <- ask fuel m q; do l <- ask_all fuel m1 r; Ok (a :: l)
  end.
