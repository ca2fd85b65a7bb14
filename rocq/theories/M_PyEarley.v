(** Model of the Earley parser of polytracker/grammars.py (424-813): whether
    bool(grammar.match(sentence)) is True.

    Not modelled: the parse trees (completed_by, predecessors, depth and _Node, 816-947), so
    that a match is the existence of an end state (708-709); progress bars; the limit on the
    depth of recursion.  Sets are lists in order of insertion. *)
From Coq Require Import NArith ZArith List Bool.
From Verif Require Import M_Base M_PyGrammar.
Import ListNotations.
Open Scope N_scope.

(** The classes Prediction (479-516), ScannedTerminal (573-600), Completion (548-570) and
    EmptyProduction (519-545, with its own production). *)
Inductive ekind : Type := KPrediction | KScanned (t : list N) | KCompletion | KEmpty (name : N).
(** EarleyState, 424-476, with the fields of its prediction: the production, the rule and the
    index.  A Prediction is its own prediction. *)
Record estate : Type := mkState {
  kind : ekind; pname : N; prule : list symbol; porigin : N;
  parsed : list symbol; expected : list symbol; index : N }.

(** Production.__eq__, 376-377: the same rules. *)
Definition prod_eqb (g : grammar) (a b : N) : bool := rules_eqb (rules_of g a) (rules_of g b).
Definition kind_eqb (g : grammar) (a b : ekind) : bool :=
  match a, b with
  | KPrediction, KPrediction => true
  | KScanned t, KScanned u => blist_eqb t u
  | KCompletion, KCompletion => true
  | KEmpty n, KEmpty m => prod_eqb g n m
  | _, _ => false
  end.
(** EarleyState.__eq__ (465-471), Prediction.__eq__ (504-513), EmptyProduction.__eq__
    (537-542), ScannedTerminal.__eq__ (590-595). *)
Definition estate_eqb (g : grammar) (a b : estate) : bool :=
  kind_eqb g (kind a) (kind b) && (index a =? index b) && seq_eqb (parsed a) (parsed b) && seq_eqb (expected a) (expected b)
  && (porigin a =? porigin b) && seq_eqb (prule a) (prule b) && prod_eqb g (pname a) (pname b).

(** EarleyQueue, 606-614; elements has the same states as queue. *)
Record chart : Type := mkChart {
  queue : list estate;
  waiting_for : N -> list estate;
  already_completed : N -> list (estate * list N) }.
Definition chart_new : chart := mkChart [] (fun _ => []) (fun _ => []).
(** EarleyParser, 681-705: the grammar (whose productions cache an answer), the bytes, the
    number of charts, the charts, and last_k_with_match of parse. *)
Record parser : Type := mkParser {
  pg : grammar; sentence : list N; nstates : N; charts : N -> chart; last_match : Z }.
Definition set_chart (p : parser) (k : N) (c : chart) : parser :=
  mkParser (pg p) (sentence p) (nstates p) (fun x => if x =? k then c else charts p x) (last_match p).

Fixpoint find_state (g : grammar) (s : estate) (l : list estate) : option estate :=
  match l with
  | [] => None
  | x :: r => if estate_eqb g x s then Some x else find_state g s r
  end.
Definition add_state (g : grammar) (l : list estate) (s : estate) : list estate :=
  match find_state g s l with Some _ => l | None => l ++ [s] end.
Definition upd_name {A} (f : N -> A) (n : N) (v : A) : N -> A := fun x => if x =? n then v else f x.

(** The new state of EarleyQueue.complete_state, 616-626. *)
Definition completion (s done : estate) : estate :=
  mkState KCompletion (pname s) (prule s) (porigin s) (parsed s ++ parsed done) (tl (expected s)) (index s).
(** EarleyQueue.add, 628-643, on chart [k]; an index beyond the charts is an IndexError.  The
    completions already known are run through complete_state; its assertions hold by the
    keys of the tables. *)
Fixpoint add (fuel : nat) (p : parser) (k : N) (s : estate) : Res parser :=
  match fuel with
  | O => Fuel
  | S f =>
      if k <? nstates p then
        let c := charts p k in
        let s1 := match find_state (pg p) s (queue c) with Some x => x | None => s end in
        let c1 := mkChart (add_state (pg p) (queue c) s) (waiting_for c) (already_completed c) in
        match expected s1 with
        | NonTerminal n :: _ =>
            let c2 := mkChart (queue c1) (upd_name (waiting_for c1) n (add_state (pg p) (waiting_for c1 n) s1)) (already_completed c1) in
            fold_left (fun r dk => do q <- r; add f q (snd dk) (completion s1 (fst dk)))
              (concat (map (fun d => map (fun j => (fst d, j)) (snd d)) (already_completed c2 n)))
              (Ok (set_chart p k c2))
        | _ => Ok (set_chart p k c1)
        end
      else Exit
  end.

(** _predict, 773-789. *)
Fixpoint add_predictions (fuel : nat) (p : parser) (k n : N) (rs : list rule) : Res parser :=
  match rs with
  | [] => Ok p
  | r :: rest =>
      do p1 <- add fuel p k (mkState KPrediction n (sequence r) k [] (sequence r) k);
      add_predictions fuel p1 k n rest
  end.
Definition predict (fuel : nat) (p : parser) (k : N) (s : estate) (n : N) : Res parser :=
  do pr <- get_prod (pg p) n;
  do (b, g1) <- can_produce_terminal fuel (pg p) n;
  let p1 := mkParser g1 (sentence p) (nstates p) (charts p) (last_match p) in
  if b then add_predictions fuel p1 k n (rules pr)
  else add fuel p1 k (mkState (KEmpty n) (pname s) (prule s) (porigin s) [] [] k).

(** bytes.startswith *)
Fixpoint starts_with (s t : list N) : bool :=
  match t, s with
  | [], _ => true
  | y :: t', x :: s' => (x =? y) && starts_with s' t'
  | _ :: _, [] => false
  end.
(** _scan, 791-804, and the update of last_k_with_match in parse, 743-747. *)
Definition scan (fuel : nat) (p : parser) (k : N) (s : estate) (t : list N) : Res parser :=
  if starts_with (skipn (N.to_nat k) (sentence p)) t then
    do p1 <- add fuel p (k + len t)
               (mkState (KScanned t) (pname s) (prule s) (porigin s) (parsed s ++ [Terminal t]) (tl (expected s)) (index s));
    Ok (mkParser (pg p1) (sentence p1) (nstates p1) (charts p1) (Z.max (last_match p1) (Z.of_N k + Z.of_N (len t) - 1)))
  else Ok p.

(** _complete, 806-813: the set of waiting states must not grow while it is iterated over
    (a RuntimeError). *)
Fixpoint add_completed (g : grammar) (l : list (estate * list N)) (d : estate) (k : N) : list (estate * list N) :=
  match l with
  | [] => [(d, [k])]
  | (x, ks) :: r => if estate_eqb g x d then (x, add_name ks k) :: r else (x, ks) :: add_completed g r d k
  end.
Fixpoint complete_loop (fuel : nat) (p : parser) (k : N) (d : estate) (size : nat) (ws : list estate) : Res parser :=
  match ws with
  | [] => Ok p
  | s :: r =>
      do p1 <- add fuel p k (completion s d);
      if (length (waiting_for (charts p1 (index d)) (pname d)) =? size)%nat then complete_loop fuel p1 k d size r else Exit
  end.
Definition complete (fuel : nat) (p : parser) (k : N) (d : estate) : Res parser :=
  let c := charts p (index d) in
  let c1 := mkChart (queue c) (waiting_for c) (upd_name (already_completed c) (pname d) (add_completed (pg p) (already_completed c (pname d)) d k)) in
  let ws := waiting_for c1 (pname d) in
  complete_loop fuel (set_chart p (index d) c1) k d (length ws) ws.

(** The body of the loop over a chart, 733-749. *)
Definition process (fuel : nat) (p : parser) (k : N) (s : estate) : Res parser :=
  match expected s with
  | [] => complete fuel p k s
  | NonTerminal n :: _ =>
      match kind s, parsed s with
      | KPrediction, _ :: _ => Ok p
      | _, _ => predict fuel p k s n
      end
  | Terminal t :: _ => scan fuel p k s t
  end.
(** The loop over a chart that may grow, EarleyQueue.__iter__, 673-678. *)
Fixpoint chart_loop (fuel : nat) (p : parser) (k : N) (i : nat) : Res parser :=
  match fuel with
  | O => Fuel
  | S f =>
      match nth_error (queue (charts p k)) i with
      | None => Ok p
      | Some s => do p1 <- process fuel p k s; chart_loop f p1 k (S i)
      end
  end.
(** The loop over the charts, 729-749; states[k] beyond the charts is an IndexError. *)
Fixpoint parse_loop (fuel : nat) (p : parser) (ks : list N) : Res parser :=
  match ks with
  | [] => Ok p
  | k :: r => if k <? nstates p then do p1 <- chart_loop fuel p k 0; parse_loop fuel p1 r else Exit
  end.
(** EarleyParser.__init__, 682-705.  [chars] is the length of the argument: that of the bytes,
    or, for a str, the number of its characters. *)
Definition parser_new (g : grammar) (sent : list N) (chars : N) : parser :=
  mkParser g sent (chars + 1) (fun _ => chart_new) (-1).
(** parse, 711-755: a ValueError if the last byte was not scanned; then end_states, 708-709. *)
Definition match_bool (fuel : nat) (g : grammar) (sent : list N) (chars : N) : Res bool :=
  do st <- get_prod g START;
  do p0 <- add_predictions fuel (parser_new g sent chars) 0 START (rules st);
  do p1 <- parse_loop fuel p0 (nseq 0 (S (length sent)));
  if (last_match p1 <? Z.of_N (len sent) - 1)%Z then Exit
  else
    let final := queue (charts p1 (nstates p1 - 1)) in
    Ok (existsb (fun s => match expected s with [] => prod_eqb (pg p1) (pname s) START | _ => false end) final).
