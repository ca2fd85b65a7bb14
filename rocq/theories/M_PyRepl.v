(** Model of PolyTrackerCompleter, polytracker/repl.py (21-96): the completions the prompt offers.

    Not modelled: colours and the help line (64-70, which stays empty).  Sets and dicts are
    lists in the order of iteration.  A name is a list of characters. *)
From Coq Require Import NArith List Bool.
From Verif Require Import M_Base.
Import ListNotations.
Open Scope N_scope.

Definition name := list N.
Fixpoint name_eqb (a b : name) : bool :=
  match a, b with
  | [], [] => true
  | x :: a', y :: b' => (x =? y) && name_eqb a' b'
  | _, _ => false
  end.
Fixpoint mem (n : name) (l : list name) : bool :=
  match l with [] => false | x :: r => name_eqb x n || mem n r end.
(** str.startswith *)
Fixpoint startswith (s p : name) : bool :=
  match p, s with
  | [], _ => true
  | y :: p', x :: s' => (x =? y) && startswith s' p'
  | _ :: _, [] => false
  end.

(** A completion: a text, and how many characters before the cursor it replaces
    (start_position). *)
Record completion : Type := mkCompletion { ctext : name; creplaced : nat }.

(** _get_completions, 26-40: the completions and already_completed afterwards. *)
Fixpoint offer (partial : name) (options seen : list name) : list completion * list name :=
  match options with
  | [] => ([], seen)
  | v :: r =>
      if negb (mem v seen) && startswith v partial && negb (name_eqb v partial) then
        let '(l, seen') := offer partial r (v :: seen) in (mkCompletion v (length partial) :: l, seen')
      else offer partial r seen
  end.

(** partial.split("."), 85: the last part and, if there is a dot, the one before. *)
Fixpoint split_dots (s : name) : list name :=
  match s with
  | [] => [[]]
  | c :: r =>
      if c =? 46 then [] :: split_dots r
      else match split_dots r with
           | p :: ps => (c :: p) :: ps
           | [] => [[c]]
           end
  end.
Definition last_two (l : list name) : option (name * name) :=
  match rev l with
  | b :: a :: _ => Some (a, b)
  | _ => None
  end.

(** A prompt: the registered commands, the names of the variables and those that were there
    at the start (self.builtins), Python's builtins, dir of a variable that is no command, and
    whether a statement of several lines is being typed. *)
Record prompt : Type := mkPrompt {
  commands : list name; variables : list name; builtins : list name; py_builtins : list name;
  attributes : name -> option (list name); multi_line : bool }.
(** 93: attributes that do not begin with "_". *)
Definition public (n : name) : bool := negb (startswith n [95]).
(** get_completions, 51-96, for the text of the line and the position of the cursor. *)
Definition get_completions (p : prompt) (text : name) (cursor : nat) : list completion :=
  if multi_line p && match text with [] => true | _ => false end then []
  else
    let partial := firstn cursor text in
    let '(l1, s1) := if name_eqb partial text then offer partial (commands p) [] else ([], []) in
    let '(l2, s2) := offer partial (filter (fun v => negb (mem v (builtins p))) (variables p)) s1 in
    let '(l3, s3) := offer partial (builtins p) s2 in
    let '(l4, s4) := offer partial (py_builtins p) s3 in
    let l5 :=
      match last_two (split_dots partial) with
      | None => []
      | Some (varname, to_complete) =>
          if mem varname (variables p) then
            match attributes p varname with
            | None => []
            | Some dir => fst (offer to_complete (filter public dir) s4)
            end
          else []
      end in
    l1 ++ l2 ++ l3 ++ l4 ++ l5.
(** prompt_toolkit: the text before the cursor after a completion was chosen. *)
Definition complete (before : name) (c : completion) : name :=
  firstn (length before - creplaced c) before ++ ctext c.
