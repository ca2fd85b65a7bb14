(** Model of PolyTrackerREPL.run and run_on_exit, polytracker/repl.py (180-190, 359-416): the
    loop of a session, the functions run at its end, and the current instance.

    Functions are numbers, with what they do given by a table; of the lines only how they end
    and which functions they register is modelled.  What is printed is left out, except which
    of the two prompts is shown. *)
From Coq Require Import NArith List Bool.
From Verif Require Import M_Base.
Import ListNotations.
Open Scope N_scope.

(** How running a line ends: normally, with a NameError, a SystemExit or another exception. *)
Inductive outcome : Type := Done | NameErr | SysExit | Raised.
(** What the user does at the prompt, 386-400; a line also registers functions, 180-182. *)
Inductive step : Type :=
| Interrupt
| Eof
| PromptFails
| Line (o : outcome) (registers : list N).
(** How the loop ends: left, by an exception of the prompt, or not yet. *)
Inductive ending : Type := Left | Failed | Waiting.

(** 384-410: the prompts shown ([true] for the error prompt), the end, the registered functions. *)
Fixpoint loop (steps : list step) (error_prompt : bool) (exits : list N)
    : list bool * ending * list N :=
  match steps with
  | [] => ([error_prompt], Waiting, exits)
  | s :: r =>
      let again e x := let '(p, en, x') := loop r e x in (error_prompt :: p, en, x') in
      match s with
      | Interrupt => again true exits
      | Eof => ([error_prompt], Left, exits)
      | PromptFails => ([error_prompt], Failed, exits)
      | Line o registers =>
          match o with
          | Done => again false (exits ++ registers)
          | NameErr | Raised => again true (exits ++ registers)
          | SysExit => ([error_prompt], Left, exits ++ registers)
          end
      end
  end.

(** A function run at the end: what it registers in turn, and whether it raises. *)
Definition behaviour : Type := N -> list N * bool.
(** 411-412: the loop over a list that may grow behind the iterator.  The functions run and
    whether all of them ended. *)
Fixpoint run_exits (fuel : nat) (beh : behaviour) (queue : list N) : Res (list N * bool) :=
  match queue with
  | [] => Ok ([], true)
  | f :: r =>
      match fuel with
      | O => Fuel
      | S k =>
          let '(new, raises) := beh f in
          if raises then Ok ([f], false)
          else do x <- run_exits k beh (r ++ new); Ok (f :: fst x, snd x)
      end
  end.

(** 362-368 and 414-415: the current instance when an instance starts and finishes. *)
Definition start (self : N) (current : option N) : option N :=
  match current with Some c => Some c | None => Some self end.
Definition finish (self : N) (current : option N) : option N :=
  match current with
  | Some c => if c =? self then None else Some c
  | None => None
  end.

(** An instance after a run: what was run at the end, whether run returned, what is still
    registered, and the current instance. *)
Record result : Type := mkResult {
  prompts : list bool; ran : list N; returned : bool; left_over : list N; current_after : option N }.
(** run, 359-416, of an instance with the functions [exits] registered before. *)
Definition run (fuel : nat) (beh : behaviour) (self : N) (current : option N) (exits : list N)
    (steps : list step) : Res result :=
  let cur := start self current in
  let '(p, en, x) := loop steps false exits in
  match en with
  | Left =>
      do q <- run_exits fuel beh x;
      if snd q then Ok (mkResult p (fst q) true [] (finish self cur))
      else Ok (mkResult p (fst q) false (x ++ flat_map (fun f => fst (beh f)) (fst q)) cur)
  | _ => Ok (mkResult p [] false x cur)
  end.
