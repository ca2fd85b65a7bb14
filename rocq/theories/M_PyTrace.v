(** Navigation in the events of a trace, polytracker/tracing.py:503-1004.

    The classes leave to their implementations: the previous and next event of a thread, the
    entry of the function an event occurred in (TraceEvent.function_entry, 594-598; for a
    return, the function it returns from, 884-889), and the return of an entry (680-684).  Here
    the trace of a thread is a list, an event's uid its position, and entries and returns are
    matched like parentheses, as their documentation says.  Functions and basic blocks are
    numbers.  The loops take fuel; that the number of events is enough is proved. *)
From Coq Require Import NArith List Bool Arith.
From Verif Require Import M_Base.
Import ListNotations.
Open Scope nat_scope.

(** FunctionEntry; BasicBlockEntry; FunctionReturn; CallUninst and CallIndirect; an event that
    is no ControlFlowEvent. *)
Inductive event : Type := EEntry (f : N) | EBlock (b : N) | EReturn | ECall | EOther.
Definition is_cf (e : event) : bool := match e with EOther => false | _ => true end.
Definition trace := list event.
Definition place : Type := nat * event.

(** next_control_flow_event, 561-569. *)
Fixpoint skip_to (l : list event) (i : nat) : option place :=
  match l with
  | [] => None
  | e :: r => if is_cf e then Some (i, e) else skip_to r (S i)
  end.
Definition next_cf (evs : trace) (i : nat) : option place := skip_to (skipn (S i) evs) (S i).
(** previous_control_flow_event, 571-579: the events before, last first. *)
Fixpoint back_to (l : list event) : option place :=
  match l with
  | [] => None
  | e :: r => if is_cf e then Some (length r, e) else back_to r
  end.
Definition prev_cf (evs : trace) (i : nat) : option place := back_to (rev (firstn i evs)).

(** function_entry (abstract, 594-598): back over matched pairs to the innermost open entry. *)
Fixpoint match_entry (l : list event) (depth : nat) : option nat :=
  match l with
  | [] => None
  | EReturn :: r => match_entry r (S depth)
  | EEntry _ :: r => match depth with O => Some (length r) | S d => match_entry r d end
  | _ :: r => match_entry r depth
  end.
Definition function_entry (evs : trace) (i : nat) : option nat := match_entry (rev (firstn i evs)) 0.
(** FunctionEntry.function_return (abstract, 680-684). *)
Fixpoint match_return (l : list event) (depth i : nat) : option nat :=
  match l with
  | [] => None
  | EReturn :: r => match depth with O => Some i | S d => match_return r d (S i) end
  | EEntry _ :: r => match_return r (S depth) (S i)
  | _ :: r => match_return r depth (S i)
  end.
Definition function_return (evs : trace) (i : nat) : option nat := match_return (skipn (S i) evs) 0 (S i).

(** FunctionEntry.caller, 636-648. *)
Fixpoint caller_loop (fuel : nat) (evs : trace) (prev : option place) : Res (option nat) :=
  match fuel with
  | O => Fuel
  | S fuel' =>
      match prev with
      | None => Ok None
      | Some (j, EBlock _) => Ok (Some j)
      | Some (j, EReturn) =>
          match function_entry evs j with
          | None => Ok None
          | Some k => caller_loop fuel' evs (prev_cf evs k)
          end
      | Some (j, _) => caller_loop fuel' evs (prev_cf evs j)
      end
  end.
Definition caller (evs : trace) (i : nat) : Res (option nat) := caller_loop (S (length evs)) evs (prev_cf evs i).

Definition same_entry (a b : option nat) : bool :=
  match a, b with Some x, Some y => Nat.eqb x y | None, None => true | _, _ => false end.
(** FunctionEntry.entrypoint, 650-658. *)
Definition entrypoint (evs : trace) (i : nat) : Res (option nat) :=
  match next_cf evs i with
  | Some (j, EBlock _) => if same_entry (function_entry evs j) (Some i) then Ok (Some j) else Exit
  | _ => Ok None
  end.

(** BasicBlockEntry.called_function, 798-804: the position of the entry. *)
Definition called_function (evs : trace) (i : nat) : option nat :=
  match next_cf evs i with
  | Some (j, EEntry _) => Some j
  | _ => None
  end.
(** BasicBlockEntry.next_basic_block_in_function, 806-822. *)
Fixpoint next_block_loop (fuel : nat) (evs : trace) (fe : option nat) (next : option place) : Res (option nat) :=
  match fuel with
  | O => Fuel
  | S fuel' =>
      match next with
      | Some (j, EBlock _) => if same_entry (function_entry evs j) fe then Ok (Some j) else Ok None
      | Some (j, EEntry _) =>
          match function_return evs j with
          | None => Ok None
          | Some k => next_block_loop fuel' evs fe (next_cf evs k)
          end
      | _ => Ok None
      end
  end.
Definition next_block (evs : trace) (i : nat) : Res (option nat) :=
  next_block_loop (S (length evs)) evs (function_entry evs i) (next_cf evs i).
(** BasicBlockEntry.entry_count, 781-796, for an entry of block [b] whose function was entered
    at [fe]. *)
Fixpoint count_loop (fuel : nat) (evs : trace) (b : N) (fe : option nat) (event : option place) : Res nat :=
  match fuel with
  | O => Fuel
  | S fuel' =>
      match event with
      | None => Ok 0
      | Some (j, e) =>
          if same_entry (Some j) fe then Ok 0
          else match e with
               | EReturn =>
                   match function_entry evs j with
                   | None => Ok 0
                   | Some k => count_loop fuel' evs b fe (prev_cf evs k)
                   end
               | EBlock b' =>
                   do n <- count_loop fuel' evs b fe (prev_cf evs j);
                   Ok (if N.eqb b' b then S n else n)
               | _ => count_loop fuel' evs b fe (prev_cf evs j)
               end
      end
  end.
Definition entry_count (evs : trace) (i : nat) (b : N) : Res nat :=
  count_loop (S (length evs)) evs b (function_entry evs i) (prev_cf evs i).

(** FunctionReturn.returning_to, 875-881. *)
Definition returning_to (evs : trace) (i : nat) : option nat :=
  match next_cf evs i with
  | Some (j, EBlock _) => Some j
  | _ => None
  end.

(** FunctionInvocation.calls, 946-956. *)
Fixpoint calls_loop (fuel : nat) (evs : trace) (ret : option nat) (next : option place) : Res (list nat) :=
  match fuel with
  | O => Fuel
  | S fuel' =>
      match next with
      | None => Ok []
      | Some (j, e) =>
          if match ret with Some r => Nat.eqb j r | None => false end then Ok []
          else match e with
               | EEntry _ =>
                   match function_return evs j with
                   | None => Ok [j]
                   | Some k => do r <- calls_loop fuel' evs ret (next_cf evs k); Ok (j :: r)
                   end
               | _ => calls_loop fuel' evs ret (next_cf evs j)
               end
      end
  end.
Definition calls (evs : trace) (i : nat) : Res (list nat) :=
  calls_loop (S (length evs)) evs (function_return evs i) (next_cf evs i).

(** FunctionInvocation.basic_blocks, 973-981. *)
Fixpoint blocks_loop (fuel : nat) (evs : trace) (entry : option nat) : Res (list nat) :=
  match fuel with
  | O => Fuel
  | S fuel' =>
      match entry with
      | None => Ok []
      | Some j => do n <- next_block evs j; do r <- blocks_loop fuel' evs n; Ok (j :: r)
      end
  end.
Definition basic_blocks (evs : trace) (i : nat) : Res (list nat) :=
  do e <- entrypoint evs i; blocks_loop (S (length evs)) evs e.
(** FunctionInvocation.__iter__, 961-971. *)
Definition invocation_iter (evs : trace) (i : nat) : Res (list nat) :=
  do bs <- basic_blocks evs i;
  Ok (flat_map (fun b => b :: match called_function evs b with Some c => [c] | None => [] end) bs).

(** ProgramTrace.next_function_entry, 1184-1201: the loop does not change [next]. *)
Fixpoint entry_loop (fuel : nat) (next : option place) : Res (option nat) :=
  match fuel with
  | O => Fuel
  | S fuel' =>
      match next with
      | None => Ok None
      | Some (j, EEntry _) => Ok (Some j)
      | Some _ => entry_loop fuel' next
      end
  end.
Fixpoint first_entry (evs : trace) (i : nat) : option nat :=
  match evs with
  | [] => None
  | EEntry _ :: _ => Some i
  | _ :: r => first_entry r (S i)
  end.
Definition next_function_entry (fuel : nat) (evs : trace) (after : option nat) : Res (option nat) :=
  match after with
  | None => Ok (first_entry evs 0)
  | Some a =>
      entry_loop fuel
        (match function_return evs a with
         | None => next_cf evs a
         | Some r => match next_cf evs r with Some (j, EBlock b) => Some (j, EBlock b) | _ => None end
         end)
  end.
