(** Specification of the control-flow log: what a run of the program looks like and what
    a reader should report.  Call stacks are outermost first. *)
From Coq Require Import NArith List.
From Verif Require Import M_Base M_Memory M_Section M_CfLog M_PySections.
Import ListNotations.
Open Scope N_scope.

(** Function ids and labels are 32-bit values. *)
Definition cf_ok (e : cf_event) : Prop :=
  match e with
  | CfEnter f | CfLeave f => f < 2 ^ 32
  | CfTainted l f => l < 2 ^ 32 /\ f < 2 ^ 32
  end.

(** A sequence of logging calls. *)
Fixpoint cf_log_all (m : mem) (s : sect) (es : list cf_event) : Res (mem * sect) :=
  match es with
  | [] => Ok (m, s)
  | e :: rest => do r <- cf_log m s e; let (m1, s1) := r in cf_log_all m1 s1 rest
  end.

(** Bytes needed: one for the kind and one to five for each number. *)
Definition number_size (v : N) : N :=
  if v <? 2 ^ 7 then 1 else if v <? 2 ^ 14 then 2 else if v <? 2 ^ 21 then 3 else if v <? 2 ^ 28 then 4 else 5.
Definition event_size (e : cf_event) : N :=
  match e with
  | CfEnter f | CfLeave f => 1 + number_size f
  | CfTainted l f => 1 + number_size f + number_size l
  end.
Definition log_size (es : list cf_event) : N := fold_right (fun e n => event_size e + n) 0 es.

Section Stack.
  Context {A : Type} (name : N -> option A).

  (** The function an event other than an entry talks about. *)
  Definition concerns (e : cf_event) (g : A) : Prop :=
    match e with
    | CfEnter _ => False
    | CfLeave f => name f = Some g
    | CfTainted _ f => name f = Some g
    end.

  (** Execution with call stack [s]: the events logged, what should be reported for
      them, and the call stack afterwards.  [run_unwind]: frames may disappear without
      a leave event (exceptions, longjmp); this is noticed at the next event, which is
      about a function further out on the stack. *)
  Inductive run_stack : list A -> list cf_event -> list (py_cf_event A) -> list A -> Prop :=
  | run_done s : run_stack s [] [] s
  | run_enter s f g es rs s' : name f = Some g ->
      run_stack (s ++ [g]) es rs s' -> run_stack s (CfEnter f :: es) (PyEnter (s ++ [g]) :: rs) s'
  | run_leave s f g es rs s' : name f = Some g ->
      run_stack s es rs s' -> run_stack (s ++ [g]) (CfLeave f :: es) (PyLeave (s ++ [g]) :: rs) s'
  | run_tainted s f g l es rs s' : name f = Some g ->
      run_stack (s ++ [g]) es rs s' ->
      run_stack (s ++ [g]) (CfTainted l f :: es) (PyTainted (s ++ [g]) l :: rs) s'
  | run_unwind s h g e es rs s' : concerns e g -> g <> h -> In g s ->
      run_stack s (e :: es) rs s' -> run_stack (s ++ [h]) (e :: es) (PyLeave (s ++ [h]) :: rs) s'.

  (** At the end of the log the frames still on the stack are left, innermost first. *)
  Fixpoint leave_all_rev (s : list A) : list (py_cf_event A) :=
    match s with
    | [] => []
    | g :: r => PyLeave (rev s) :: leave_all_rev r
    end.
  Definition leave_all (s : list A) : list (py_cf_event A) := leave_all_rev (rev s).
End Stack.

(** Properly nested logs: every frame is left before the frame below it. *)
Inductive nested_in : list N -> list cf_event -> Prop :=
| nest_done s : nested_in s []
| nest_enter s f es : nested_in (f :: s) es -> nested_in s (CfEnter f :: es)
| nest_leave s f es : nested_in s es -> nested_in (f :: s) (CfLeave f :: es)
| nest_tainted s f l es : nested_in (f :: s) es -> nested_in (f :: s) (CfTainted l f :: es).

(** The event behind a report. *)
Definition reported (r : py_cf_event N) : option cf_event :=
  match r with
  | PyEnter s => option_map CfEnter (hd_error (rev s))
  | PyLeave s => option_map CfLeave (hd_error (rev s))
  | PyTainted s l => option_map (CfTainted l) (hd_error (rev s))
  end.
