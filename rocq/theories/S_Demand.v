(** What an execution may need of the runtime's finite resources, and what the wrappers refuse
    to go on with. *)
From Coq Require Import NArith ZArith List Bool.
From Verif Require Import M_Base M_Memory M_Dfsan M_Llvm S_Api S_Runtime S_DataFlow.
Import ListNotations.
Open Scope N_scope.

(** ** Labels *)
(** One label per input byte that is read, and at most one per pair of values combined. *)
Definition event_labels (v : event) : N :=
  match v with
  | ERead _ _ _ ret => Z.to_N ret
  | EFread _ _ size _ ret => size * ret
  | EFgets _ _ _ n _ => n
  | EGetc _ _ _ _ => 1
  | EMmap n _ _ _ => n
  | EArgv _ args => fold_right N.add 0 (map snd args)
  | ECompute _ _ _ => 1
  | _ => 0
  end.
Definition instr_labels (i : instr) : N :=
  match i with
  | IComp _ ops _ => len ops - 1
  | ILoad _ _ size _ => size
  | ISelect _ _ _ _ => 1
  | _ => 0
  end.
Definition step_labels (S : sstate) (a : answer) : N :=
  match s_frames S with
  | fr :: _ =>
      match f_rest fr with
      | ILib _ _ _ :: _ => match next_event S a with Some (_, v) => event_labels v | None => 0 end
      | i :: _ => instr_labels i
      | [] => 0
      end
  | [] => 0
  end.
Fixpoint run_labels (lossy argv : bool) (P : prog) (S : sstate) (as_ : list answer) : N :=
  match as_ with
  | [] => 0
  | a :: rest => step_labels S a + match sstep lossy argv P S a with Ok S' => run_labels lossy argv P S' rest | _ => 0 end
  end.

(** ** Logs *)
(** The log of function entries and exits holds 2^32 - 1 of them; an entry of the control-flow
    log takes at most 11 bytes of 2^30. *)
Definition logs_fit (s : ast) (log : list flow) : Prop := len (a_events s) <= 2 ^ 32 - 1 /\ 11 * len log <= 2 ^ 30.

(** ** Calls *)
(** File positions are below the largest offset that can be recorded, also for files that
    are not tracked; sizes can be represented. *)
Definition served (v : event) : Prop :=
  match v with
  | ERead _ _ pos _ | EFgets _ _ _ _ pos | EGetc _ pos _ _ | EMmap _ _ pos _ | EWrite _ _ pos _ | EPutc _ _ pos _ _ => (pos < 2 ^ 54)%Z
  | EFread _ _ size pos ret | EFwrite _ _ size pos ret => (pos < 2 ^ 54)%Z /\ size * ret < two64
  | _ => True
  end.
(** The callback at the entry of a function returns the index of its name. *)
Definition answered (s : ast) (v : event) (a : answer) : Prop :=
  match v with
  | EEnter name => index_of name (a_names s) = Some (an_val a)
  | _ => True
  end.
Fixpoint serviceable (lossy argv : bool) (P : prog) (S : sstate) (as_ : list answer) : Prop :=
  match as_ with
  | [] => True
  | a :: rest =>
      (forall s v, next_event S a = Some (s, v) -> served v /\ answered (estep argv s v) v a) /\
      forall S', sstep lossy argv P S a = Ok S' -> logs_fit (s_ast S') (s_log S') /\ serviceable lossy argv P S' rest
  end.

(** ** Sequences of events *)
(** From plain state [s] and with the log [log] behind it, the events [evs] are possible, and
    none of them exhausts a table other than that of labels. *)
Fixpoint endures (argv : bool) (s : ast) (log : list flow) (evs : list event) : Prop :=
  match evs with
  | [] => True
  | v :: rest =>
      event_ok s v /\ served v /\ within_limits (estep argv s v) /\ logs_fit (estep argv s v) (log ++ flow_of s v) /\
      endures argv (estep argv s v) (log ++ flow_of s v) rest
  end.
Definition events_labels (evs : list event) : N := fold_right N.add 0 (map event_labels evs).
