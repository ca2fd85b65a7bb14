(** A program that uses signals: what it does and what it observes. *)
From Coq Require Import NArith ZArith List Bool.
From Verif Require Import M_Base M_DfsanSignal.
Import ListNotations.
Open Scope N_scope.

Inductive event : Type :=
| Sigaction (s : Z) (act : option action)
| Signal (s : Z) (h : N)
| Arrives (s : Z).

Inductive outcome : Type :=
| Old_action (a : option action)   (* the result of sigaction; [None]: -1 *)
| Old_handler (h : option N)       (* the result of signal; [None]: SIG_ERR *)
| Delivered (d : delivery).

(** The program without instrumentation: libc and the kernel. *)
Definition plain_step (K : kernel) (k : actions) (e : event) : outcome * actions :=
  match e with
  | Sigaction s act =>
      match libc_sigaction K k s act with Some (o, k') => (Old_action (Some o), k') | None => (Old_action None, k) end
  | Signal s h =>
      match libc_signal K k s h with Some (o, k') => (Old_handler (Some o), k') | None => (Old_handler None, k) end
  | Arrives s => let '(d, k') := kernel_deliver K k s in (Delivered d, k')
  end.
Fixpoint plain_run (K : kernel) (k : actions) (es : list event) : list outcome :=
  match es with
  | [] => []
  | e :: r => let '(o, k') := plain_step K k e in o :: plain_run K k' r
  end.

(** The instrumented program. *)
Definition step (K : kernel) (st : dstate) (e : event) : Res (outcome * dstate) :=
  match e with
  | Sigaction s act => do (o, st') <- dfsw_sigaction K st s act; Ok (Old_action o, st')
  | Signal s h => do (o, st') <- dfsw_signal K st s h; Ok (Old_handler o, st')
  | Arrives s => let '(d, st') := deliver K st s in Ok (Delivered d, st')
  end.
Fixpoint run (K : kernel) (st : dstate) (es : list event) : Res (list outcome) :=
  match es with
  | [] => Ok []
  | e :: r => do (o, st') <- step K st e; do os <- run K st' r; Ok (o :: os)
  end.

(** Functions of the program are not those of the runtime. *)
Definition user_function (h : N) : Prop := h <> SIGNAL_HANDLER /\ h <> SIGNAL_ACTION /\ h <> SIG_ERR.
Definition proper (e : event) : Prop :=
  match e with
  | Sigaction s act => (0 <= s < 1024)%Z /\ match act with Some a => user_function (handler a) | None => True end
  | Signal s h => (0 <= s < 1024)%Z /\ user_function h
  | Arrives s => True
  end.

(** signal is not used while a function with three arguments (SA_SIGINFO) is installed. *)
Fixpoint no_mixing (K : kernel) (k : actions) (es : list event) : Prop :=
  match es with
  | [] => True
  | e :: r =>
      match e with
      | Signal s _ => siginfo (k s) = false \/ handler (k s) = SIG_DFL \/ handler (k s) = SIG_IGN
      | _ => True
      end /\ no_mixing K (snd (plain_step K k e)) r
  end.

(** At the start of a program signals are ignored or have their default action. *)
Definition fresh (k : actions) : Prop := forall s, handler (k s) = SIG_DFL \/ handler (k s) = SIG_IGN.

(** Results with those of signal left out. *)
Definition without_signal (os : list outcome) : list outcome :=
  filter (fun o => match o with Old_handler _ => false | _ => true end) os.
