(** Signal handlers in the DFSan runtime
    (polytracker/src/compiler-rt/lib/dfsan/dfsan_custom.cpp:1586-1739).
    The runtime installs a handler of its own and keeps the function of the program in a
    table.  Simplified: one thread; function pointers are numbers; what else is in struct
    sigaction is one number; the kernel's part (which signals exist and may be changed,
    SA_RESETHAND) is given by three functions. *)
From Coq Require Import NArith ZArith List Bool.
From Verif Require Import M_Base M_Memory M_Labels M_Dfsan M_DfsanStr.
Import ListNotations.
Open Scope N_scope.

Definition SIG_DFL : N := 0.
Definition SIG_IGN : N := 1.
Definition SIG_ERR : N := two64 - 1.
(** The addresses of SignalHandler (1625-1639) and SignalAction (1641-1654); any values
    distinct from each other and from the above would do. *)
Definition SIGNAL_HANDLER : N := 2.
Definition SIGNAL_ACTION : N := 3.
(** 1622. *)
Definition MAX_SIGNALS : Z := 1024.

(** struct sigaction: SA_SIGINFO, the handler, mask and other flags. *)
Record action : Type := mk_action { siginfo : bool; handler : N; others : N }.

(** The kernel: the action of every signal; [exists_ s]: s is a signal; [fixed s]: its
    action cannot be changed (SIGKILL, SIGSTOP); [one_shot o]: the flags hold
    SA_RESETHAND. *)
Record kernel : Type := mk_kernel { exists_ : Z -> bool; fixed : Z -> bool; one_shot : N -> bool }.
Definition actions : Type := Z -> action.
Definition update {A} (f : Z -> A) (s : Z) (x : A) : Z -> A := fun y => if (y =? s)%Z then x else f y.

(** sigaction (libc): [None] is the result -1; otherwise the old action. *)
Definition libc_sigaction (K : kernel) (k : actions) (s : Z) (act : option action) : option (action * actions) :=
  if exists_ K s then
    match act with
    | None => Some (k s, k)
    | Some a => if fixed K s then None else Some (k s, update k s a)
    end
  else None.

(** signal (libc, BSD semantics): installs with the flag SA_RESTART ([restart]) and
    returns the old handler. *)
Definition restart : N := 0x10000000.
Definition libc_signal (K : kernel) (k : actions) (s : Z) (h : N) : option (N * actions) :=
  if h =? SIG_ERR then None
  else
    match libc_sigaction K k s (Some (mk_action false h restart)) with
    | Some (old, k') => Some (handler old, k')
    | None => None
    end.

(** The table sigactions (1623) and the actions the kernel has. *)
Record dstate : Type := mk_dstate { table_of : Z -> N; kern : actions }.

(** sigactions[s]: an access outside the array is undefined; CHECK_LT(s, kMaxSignals)
    stops the program first if s is too large (1661, 1715). *)
Definition checked {A} (s : Z) (r : Res A) : Res A :=
  if (MAX_SIGNALS <=? s)%Z then Exit else if (s <? 0)%Z then UB else r.

Definition special (h : N) : bool := (h =? SIG_IGN) || (h =? SIG_DFL).

(** 1664-1681: the callback is stored and replaced by the handler of the runtime. *)
Definition install (tab : Z -> N) (s : Z) (a : action) : (Z -> N) * action :=
  if special (handler a) then (tab, a)
  else (update tab s (handler a), mk_action (siginfo a) (if siginfo a then SIGNAL_ACTION else SIGNAL_HANDLER) (others a)).

(** 1685-1693. *)
Definition reported (old_cb : N) (old : action) : action :=
  if handler old =? (if siginfo old then SIGNAL_ACTION else SIGNAL_HANDLER)
  then mk_action (siginfo old) old_cb (others old) else old.

(** __dfsw_sigaction, 1657-1700: the old action is stored through oldact if it is not
    null, and its labels are cleared (see C72). *)
Definition dfsw_sigaction (K : kernel) (st : dstate) (s : Z) (act : option action) : Res (option action * dstate) :=
  checked s (
    let old_cb := table_of st s in
    let '(tab, new) := match act with
                       | Some a => let '(t, a') := install (table_of st) s a in (t, Some a')
                       | None => (table_of st, None)
                       end in
    match libc_sigaction K (kern st) s new with
    | None => Ok (None, mk_dstate tab (kern st))
    | Some (old, k') => Ok (Some (reported old_cb old), mk_dstate tab k')
    end).

(** dfsan_signal, 1713-1730, behind __dfsw_signal, 1733-1739 ([None]: SIG_ERR). *)
Definition dfsw_signal (K : kernel) (st : dstate) (s : Z) (h : N) : Res (option N * dstate) :=
  checked s (
    let old_cb := table_of st s in
    let '(tab, h') := if special h then (table_of st, h) else (update (table_of st) s h, SIGNAL_HANDLER) in
    match libc_signal K (kern st) s h' with
    | None => Ok (None, mk_dstate tab (kern st))
    | Some (ret, k') => Ok (Some (if ret =? SIGNAL_HANDLER then old_cb else ret), mk_dstate tab k')
    end).

(** What happens when a signal is delivered. *)
Inductive delivery : Type :=
| By_default
| Ignored
| Calls (f : N) (with_info : bool).

(** The kernel looks at the action; it is reset first with SA_RESETHAND. *)
Definition kernel_deliver (K : kernel) (k : actions) (s : Z) : delivery * actions :=
  let a := k s in
  if handler a =? SIG_DFL then (By_default, k)
  else if handler a =? SIG_IGN then (Ignored, k)
  else (Calls (handler a) (siginfo a), if one_shot K (others a) then update k s (mk_action (siginfo a) SIG_DFL (others a)) else k).

(** The function of the program that runs: SignalHandler and SignalAction call what they
    find in the table at that moment (1635-1638, 1650-1653). *)
Definition deliver (K : kernel) (st : dstate) (s : Z) : delivery * dstate :=
  let '(d, k') := kernel_deliver K (kern st) s in
  (match d with
   | Calls f i => if f =? SIGNAL_HANDLER then Calls (table_of st s) false
                  else if f =? SIGNAL_ACTION then Calls (table_of st s) true
                  else Calls f i
   | _ => d
   end, mk_dstate (table_of st) k').

(** The labels of arguments while a handler runs: dfsan_clear_arg_tls (dfsan.cpp:922-924)
    at its start, for one label in SignalHandler (1633) and three in SignalAction (1646). *)
Definition clear_arg_tls (tls : list N) (n : nat) : list N := repeat 0 (Nat.min n (length tls)) ++ skipn n tls.
(** dfsan_clear_thread_local_state (dfsan.cpp:926-929), at the end of both (1615-1619). *)
Definition clear_tls (tls : list N) : list N := repeat 0 (length tls).

(** 1647-1648: SignalAction clears the labels of *si (128 bytes) and *uc (968 bytes). *)
Definition signal_action_labels (m : mem) (si uc : N) : Res mem :=
  do m1 <- set_label_any m 0 si 128;
  set_label_any m1 0 uc 968.
