(** C73: signal handlers of an instrumented program run as without instrumentation. *)
From Coq Require Import NArith ZArith List Bool Lia.
From Verif Require Import M_Base M_Memory M_Labels M_Dfsan M_DfsanStr M_DfsanSys M_DfsanSignal S_Labels S_Dfsan S_DfsanSys S_Signal
  P_Base P_Memory P_Dfsan P_DfsanStr P_DfsanFormat P_DfsanSys P_DfsanSignal.
Import ListNotations.
Open Scope N_scope.

(** The runtime's table is zero at the start. *)
Definition started (k : actions) : dstate := mk_dstate (fun _ => 0) k.

(** Every result of sigaction and signal and every delivered signal is the same. *)
Theorem C73_same_partial : forall K k es,
  fresh k -> Forall proper es -> no_mixing K k es -> run K (started k) es = Ok (plain_run K k es).
Proof. intros K k es F P N. apply run_same; auto. now apply inv_fresh. Qed.

(** With any mixture of sigaction and signal, signals are delivered to the same functions,
    and sigaction reports the same. *)
Theorem C73_delivery : forall K k es,
  fresh k -> Forall proper es ->
  exists os, run K (started k) es = Ok os /\ without_signal os = without_signal (plain_run K k es).
Proof. intros K k es F P. apply run_delivery; auto. now apply inv_fresh. Qed.

(** Linux: signals 1 to 64; 9 and 19 are fixed; SA_RESETHAND is bit 31. *)
Definition linux : kernel := mk_kernel (fun s => (1 <=? s) && (s <=? 64))%Z (fun s => (s =? 9) || (s =? 19))%Z (fun o => N.testbit o 31).
Definition default : actions := fun _ => mk_action false SIG_DFL 0.
Definition demo_events : list event :=
  [Signal 2 0x401000; Arrives 2; Sigaction 2 (Some (mk_action true 0x402000 0)); Arrives 2; Sigaction 2 None;
   Sigaction 9 (Some (mk_action false 0x403000 0)); Sigaction 15 (Some (mk_action false 0x404000 0x80000000)); Arrives 15; Arrives 15; Sigaction 900 None]%Z.
Example C73_case :
  fresh default /\ Forall proper demo_events /\ no_mixing linux default demo_events /\
  run linux (started default) demo_events =
  Ok [Old_handler (Some SIG_DFL); Delivered (Calls 0x401000 false); Old_action (Some (mk_action false 0x401000 restart));
      Delivered (Calls 0x402000 true); Old_action (Some (mk_action true 0x402000 0));
      Old_action None; Old_action (Some (mk_action false SIG_DFL 0)); Delivered (Calls 0x404000 false); Delivered By_default; Old_action None].
Proof.
  split; [intros s; left; reflexivity|]. split.
  - unfold demo_events. repeat (apply Forall_cons; [cbn [proper handler]; unfold user_function; repeat split; (lia || discriminate)|]). apply Forall_nil.
  - split; [cbn; repeat split; auto|]. vm_compute. reflexivity.
Qed.

(** Without the hypothesis no_mixing the first theorem is false: signal, called while a
    function with SA_SIGINFO is installed, returns the address of the runtime's own
    handler; restoring what it returned makes that handler call itself. *)
Theorem C73_mixing_refuted : forall K k s f g o,
  fresh k -> (0 <= s < 1024)%Z -> exists_ K s = true -> fixed K s = false ->
  special f = false -> special g = false -> user_function f -> user_function g ->
  let restored := [Sigaction s (Some (mk_action true f o)); Signal s g; Signal s SIGNAL_ACTION; Arrives s] in
  run K (started k) restored =
    Ok [Old_action (Some (k s)); Old_handler (Some SIGNAL_ACTION); Old_handler (Some g); Delivered (Calls SIGNAL_ACTION false)] /\
  plain_run K k [Sigaction s (Some (mk_action true f o)); Signal s g; Signal s f; Arrives s] =
    [Old_action (Some (k s)); Old_handler (Some f); Old_handler (Some g); Delivered (Calls f false)].
Proof.
  intros K k s f g o F R Ex Fx Sf Sg Uf Ug. cbv zeta.
  assert (Rs : reported 0 (k s) = k s).
  { unfold reported. destruct (siginfo (k s)), (F s) as [-> | ->]; reflexivity. }
  assert (Eg : (g =? SIG_ERR) = false) by (apply N.eqb_neq; apply Ug).
  assert (Ef : (f =? SIG_ERR) = false) by (apply N.eqb_neq; apply Uf).
  assert (Sf' := Sf). unfold special in Sf'. apply orb_false_iff in Sf' as [Sf1 Sf2].
  split.
  - unfold run, step, started. rewrite sigaction_function by assumption. cbn [bind]. rewrite signal_function by assumption. cbn [bind].
    rewrite signal_function by (assumption || reflexivity). cbn [bind]. unfold deliver, kernel_deliver. cbn [kern table_of]. rewrite !update_same.
    cbn [handler siginfo others]. rewrite Rs. reflexivity.
  - unfold plain_run, plain_step, libc_signal. rewrite Eg, Ef. unfold libc_sigaction. rewrite Ex, Fx. cbn match.
    rewrite !update_same. cbn [handler]. unfold kernel_deliver. rewrite !update_same. cbn [handler siginfo others]. rewrite Sf1, Sf2. reflexivity.
Qed.
Example C73_mixing_case :
  (exists_ linux 2 = true /\ fixed linux 2 = false)%Z /\ special 0x401000 = false /\ user_function 0x401000.
Proof. unfold user_function. repeat split; discriminate. Qed.

(** PolyTracker's own ABI list wraps sigaction but leaves signal to libc
    (polytracker/custom_abi/dfsan_abilist.txt:309, 3331): signal then returns the
    runtime's handler in every case, and the program never sees its own function again. *)
Theorem C73_list_refuted : forall K k s b f g o,
  fresh k -> (0 <= s < 1024)%Z -> exists_ K s = true -> fixed K s = false ->
  special f = false -> user_function g ->
  exists st k', dfsw_sigaction K (started k) s (Some (mk_action b f o)) = Ok (Some (k s), st) /\
  libc_signal K (kern st) s g = Some (if b then SIGNAL_ACTION else SIGNAL_HANDLER, k').
Proof.
  intros K k s b f g o F R Ex Fx Sf Ug.
  assert (Rs : reported 0 (k s) = k s).
  { unfold reported. destruct (siginfo (k s)), (F s) as [-> | ->]; reflexivity. }
  assert (Eg : (g =? SIG_ERR) = false) by (apply N.eqb_neq; apply Ug).
  unfold dfsw_sigaction. rewrite checked_ok by exact R. unfold install. cbn [handler siginfo others table_of kern started].
  rewrite Sf. unfold libc_sigaction. rewrite Ex, Fx. rewrite Rs. eexists. eexists. split; [reflexivity|].
  unfold libc_signal, libc_sigaction. rewrite Eg, Ex, Fx. cbn [kern]. rewrite update_same. reflexivity.
Qed.

(** Signal numbers that do not exist: the uninstrumented call just fails. *)
Theorem C73_number_refuted : forall K k s act,
  exists_ K s = false -> (s < 0 \/ 1024 <= s)%Z ->
  libc_sigaction K k s act = None /\ dfsw_sigaction K (started k) s act = (if (s <? 0)%Z then UB else Exit).
Proof.
  intros K k s act Ex H. unfold libc_sigaction, dfsw_sigaction, checked, MAX_SIGNALS. rewrite Ex. split; [reflexivity|].
  destruct (1024 <=? s)%Z eqn:E1, (s <? 0)%Z eqn:E2; try reflexivity; try apply Z.leb_le in E1; try apply Z.leb_gt in E1;
    try apply Z.ltb_lt in E2; try apply Z.ltb_ge in E2; lia.
Qed.

(** signal(s, SIG_ERR) fails without instrumentation; with it SIG_ERR is installed, to be
    called when the signal arrives. *)
Theorem C73_sig_err_refuted : forall K k s,
  fresh k -> (0 <= s < 1024)%Z -> exists_ K s = true -> fixed K s = false ->
  plain_run K k [Signal s SIG_ERR; Arrives s] = [Old_handler None; fst (plain_step K k (Arrives s))] /\
  run K (started k) [Signal s SIG_ERR; Arrives s] = Ok [Old_handler (Some (handler (k s))); Delivered (Calls SIG_ERR false)].
Proof.
  intros K k s F R Ex Fx. split.
  - unfold plain_run, plain_step, libc_signal. rewrite N.eqb_refl. destruct (kernel_deliver K k s). reflexivity.
  - unfold run, step, started. rewrite signal_function by (assumption || reflexivity). cbn [bind]. unfold deliver, kernel_deliver. cbn [kern table_of].
    rewrite !update_same. cbn [handler siginfo others].
    destruct (F s) as [-> | ->]; reflexivity.
Qed.

(** A signal that arrives after the table was written and before the kernel has the new
    action: the new function runs before it is installed, and it is called as the old one
    was declared. *)
Theorem C73_window_refuted : forall K k s b c f g o o',
  fresh k -> (0 <= s < 1024)%Z -> exists_ K s = true -> fixed K s = false -> special f = false -> special g = false ->
  exists r st, dfsw_sigaction K (started k) s (Some (mk_action b f o)) = Ok (r, st) /\
  fst (deliver K st s) = Calls f b /\
  fst (deliver K (mk_dstate (fst (install (table_of st) s (mk_action c g o'))) (kern st)) s) = Calls g b.
Proof.
  intros K k s b c f g o o' F R Ex Fx Sf Sg. unfold dfsw_sigaction. rewrite checked_ok by exact R.
  unfold install. cbn [handler siginfo others table_of kern started]. rewrite Sf, Sg. unfold libc_sigaction. rewrite Ex, Fx.
  eexists. eexists. split; [reflexivity|]. unfold deliver, kernel_deliver. cbn [kern table_of fst]. rewrite !update_same. cbn [handler siginfo others].
  destruct b; split; reflexivity.
Qed.

(** While a handler runs its arguments have no label, and with SA_SIGINFO neither have the
    objects they point to; the labels of all other memory stay. *)
Theorem C73_arguments : forall (tls : list N) n i, (i < n)%nat -> nth i (clear_arg_tls tls n) 0 = 0.
Proof.
  intros tls n i H. unfold clear_arg_tls. destruct (Nat.lt_ge_cases i (length tls)) as [L|L].
  - rewrite app_nth1 by (rewrite repeat_length; lia). apply nth_repeat.
  - apply nth_overflow. rewrite app_length, repeat_length, skipn_length. lia.
Qed.
Theorem C73_objects : forall m si uc, object (si, 128) -> object (uc, 968) ->
  exists m', signal_action_labels m si uc = Ok m' /\ same_app m m' /\
  (forall q, app_byte q -> within si 128 q \/ within uc 968 q -> label_at m' q = 0) /\
  (forall q, app_byte q -> ~ within si 128 q -> ~ within uc 968 q -> label_at m' q = label_at m q).
Proof.
  intros m si uc O1 O2. destruct (clear_ok m si 128 O1) as (m1 & E1 & C1). destruct (clear_ok m1 uc 968 O2) as (m2 & E2 & C2).
  destruct (cleared_app _ _ _ _ _ C1 C2) as (A & B & C). unfold clear in *. unfold signal_action_labels. rewrite E1. cbn [bind]. rewrite E2.
  exists m2. split; [reflexivity|]. split; [exact A|]. split.
  - intros q Q W. apply B; [exact Q|]. destruct W as [W|W]; [exists si, 128 | exists uc, 968]; cbn; auto.
  - intros q Q W1 W2. apply C; [exact Q|]. intros (p & n & I & W). cbn in I. destruct I as [I|[I|[]]]; inversion I; subst; contradiction.
Qed.
Example C73_objects_case : object (0x7fff00001000, 128) /\ object (0x7fff00002000, 968).
Proof. split; right; cbn [fst snd]; lia. Qed.

(** The labels of a call that was interrupted while its arguments were being passed are
    lost: after the handler every cell is zero. *)
Theorem C73_interrupted_refuted : forall (tls : list N) i, nth i (clear_tls tls) 0 = 0 /\
  (nth i tls 0 <> 0 -> nth i (clear_tls tls) 0 <> nth i tls 0).
Proof.
  intros tls i. assert (E : nth i (clear_tls tls) 0 = 0) by (unfold clear_tls; apply nth_repeat). split; [exact E|]. rewrite E. auto.
Qed.

Print Assumptions C73_same_partial.
Print Assumptions C73_delivery.
Print Assumptions C73_mixing_refuted.
Print Assumptions C73_list_refuted.
Print Assumptions C73_number_refuted.
Print Assumptions C73_sig_err_refuted.
Print Assumptions C73_window_refuted.
Print Assumptions C73_arguments.
Print Assumptions C73_objects.
Print Assumptions C73_interrupted_refuted.
