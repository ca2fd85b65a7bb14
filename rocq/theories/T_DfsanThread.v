(** C105: threads of an instrumented program run as without instrumentation, and the records
    the runtime keeps of them live exactly as long as they do. *)
From Coq Require Import NArith ZArith List Bool Lia.
From Verif Require Import M_Base M_DfsanThread S_DfsanThread P_Base P_DfsanThread.
Import ListNotations.
Open Scope N_scope.

(** Whatever threads do, in whatever order: the runtime never stops the program and never
    uses a record that is not there. *)
Theorem C105_never_fails : forall es st w e, history es st w -> possible st w e -> exists st', perform st w e = Ok st'.
Proof. intros es st w e H P. destruct (step_inv es st w e (history_inv _ _ _ H) P) as (st' & E & _). eauto. Qed.
Print Assumptions C105_never_fails.

(** A thread that has begun has called its start routine once, with its argument (and label
    0); before, it has called nothing. *)
Theorem C105_routine : forall es st w j r a, history es st w -> created_with es j r a -> r <> 0 ->
  (begun w j -> called st j = [(j, r, a, 0)]) /\ (~ begun w j -> called st j = []).
Proof.
  intros es st w j r a H C R. assert (I := history_inv _ _ _ H). split.
  - intros B. rewrite (i_calls _ _ _ I j r a C B). destruct (N.eqb_spec r 0); [contradiction|reflexivity].
  - apply (i_early _ _ _ I).
Qed.
Print Assumptions C105_routine.

(** From its beginning until libc goes through its data the last time, the thread finds its
    own record: so do the destructors the program has for its thread specific data, except
    in the last pass.  No two threads have the same record. *)
Theorem C105_current : forall es st w j t, history es st w -> begun w j -> record_of w j = Some t ->
  current st j = Some t /\ mem_ st t <> None /\ (forall k, current st k = Some t -> k = j).
Proof.
  intros es st w j t H B R. assert (I := history_inv _ _ _ H).
  assert (Own : forall k u, current st k = Some u -> record_of w k = Some u).
  { intros k u C. assert (T := i_thr _ _ _ I k). unfold ok_thread in T. unfold record_of.
    destruct (phase_of w k) as [|v|v|v n|]; try (destruct T; congruence).
    destruct (n <? libc_passes); [destruct T; congruence|destruct T as (_ & T & _); congruence]. }
  split; [|split].
  - assert (T := i_thr _ _ _ I j). unfold ok_thread in T. unfold record_of in R. unfold begun in B.
    destruct (phase_of w j) as [|v|v|v n|]; try contradiction; try discriminate.
    + destruct T; congruence.
    + destruct (n <? libc_passes); [destruct T; congruence|discriminate].
  - exact (rec_mapped _ _ _ _ _ I R).
  - intros k C. exact (i_one _ _ _ I _ _ _ (Own k t C) R).
Qed.
Print Assumptions C105_current.

(** The memory in use for records is exactly that of the threads there are, and of attempts
    to create one that failed. *)
Theorem C105_memory : forall es st w t, history es st w ->
  (mem_ st t <> None <-> (exists j, record_of w j = Some t) \/ failed_at es t).
Proof. intros es st w t H. exact (i_mapped _ _ _ (history_inv _ _ _ H) t). Qed.
Print Assumptions C105_memory.

(** When all threads are gone and every attempt succeeded, none is left. *)
Theorem C105_freed_partial : forall es st w, history es st w -> (forall j, phase_of w j = Unborn \/ phase_of w j = Gone) ->
  (forall t r a l, ~ In (EFail t r a l) es) -> forall t, mem_ st t = None.
Proof.
  intros es st w H G F t. destruct (mem_ st t) eqn:M; [|reflexivity]. exfalso.
  destruct (proj1 (C105_memory es st w t H)) as [(j & R)|(r0 & a & l & X)]; [congruence| |exact (F _ _ _ _ X)].
  unfold record_of in R. destruct (G j) as [E|E]; rewrite E in R; discriminate.
Qed.
Print Assumptions C105_freed_partial.

(** A record stays for every attempt that failed: any number of them, with no thread at
    all. *)
Theorem C105_freed_refuted : forall n : nat, exists es st, history es st nobody /\ length es = n /\
  (forall k, k < N.of_nat n -> mem_ st (4096 * (k + 1)) <> None).
Proof.
  assert (G : forall n : nat, exists es st, history es st nobody /\ length es = n /\
    (forall k, k < N.of_nat n -> mem_ st (4096 * (k + 1)) <> None) /\ (forall t, 4096 * N.of_nat n < t -> mem_ st t = None)).
  { induction n as [|n (es & st & H & L & M & F)].
    - exists [], start. split; [constructor|]. split; [reflexivity|]. split; [intros k K; lia|]. reflexivity.
    - assert (P : possible st nobody (EFail (4096 * (N.of_nat n + 1)) 1 2 0)) by (cbn [possible]; apply F; lia).
      exists (es ++ [EFail (4096 * (N.of_nat n + 1)) 1 2 0]), (create st (4096 * (N.of_nat n + 1)) 1 2).
      split; [exact (h_event _ _ _ _ _ H P eq_refl)|]. split; [rewrite app_length, L; cbn; lia|]. cbn [create store mem_]. split.
      + intros k K. unfold put. destruct (N.eqb_spec (4096 * (k + 1)) (4096 * (N.of_nat n + 1))); [discriminate|]. apply M. lia.
      + intros t T. rewrite put_other by lia. apply F. lia. }
  intros n. destruct (G n) as (es & st & H & L & M & _). eauto.
Qed.
Print Assumptions C105_freed_refuted.

(** The runtime knows whether a signal handler is running in a thread, as long as the thread
    has a record. *)
Theorem C105_signals : forall es st w j t, history es st w -> begun w j -> record_of w j = Some t ->
  in_signal st j = Ok (0 <? depth w j).
Proof.
  intros es st w j t H B R. assert (I := history_inv _ _ _ H). assert (T := i_thr _ _ _ I j).
  assert (X : current st j = Some t /\ exists r, mem_ st t = Some r /\ in_signal_handler r = depth w j).
  { unfold ok_thread in T. unfold record_of in R. unfold begun in B. destruct (phase_of w j) as [|v|v|v n|]; try contradiction; try discriminate.
    - injection R as ->. destruct T as (T1 & T2 & r & M & E1 & E2). eauto.
    - destruct (n <? libc_passes); [|discriminate]. injection R as ->. destruct T as (T1 & T2 & r & M & E1 & E2). eauto. }
  destruct X as (C & r & M & E). unfold in_signal, deref. rewrite C, M. cbn [bind]. rewrite E.
  destruct (N.eqb_spec (depth w j) 0) as [->|], (N.ltb_spec 0 (depth w j)); try lia; reflexivity.
Qed.
Print Assumptions C105_signals.

(** The label of the argument is lost: a thread created with an argument that has label 7
    gets it without label. *)
Theorem C105_label_refuted : exists es st w, history es st w /\ In (ECreate 1 4096 5 6 7) es /\ called st 1 = [(1, 5, 6, 0)].
Proof.
  assert (H1 := h_event [] start nobody (ECreate 1 4096 5 6 7) _ h_start (conj eq_refl eq_refl) eq_refl).
  assert (H2 := h_event _ _ _ (EStart 1) _ H1 (conj (ex_intro _ 4096 eq_refl) eq_refl) eq_refl).
  eexists _, _, _. split; [exact H2|]. split; [left; reflexivity|reflexivity].
Qed.
Print Assumptions C105_label_refuted.

(** The attribute object the program passes is left alone if its stack is large enough or
    the program provides it; otherwise the program finds another size in it afterwards. *)
Theorem C105_attributes_partial : forall min addr size, min <= size \/ (addr <> 0 /\ (addr + size) mod 2 ^ 64 <> 0) \/ size = 0 ->
  adjust_stack_size min addr size = size.
Proof.
  intros min addr size H. unfold adjust_stack_size, add64. change two64 with (2 ^ 64). destruct (N.ltb_spec size min); [|reflexivity].
  destruct (N.eqb_spec addr 0), (N.eqb_spec ((addr + size) mod 2 ^ 64) 0), (N.eqb_spec size 0); cbn [negb andb]; try reflexivity; exfalso; tauto || (destruct H as [H|[H|H]]; [lia|tauto|contradiction]).
Qed.
Print Assumptions C105_attributes_partial.

Theorem C105_attributes_refuted : forall min size, 0 < size -> size < min -> min < 2 ^ 64 -> adjust_stack_size min (2 ^ 64 - size) size = min /\ min <> size.
Proof.
  intros min size P L B. unfold adjust_stack_size, add64. destruct (N.ltb_spec size min); [|lia].
  replace (2 ^ 64 - size + size) with two64 by (unfold two64; change (2 ^ 64) with 18446744073709551616 in *; lia).
  rewrite N.mod_same by discriminate. rewrite N.eqb_refl. destruct (N.eqb_spec size 0); [lia|]. rewrite andb_false_r. split; [reflexivity|lia].
Qed.
Print Assumptions C105_attributes_refuted.

(** Non-vacuity: a thread is created, begins, a signal arrives, it ends; libc goes through
    its data four times; then its record is gone, and its memory is used for the next. *)
Definition a_life : list event :=
  [ECreate 1 4096 5 6 0; EStart 1; EEnter 1; ELeave 1; EExit 1; ERound 1; ERound 1; ERound 1; ERound 1; EEnd 1; ECreate 2 4096 7 8 0; EStart 2].
Lemma next es st w e w' : history es st w -> possible st w e -> happens w e = w' -> exists st', history (es ++ [e]) st' w'.
Proof. intros H P <-. destruct (C105_never_fails es st w e H P) as (st' & E). exists st'. exact (h_event _ _ _ _ _ H P E). Qed.
Example C105_case : exists st w, history a_life st w /\ phase_of w 1 = Gone /\ begun w 2 /\ record_of w 2 = Some 4096 /\
  called st 1 = [(1, 5, 6, 0)] /\ called st 2 = [(2, 7, 8, 0)].
Proof.
  assert (H := h_start).
  destruct (next _ _ _ (ECreate 1 4096 5 6 0) _ H (conj eq_refl eq_refl) eq_refl) as (s1 & H1).
  destruct (next _ _ _ (EStart 1) _ H1 (conj (ex_intro _ 4096 eq_refl) eq_refl) eq_refl) as (s2 & H2).
  destruct (next _ _ _ (EEnter 1) _ H2 ltac:(split; [discriminate|split; [discriminate|reflexivity]]) eq_refl) as (s3 & H3).
  destruct (next _ _ _ (ELeave 1) _ H3 eq_refl eq_refl) as (s4 & H4).
  destruct (next _ _ _ (EExit 1) _ H4 (conj (ex_intro _ 4096 eq_refl) eq_refl) eq_refl) as (s5 & H5).
  destruct (next _ _ _ (ERound 1) _ H5 ltac:(split; [exists 4096, 0; split; reflexivity|reflexivity]) eq_refl) as (s6 & H6).
  destruct (next _ _ _ (ERound 1) _ H6 ltac:(split; [exists 4096, 1; split; reflexivity|reflexivity]) eq_refl) as (s7 & H7).
  destruct (next _ _ _ (ERound 1) _ H7 ltac:(split; [exists 4096, 2; split; reflexivity|reflexivity]) eq_refl) as (s8 & H8).
  destruct (next _ _ _ (ERound 1) _ H8 ltac:(split; [exists 4096, 3; split; reflexivity|reflexivity]) eq_refl) as (s9 & H9).
  destruct (next _ _ _ (EEnd 1) _ H9 ltac:(split; [exists 4096, 4; split; [reflexivity|left; reflexivity]|reflexivity]) eq_refl) as (sa & Ha).
  assert (F : mem_ sa 4096 = None).
  { apply (C105_freed_partial _ _ _ Ha).
    - intros j. destruct (N.eq_dec j 1) as [->|Nj]; [right; reflexivity|]. left.
      cbn. unfold put. destruct (N.eqb_spec j 1); [contradiction|reflexivity].
    - intros t r a l X. cbn in X. repeat (destruct X as [X|X]; [discriminate|]). exact X. }
  destruct (next _ _ _ (ECreate 2 4096 7 8 0) _ Ha (conj eq_refl F) eq_refl) as (sb & Hb).
  destruct (next _ _ _ (EStart 2) _ Hb (conj (ex_intro _ 4096 eq_refl) eq_refl) eq_refl) as (sc & Hc).
  eexists sc, _. split; [exact Hc|]. split; [reflexivity|]. split; [exact I|]. split; [reflexivity|]. split.
  - apply (C105_routine _ _ _ 1 5 6 Hc); [exists 4096, 0; left; reflexivity|discriminate|exact I].
  - apply (C105_routine _ _ _ 2 7 8 Hc); [exists 4096, 0; do 10 right; left; reflexivity|discriminate|exact I].
Qed.
