(** Property theorems about programs with several threads (C82). *)
From Coq Require Import NArith List Bool Lia.
From Verif Require Import S_Threads M_Threads P_Threads.
Import ListNotations.
Open Scope N_scope.

(** The instrumented program is in the state [o] of the program, labels aside. *)
Definition same_values (s : istate) (o : ostate) : Prop :=
  (forall t r, i_reg (i_thr s t) r = o_reg (o_thr o t) r) /\ (forall a, i_mem s a = o_mem o a) /\ (forall m, i_lock s m = o_lock o m).
(** Thread [t] is between two instructions. *)
Definition between (s : istate) (t : nat) : Prop := i_mid (i_thr s t) = MStart.

(** *** C82 *)

(** Instrumentation does not change what a program computes, whatever the schedule, races or not:
    every state the instrumented program gets to is one of the program, every state of the program
    is one the instrumented program gets to, and threads wait only where they did. *)
Theorem C82_values sem P o0 :
  (forall s, ireach sem P (istart o0) s -> exists o, oreach sem P o0 o /\ same_values s o /\
     (forall t, between s t -> i_pc (i_thr s t) = o_pc (o_thr o t)) /\
     (forall t, istep sem P s t = None -> ostep sem P o t = None)) /\
  (forall o, oreach sem P o0 o -> exists s, ireach sem P (istart o0) s /\ same_values s o /\
     (forall t, between s t /\ i_pc (i_thr s t) = o_pc (o_thr o t))).
Proof.
  split.
  - intros s H. destruct (reach_values sem P o0 s H) as (M & o & O & R). exists o. split; [exact O|].
    split; [split; [exact (r_reg _ _ R)|split; [exact (r_mem _ _ R)|exact (r_lock _ _ R)]]|].
    split; [intros t B; rewrite (r_pc _ _ R); unfold pc_of; rewrite B; reflexivity|].
    intros t. apply (step_progress sem P s o t R (M t)).
  - intros o H. destruct (reach_complete sem P o0 o H) as (s & I1 & R & M). exists s. split; [exact I1|].
    split; [split; [exact (r_reg _ _ R)|split; [exact (r_mem _ _ R)|exact (r_lock _ _ R)]]|].
    intro t. split; [apply M|]. rewrite (r_pc _ _ R). unfold pc_of. rewrite M. reflexivity.
Qed.
Print Assumptions C82_values.

Lemma labels_of strict sem P o0 s o : inv sem P strict o0 s o ->
  same_values s o /\ (forall t r, between s t -> rel strict (i_sh (i_thr s t) r) (o_dep (o_thr o t) r)) /\
  (forall a, (forall t, between s t) -> rel strict (i_msh s a) (o_mdep o a)).
Proof.
  intro V. pose proof (v_rel _ _ _ _ _ _ V) as R.
  split; [split; [exact (r_reg _ _ R)|split; [exact (r_mem _ _ R)|exact (r_lock _ _ R)]]|]. split.
  - intros t r B. apply (v_regs _ _ _ _ _ _ V). intros a d p E. unfold between in B. congruence.
  - intros a B. apply (v_cells _ _ _ _ _ _ V). intros (t & p & v & E & _). specialize (B t). unfold between in B. congruence.
Qed.

(** In a program without data races no thread sees a label on a value that does not depend on it. *)
Theorem C82_no_false_labels sem P o0 s : race_free sem P o0 -> ireach sem P (istart o0) s ->
  exists o, oreach sem P o0 o /\ same_values s o /\
    (forall t r, between s t -> within (i_sh (i_thr s t) r) (o_dep (o_thr o t) r)) /\
    (forall a, (forall t, between s t) -> within (i_msh s a) (o_mdep o a)).
Proof.
  intros RF H. destruct (reach_inv sem P false o0 RF) with (s := s) as (o & V); [discriminate|exact H|].
  exists o. split; [exact (v_reach _ _ _ _ _ _ V)|exact (labels_of false sem P o0 s o V)].
Qed.
Print Assumptions C82_no_false_labels.

(** And if it never writes inputs with atomic instructions, labels are exact, in every schedule. *)
Theorem C82_exact sem P o0 s : race_free sem P o0 -> untainted_atomics sem P o0 -> ireach sem P (istart o0) s ->
  exists o, oreach sem P o0 o /\ same_values s o /\
    (forall t r, between s t -> same (i_sh (i_thr s t) r) (o_dep (o_thr o t) r)) /\
    (forall a, (forall t, between s t) -> same (i_msh s a) (o_mdep o a)).
Proof.
  intros RF UA H. destruct (reach_inv sem P true o0 RF) with (s := s) as (o & V); [intros _; exact UA|exact H|].
  exists o. split; [exact (v_reach _ _ _ _ _ _ V)|exact (labels_of true sem P o0 s o V)].
Qed.
Print Assumptions C82_exact.

(** *** Programs that meet the hypotheses *)
Definition sem0 (op : N) (args : list N) : N :=
  match args with [x] => if x =? 0 then 1 else 0 | _ => fold_right N.add 0 args end.

(** Any number of threads; each adds its own input (register 2 of thread [t] is input byte [t]) to
    cell 0, under a mutex. *)
Definition mutex_prog : program := fun _ => [ILock 9; ILoad false 1 0; IOp 1 7 [1; 2]; IStore false 0 1; IUnlock 9].
Definition mutex_start : ostate :=
  mkOs (fun t => mkOt 0 (fun r => if r =? 2 then 5 else 0) (fun r => if r =? 2 then (fun b => b =? N.of_nat t) else d0))
       (fun _ => 0) (fun _ => d0) (fun _ => None).

Definition mutex_inv (o : ostate) : Prop :=
  forall t, ((1 <= o_pc (o_thr o t) <= 4)%nat -> o_lock o 9 = Some t).
Lemma mutex_reach o : oreach sem0 mutex_prog mutex_start o -> mutex_inv o.
Proof.
  induction 1 as [|o t o' _ IH H]; [intros t B; cbn in B; lia|].
  unfold ostep in H. destruct (o_pc (o_thr o t)) as [|[|[|[|[|n]]]]] eqn:EP; cbn in H.
  - destruct (o_lock o 9) eqn:EL; [discriminate|]. inversion H; subst; clear H. intros u B. cbn in *. unfold updt in B.
    destruct (Nat.eqb u t) eqn:E; [apply PeanoNat.Nat.eqb_eq in E; subst; reflexivity|]. apply IH in B. congruence.
  - inversion H; subst; clear H. intros u B. cbn in *. unfold updt in B. destruct (Nat.eqb u t) eqn:E.
    + apply PeanoNat.Nat.eqb_eq in E; subst. apply IH. lia.
    + apply IH, B.
  - inversion H; subst; clear H. intros u B. cbn in *. unfold updt in B. destruct (Nat.eqb u t) eqn:E.
    + apply PeanoNat.Nat.eqb_eq in E; subst. apply IH. lia.
    + apply IH, B.
  - inversion H; subst; clear H. intros u B. cbn in *. unfold updt in B. destruct (Nat.eqb u t) eqn:E.
    + apply PeanoNat.Nat.eqb_eq in E; subst. apply IH. lia.
    + apply IH, B.
  - destruct (o_lock o 9) as [w|] eqn:EL; [|discriminate]. destruct (Nat.eqb w t) eqn:EW; [|discriminate].
    inversion H; subst; clear H. intros u B. cbn in *. unfold updt in B. destruct (Nat.eqb u t) eqn:E.
    + cbn in B. lia.
    + apply IH in B. apply PeanoNat.Nat.eqb_eq in EW. apply PeanoNat.Nat.eqb_neq in E. congruence.
  - destruct n; discriminate.
Qed.
Lemma mutex_access o t a w at_ : access mutex_prog o t = Some (a, w, at_) -> (1 <= o_pc (o_thr o t) <= 4)%nat.
Proof.
  unfold access. destruct (o_pc (o_thr o t)) as [|[|[|[|[|n]]]]] eqn:EP; cbn; try discriminate; try lia. destruct n; discriminate.
Qed.
Example C82_case_race_free : race_free sem0 mutex_prog mutex_start /\ untainted_atomics sem0 mutex_prog mutex_start.
Proof.
  split.
  - intros o O (t & u & a & w1 & w2 & at1 & at2 & N & A & B & _). pose proof (mutex_reach o O) as M.
    pose proof (M t (mutex_access _ _ _ _ _ A)). pose proof (M u (mutex_access _ _ _ _ _ B)). congruence.
  - intros o t _. cbn. unfold next_instr, mutex_prog. destruct (o_pc (o_thr o t)) as [|[|[|[|[|[|n]]]]]]; exact I.
Qed.

(** Run the instrumented program by a schedule. *)
Fixpoint irun (sem : N -> list N -> N) (P : program) (s : istate) (sched : list nat) : option istate :=
  match sched with [] => Some s | t :: rest => match istep sem P s t with Some s' => irun sem P s' rest | None => None end end.
Lemma irun_reach sem P s0 sched : forall s s', ireach sem P s0 s -> irun sem P s sched = Some s' -> ireach sem P s0 s'.
Proof.
  induction sched as [|t rest IH]; cbn; intros s s' R H; [inversion H; subst; exact R|].
  destruct (istep sem P s t) as [s1|] eqn:E; [|discriminate]. apply (IH s1 s'); [econstructor; eassumption|exact H].
Qed.
Definition after (sem : N -> list N -> N) (P : program) (o0 : ostate) (sched : list nat) : istate :=
  match irun sem P (istart o0) sched with Some s => s | None => istart o0 end.
Lemma after_reach sem P o0 sched : (match irun sem P (istart o0) sched with Some _ => true | None => false end) = true ->
  ireach sem P (istart o0) (after sem P o0 sched).
Proof.
  unfold after. destruct (irun sem P (istart o0) sched) as [s|] eqn:E; [|discriminate]. intros _.
  eapply irun_reach; [constructor|exact E].
Qed.
(** Threads 1 and 0 both added their input; in the end the cell has both labels. *)
Example C82_case_mutex :
  exists s, ireach sem0 mutex_prog (istart mutex_start) s /\ (forall t, between s t) /\
    i_mem s 0 = 10 /\ map (i_msh s 0) [0; 1; 2] = [true; true; false].
Proof.
  exists (after sem0 mutex_prog mutex_start [1; 1; 1; 1; 1; 1; 1; 0; 0; 0; 0; 0; 0; 0]%nat). split; [apply after_reach; vm_compute; reflexivity|]. split; [|split; vm_compute; reflexivity].
  intros [|[|t]]; vm_compute; reflexivity.
Qed.

(** A hand-over through an atomic flag: thread 0 writes its input to cell 0 and then sets the flag, cell
    1; thread 1 waits for the flag and reads cell 0. *)
Definition flag_prog : program := fun t => match t with
  | O => [IStore false 0 2; IStore true 1 3]
  | S O => [ILoad true 4 1; IOp 5 0 [4]; IBr 5 0; ILoad false 6 0]
  | _ => []
  end.
Definition flag_start : ostate :=
  mkOs (fun t => mkOt 0 (fun r => match r with 1 => 1 | 2 => 5 | 3 => 1 | _ => 0 end) (fun r => if (r =? 2) && Nat.eqb t 0 then (fun b => b =? 7) else d0))
       (fun _ => 0) (fun _ => d0) (fun _ => None).
Record flag_inv (o : ostate) : Prop := mkFlag {
  f_regs : o_reg (o_thr o 0) 0 = 0 /\ o_reg (o_thr o 0) 1 = 1 /\ o_reg (o_thr o 0) 2 = 5 /\ o_reg (o_thr o 1) 0 = 0 /\ o_reg (o_thr o 1) 1 = 1;
  f_dep : same (o_dep (o_thr o 0) 3) d0 /\ same (o_mdep o 1) d0;
  f_set : o_mem o 1 = 0 \/ o_pc (o_thr o 0) = 2%nat;
  f_seen : o_reg (o_thr o 1) 4 = 0 \/ o_pc (o_thr o 0) = 2%nat;
  f_test : o_pc (o_thr o 1) = 2%nat -> o_reg (o_thr o 1) 5 = 0 -> o_reg (o_thr o 1) 4 <> 0;
  f_go : o_pc (o_thr o 1) = 3%nat -> o_reg (o_thr o 1) 4 <> 0
}.
Lemma flag_reach o : oreach sem0 flag_prog flag_start o -> flag_inv o.
Proof.
  induction 1 as [|o t o' _ [(R1 & R2 & R3 & R4 & R5) (D1 & D2) FS FN FT FG] H].
  - constructor; cbn; repeat split; auto; discriminate.
  - unfold ostep in H. destruct t as [|[|t]].
    + destruct (o_pc (o_thr o 0)) as [|[|n]] eqn:EP; [| |destruct n; discriminate]; cbn in H; inversion H; subst; clear H; rewrite ?R1, ?R2;
        constructor; cbn; auto; try (destruct FS; [auto|discriminate]); try (destruct FN; [auto|discriminate]).
    + destruct (o_pc (o_thr o 1)) as [|[|[|[|n]]]] eqn:EP; [| | | |destruct n; discriminate]; cbn in H; inversion H; subst; clear H.
      * constructor; cbn; auto; try discriminate. rewrite R5. exact FS.
      * constructor; cbn; auto; try discriminate. intros _ E. destruct (o_reg (o_thr o 1) 4 =? 0) eqn:Q; [discriminate|]. apply N.eqb_neq, Q.
      * destruct (o_reg (o_thr o 1) 5 =? 0) eqn:Q; constructor; cbn; auto; try discriminate.
        intros _. apply N.eqb_eq in Q. exact (FT eq_refl Q).
      * constructor; cbn; auto; try discriminate.
    + destruct (o_pc (o_thr o (S (S t)))); discriminate.
Qed.
Example C82_case_flag : race_free sem0 flag_prog flag_start /\ untainted_atomics sem0 flag_prog flag_start.
Proof.
  assert (A0 : forall o a w at_, flag_inv o -> access flag_prog o 0 = Some (a, w, at_) ->
    (a = 0 /\ o_pc (o_thr o 0) = 0%nat) \/ (a = 1 /\ at_ = true)).
  { intros o a w at_ F. unfold access. destruct (o_pc (o_thr o 0)) as [|[|n]] eqn:E; cbn; destruct (f_regs _ F) as (R1 & R2 & _).
    - rewrite R1. intro H. inversion H; subst. auto.
    - rewrite R2. intro H. inversion H; subst. auto.
    - destruct n; discriminate. }
  assert (A1 : forall o a w at_, flag_inv o -> access flag_prog o 1 = Some (a, w, at_) ->
    (a = 0 /\ o_pc (o_thr o 0) = 2%nat) \/ (a = 1 /\ at_ = true)).
  { intros o a w at_ F. unfold access. destruct (o_pc (o_thr o 1)) as [|[|[|[|n]]]] eqn:E; cbn; destruct (f_regs _ F) as (_ & _ & _ & R1 & R2); try discriminate.
    - rewrite R2. intro H. inversion H; subst. auto.
    - rewrite R1. intro H. inversion H; subst. left. split; [reflexivity|]. pose proof (f_go _ F E). destruct (f_seen _ F); [contradiction|assumption].
    - destruct n; discriminate. }
  assert (A2 : forall o t, access flag_prog o (S (S t)) = None).
  { intros o t. unfold access. destruct (o_pc (o_thr o (S (S t)))); reflexivity. }
  split.
  - intros o O (t & u & a & w1 & w2 & at1 & at2 & N & A & B & _ & AT). pose proof (flag_reach o O) as F.
    destruct t as [|[|t]]; [| |rewrite A2 in A; discriminate]; destruct u as [|[|u]]; try congruence; try (rewrite A2 in B; discriminate).
    + destruct (A0 _ _ _ _ F A) as [(-> & E)|(-> & ->)]; destruct (A1 _ _ _ _ F B) as [(Q & E')|(Q & E')]; try discriminate; try congruence.
      subst at2. discriminate AT.
    + destruct (A1 _ _ _ _ F A) as [(-> & E)|(-> & ->)]; destruct (A0 _ _ _ _ F B) as [(Q & E')|(Q & E')]; try discriminate; try congruence.
      subst at2. discriminate AT.
  - intros o t O. cbn. pose proof (flag_reach o O) as F. unfold next_instr, flag_prog. destruct t as [|[|t]].
    + destruct (o_pc (o_thr o 0)) as [|[|[|n]]]; cbn; auto. destruct (f_regs _ F) as (R1 & R2 & _). rewrite R2. destruct (f_dep _ F). auto.
    + destruct (o_pc (o_thr o 1)) as [|[|[|[|[|n]]]]]; exact I.
    + destruct (o_pc (o_thr o (S (S t)))); exact I.
Qed.
Example C82_case_flag_label :
  exists s, ireach sem0 flag_prog (istart flag_start) s /\ i_reg (i_thr s 1) 6 = 5 /\ i_sh (i_thr s 1) 6 7 = true.
Proof.
  exists (after sem0 flag_prog flag_start [1; 0; 1; 1; 0; 1; 0; 0; 1; 1; 1; 1; 1; 1]%nat). split; [apply after_reach; vm_compute; reflexivity|]. split; vm_compute; reflexivity.
Qed.

(** *** Where the hypotheses are needed *)
(** With a data race a value can lose its labels, and a value can get labels of another one. *)
Definition race_prog : program := fun t => match t with O => [IStore false 0 2] | S O => [ILoad false 6 0] | _ => [] end.
Lemma race_reach o : oreach sem0 race_prog flag_start o ->
  (o_reg (o_thr o 0) 0 = 0 /\ o_reg (o_thr o 0) 2 = 5 /\ o_reg (o_thr o 1) 0 = 0 /\ o_dep (o_thr o 0) 2 7 = true /\ o_dep (o_thr o 1) 0 7 = false) /\
  (o_mem o 0 = 5 /\ o_mdep o 0 7 = true \/ o_mem o 0 = 0 /\ o_mdep o 0 7 = false) /\
  (o_reg (o_thr o 1) 6 = 5 /\ o_dep (o_thr o 1) 6 7 = true \/ o_reg (o_thr o 1) 6 = 0 /\ o_dep (o_thr o 1) 6 7 = false).
Proof.
  induction 1 as [|o t o' _ ((R1 & R2 & R3 & R4 & R5) & M & L) H].
  - cbn. auto 10.
  - unfold ostep in H. destruct t as [|[|t]].
    + destruct (o_pc (o_thr o 0)) as [|n]; [|destruct n; discriminate]. cbn in H. inversion H; subst; clear H. cbn. rewrite R1. cbn. auto 10.
    + destruct (o_pc (o_thr o 1)) as [|n]; [|destruct n; discriminate]. cbn in H. inversion H; subst; clear H. cbn. rewrite R3. cbn.
      unfold du. rewrite R5, orb_false_r. auto 10.
    + destruct (o_pc (o_thr o (S (S t)))); discriminate.
Qed.
Theorem C82_race_refuted :
  exists sem P o0, ~ race_free sem P o0 /\
    (* a register with a value that is input in every execution, without its label *)
    (exists s, ireach sem P (istart o0) s /\ (forall t, between s t) /\ i_sh (i_thr s 1) 6 7 = false /\
       forall o, oreach sem P o0 o -> o_reg (o_thr o 1) 6 = i_reg (i_thr s 1) 6 -> o_dep (o_thr o 1) 6 7 = true) /\
    (* a register with a value that is not, with it *)
    (exists s, ireach sem P (istart o0) s /\ (forall t, between s t) /\ i_sh (i_thr s 1) 6 7 = true /\
       forall o, oreach sem P o0 o -> o_reg (o_thr o 1) 6 = i_reg (i_thr s 1) 6 -> o_dep (o_thr o 1) 6 7 = false).
Proof.
  exists sem0, race_prog, flag_start. split; [|split].
  - intro RF. apply (RF flag_start); [constructor|]. exists 0%nat, 1%nat, 0, true, false, false, false. repeat split. discriminate.
  - exists (after sem0 race_prog flag_start [1; 0; 0; 1]%nat). split; [apply after_reach; vm_compute; reflexivity|]. split; [intros [|[|t]]; vm_compute; reflexivity|]. split; [vm_compute; reflexivity|].
    intros o O H. match type of H with _ = ?v => let w := eval vm_compute in v in replace v with w in H by (vm_compute; reflexivity) end. destruct (race_reach o O) as (_ & _ & [(A & B)|(A & B)]); [exact B|congruence].
  - exists (after sem0 race_prog flag_start [0; 1; 1; 0]%nat). split; [apply after_reach; vm_compute; reflexivity|]. split; [intros [|[|t]]; vm_compute; reflexivity|]. split; [vm_compute; reflexivity|].
    intros o O H. match type of H with _ = ?v => let w := eval vm_compute in v in replace v with w in H by (vm_compute; reflexivity) end. destruct (race_reach o O) as (_ & _ & [(A & B)|(A & B)]); [congruence|exact B].
Qed.
Print Assumptions C82_race_refuted.

(** An atomic store, an exchange and so on lose the labels of what they write, even in one thread. *)
Definition atomic_prog : program := fun t => match t with O => [IStore true 0 2; ILoad true 6 0] | _ => [] end.
Lemma atomic_reach o : oreach sem0 atomic_prog flag_start o ->
  (o_reg (o_thr o 0) 0 = 0 /\ o_reg (o_thr o 0) 2 = 5 /\ o_dep (o_thr o 0) 2 7 = true) /\ (o_pc (o_thr o 0) = 0%nat \/ o_mdep o 0 7 = true) /\
  (o_reg (o_thr o 0) 6 = 0 \/ o_dep (o_thr o 0) 6 7 = true).
Proof.
  induction 1 as [|o t o' _ ((R1 & R2 & R4) & M & L) H].
  - cbn. auto 10.
  - unfold ostep in H. destruct t as [|t].
    + destruct (o_pc (o_thr o 0)) as [|[|n]]; [| |destruct n; discriminate]; cbn in H; inversion H; subst; clear H; cbn; rewrite R1; cbn; auto 10.
      destruct M as [M|M]; [discriminate|]. unfold du. rewrite M. auto 10.
    + destruct (o_pc (o_thr o (S t))); discriminate.
Qed.
Theorem C82_atomic_refuted :
  exists sem P o0, race_free sem P o0 /\
    exists s, ireach sem P (istart o0) s /\ (forall t, between s t) /\ i_sh (i_thr s 0) 6 7 = false /\
      forall o, oreach sem P o0 o -> o_reg (o_thr o 0) 6 = i_reg (i_thr s 0) 6 -> o_dep (o_thr o 0) 6 7 = true.
Proof.
  exists sem0, atomic_prog, flag_start. split.
  - intros o O (t & u & a & w1 & w2 & at1 & at2 & N & A & B & _).
    assert (NO : forall t, access atomic_prog o (S t) = None).
    { intro t'. unfold access. destruct (o_pc (o_thr o (S t'))); reflexivity. }
    destruct t as [|t]; [|rewrite NO in A; discriminate]. destruct u as [|u]; [congruence|rewrite NO in B; discriminate].
  - exists (after sem0 atomic_prog flag_start [0; 0; 0; 0]%nat). split; [apply after_reach; vm_compute; reflexivity|]. split; [intros [|t]; vm_compute; reflexivity|]. split; [vm_compute; reflexivity|].
    intros o O H. match type of H with _ = ?v => let w := eval vm_compute in v in replace v with w in H by (vm_compute; reflexivity) end. destruct (atomic_reach o O) as (_ & _ & [A|A]); [congruence|exact A].
Qed.
Print Assumptions C82_atomic_refuted.
