(** C112: labels that a traced program creates for itself (dfsan_create_label of
    dfsan_interface.h) are new labels, and dfsan_get_label_count is the number of labels. *)
From Coq Require Import NArith List Bool Lia.
From Verif Require Import M_Base M_Conc M_Encoding M_Union M_Labels M_Dfsan M_UserLabels S_Provenance S_Labels S_UserLabels
  P_Base P_Conc P_Encoding P_Labels T_Labels P_UserLabels.
Import ListNotations.
Open Scope N_scope.

(** Among each other the created labels are new: for any number of threads and any schedule
    with fewer than 2^32 - 1 calls no label is returned twice, none is 0 ("untainted"), the
    count is the number of calls and the program goes on.  Missing from the full claim: they
    are not new with respect to the labels of input bytes and of unions (the refutations
    below), and the number of calls is bounded. *)
Theorem C112_distinct_partial : forall k schedule, let z := users k schedule in
  begun z < 2 ^ 32 - 1 ->
  NoDup (returned z) /\ (forall l, In l (returned z) -> 1 <= l <= begun z) /\
  label_count (us_last (fst z)) = begun z /\ us_dead (fst z) = false.
Proof.
  intros k schedule z H. destruct (uinv_users k schedule) as [L I]. fold z in L, I.
  cbv zeta in L, I. rewrite <- begun_pend in L, I. change (2 ^ 32 - 1) with (two32 - 1) in H.
  destruct (I H) as (D & ND & R). split; [|split; [|split]].
  - exact (nodup_front _ _ ND).
  - intros l K. apply R. apply in_or_app. now left.
  - unfold label_count. rewrite L. apply N.mod_small. unfold two32 in *. lia.
  - exact D.
Qed.
Print Assumptions C112_distinct_partial.

Example C112_distinct_case : returned (users 3 [0; 2; 2; 1; 0; 2; 0]) = [2; 1] /\
  begun (users 3 [0; 2; 2; 1; 0; 2; 0]) = 5 /\ label_count (us_last (fst (users 3 [0; 2; 2; 1; 0; 2; 0]))) = 5.
Proof. repeat split. Qed.

(** In a program of one thread the labels are 1, 2, 3, ... *)
Theorem C112_in_order : forall n, N.of_nat n < 2 ^ 32 - 1 ->
  exists ls, created n 0 = Ok ls /\ length ls = n /\
    forall i, (i < n)%nat -> nth_error ls i = Some (N.of_nat i + 1).
Proof.
  intros n H. change (2 ^ 32 - 1) with (two32 - 1) in H. exists (nseq 1 n). split; [|split].
  - rewrite created_from by lia. reflexivity.
  - apply nseq_length.
  - intros i Hi. pose proof (get_nseq 1 n (N.of_nat i) ltac:(lia)) as G. unfold get in G.
    rewrite Nnat.Nat2N.id in G. rewrite G. f_equal. lia.
Qed.
Print Assumptions C112_in_order.

(** ... until there are none left, which ends the program. *)
Theorem C112_exhausted : forall n, 2 ^ 32 - 1 <= N.of_nat n -> created n 0 = Exit.
Proof. intros n H. change (2 ^ 32 - 1) with (two32 - 1) in H. apply created_stops; [reflexivity|lia]. Qed.
Print Assumptions C112_exhausted.

Example C112_order_case : created 3 0 = Ok [1; 2; 3] /\ create_label (2 ^ 32 - 3) = Ok (2 ^ 32 - 2, 2 ^ 32 - 2) /\
  create_label (2 ^ 32 - 2) = Exit.
Proof. repeat split. Qed.

(** With two threads the end is missed: before the program stops another thread can get
    label 0, which marks its data as untainted. *)
Theorem C112_wrap_refuted : exists schedule,
  In 0 (returned (users 2 schedule)) /\ us_dead (fst (users 2 schedule)) = false.
Proof.
  destruct (nat_of (two32 - 2)) as [n Hn]. exists (repeat 0 (n + n) ++ [0; 1; 1]).
  rewrite (wrap_run n Hn). unfold returned. cbn [fst us_log us_dead]. split; [|reflexivity].
  apply in_or_app. right. now left.
Qed.
Print Assumptions C112_wrap_refuted.

(** A created label is taken for input: whatever the program read and computed before, if
    the table holds the number of a created label, then the label stands for input bytes. *)
Theorem C112_taken_for_input : forall h t n ls l,
  ltrace h t -> created n 0 = Ok ls -> In l ls -> l < len t -> exists b, stands h l b.
Proof.
  intros h t n ls l T C K L.
  assert (P : 1 <= l).
  { destruct (N.lt_ge_cases (N.of_nat n) (two32 - 1)) as [S|S].
    - rewrite created_from in C by lia. injection C as <-. apply in_nseq in K. lia.
    - rewrite created_stops in C by (reflexivity || lia). discriminate. }
  assert (U : in_use t l) by (split; assumption).
  destruct (some_byte t l (ex_intro _ h T) U) as [b D]. exists b. now apply (C04_history_semantics h t).
Qed.
Print Assumptions C112_taken_for_input.

(** So they are not new: after one byte of input was read, the first label that the program
    creates is the label of that byte. *)
Theorem C112_not_fresh_refuted : exists h t l,
  ltrace h t /\ created 1 0 = Ok [l] /\ in_use t l /\ stands h l (0, 0).
Proof.
  exists [(LSource 0 0 1, 1)]. eexists. exists 1. split; [|split; [|split]].
  - eapply (tr_snoc []); [constructor|cbn; lia|]. eapply st_source. vm_compute. reflexivity.
  - reflexivity.
  - vm_compute. split; congruence.
  - apply (sd_source _ 0 0 1 1 0); [now left|lia].
Qed.
Print Assumptions C112_not_fresh_refuted.

(** A created label that the table does not hold ends the program as soon as its data meets
    other labelled data. *)
Theorem C112_union_stops : forall t l r, reachable t ->
  len t <= l < 2 ^ 31 -> 1 <= r < 2 ^ 31 -> l <> r ->
  dfsan_union true t l r = Exit /\ dfsan_union true t r l = Exit.
Proof.
  intros t l r R L Q NE. change (2 ^ 31) with label_capacity in *.
  assert (T : 1 <= len t).
  { now apply table_nonempty. }
  assert (A : read_label t l = Exit) by (apply read_beyond; lia).
  assert (B : read_label t r = Exit \/ exists tn, read_label t r = Ok tn).
  { destruct (N.lt_ge_cases r (len t)) as [S|S].
    - right. destruct (C05_taint_graph_well_formed t r R) as (tn & E & _); [split; lia|]. eauto.
    - left. apply read_beyond; lia. }
  unfold dfsan_union, dfsan_union_ne, union_table, union_taint.
  destruct (N.eqb_spec l r); [lia|]. destruct (N.eqb_spec r l); [lia|].
  destruct (N.eqb_spec l 0); [lia|]. destruct (N.eqb_spec r 0); [lia|].
  rewrite A. cbn [bind]. split; [reflexivity|].
  destruct B as [->|(tn & ->)]; reflexivity.
Qed.
Print Assumptions C112_union_stops.

(** For example two created labels in a program that read no input. *)
Theorem C112_union_refuted : exists a b, created 2 0 = Ok [a; b] /\ reachable labels_new /\
  dfsan_union true labels_new a b = Exit.
Proof.
  exists 1, 2. split; [reflexivity|]. split; [exists []; constructor|]. reflexivity.
Qed.
Print Assumptions C112_union_refuted.

(** The count leaves out the labels of input bytes and of unions. *)
Theorem C112_count_refuted : exists h t, ltrace h t /\ in_use t 1 /\ in_use t 2 /\ in_use t 3 /\
  label_count (us_last (fst (users 1 []))) = 0.
Proof.
  exists [(LSource 0 0 2, 1); (LUnion 1 2, 3)]. eexists. split; [|split; [|split; [|split]]].
  - eapply (tr_snoc [(LSource 0 0 2, 1)]).
    + eapply (tr_snoc []); [constructor|cbn; lia|]. eapply st_source. vm_compute. reflexivity.
    + vm_compute. intuition congruence.
    + eapply st_union. vm_compute. reflexivity.
  - vm_compute. split; congruence.
  - vm_compute. split; congruence.
  - vm_compute. split; congruence.
  - reflexivity.
Qed.
Print Assumptions C112_count_refuted.
