(** C49: how many queue entries one affects_control_flow call takes.  The fuel of the
    model counts exactly the iterations of the while loop of labels.h:165-176; running out
    of it ([Fuel]) means the call needs more iterations than that. *)
From Coq Require Import NArith List Bool Lia.
From Verif Require Import M_Base M_Encoding M_Union M_LabelDeq M_Labels S_Encoding S_Provenance S_Labels
  P_Base P_Encoding P_Labels P_ControlFlow P_History T_Labels P_Cost.
Import ListNotations.
Open Scope N_scope.

(** Every call finishes; 2^l iterations are enough for label [l]. *)
Theorem C49_finishes t l : reachable t -> in_use t l ->
  exists t', forall fuel junk, 2 ^ l <= N.of_nat fuel -> affects_control_flow fuel junk t l = Ok t'.
Proof.
  intros R U. destruct (reachable_inv _ R) as [W C]. destruct (affects_bound t l W C U) as (t' & H).
  exists t'. intros fuel junk F. apply H. lia.
Qed.

(** The documented bound fails, and no polynomial one holds either: for every n there is a
    table of 6 n + 6 labels, built by calls of the API, no label with more than two
    components, and a label for which the call is not done after 2^n - 2 iterations. *)
Theorem C49_exponential_refuted n : (1 <= n)%nat -> 6 * N.of_nat n + 7 <= 2 ^ 31 ->
  exists t l, reachable t /\ len t = 6 * N.of_nat n + 7 /\ in_use t l /\
    (forall y tn, view t y = Some tn -> (exists cf i o, tn = TSource cf i o) \/ (exists cf lo hi, tn = TUnion cf lo hi)) /\
    (forall fuel junk, N.of_nat fuel < 2 ^ N.of_nat n - 1 -> affects_control_flow fuel junk t l = Fuel).
Proof.
  intros N1 C. destruct (layered_exists n C) as (t & R & L & _ & NR & Cl & _).
  exists t, (6 * N.of_nat n + 1). split; [exact R|]. split; [exact L|]. split; [split; lia|]. split.
  - intros y [cf i o|cf a b|cf a b] V; eauto. exfalso. exact (NR _ _ _ _ V).
  - intros fuel junk F. destruct n as [|k]; [lia|].
    apply (affects_rounds fuel junk t _ k); [now apply reachable_wf|exact Cl|exact F].
Qed.

(** In particular more iterations than labels: some label is expanded twice. *)
Theorem C49_once_refuted : exists t l, reachable t /\ in_use t l /\
  forall fuel junk, N.of_nat fuel <= len t -> affects_control_flow fuel junk t l = Fuel.
Proof.
  destruct (C49_exponential_refuted 6) as (t & l & R & L & U & _ & H); [lia|vm_compute; discriminate|].
  exists t, l. split; [exact R|]. split; [exact U|]. intros fuel junk F. apply H. rewrite L in F.
  change (6 * N.of_nat 6 + 7) with 43 in F. change (2 ^ N.of_nat 6 - 1) with 63. lia.
Qed.

(** Sources, unions of pairs of them, and the union of two such unions: three iterations. *)
Definition demo : Res (N * table) :=
  do (_, t) <- create_source_labels labels_new 0 0 6;
  do (a, t) <- union_taint t 1 3;
  do (b, t) <- union_taint t 3 5;
  do (c, t) <- union_taint t 1 5;
  union_taint t a c.
Example C49_case : match demo with
  | Ok (l, t) => (l =? 10) &&
      match affects_control_flow 2 0 t l, affects_control_flow 3 0 t l with Fuel, Ok _ => true | _, _ => false end
  | _ => false end = true.
Proof. vm_compute. reflexivity. Qed.

Print Assumptions C49_finishes.
Print Assumptions C49_exponential_refuted.
Print Assumptions C49_once_refuted.
