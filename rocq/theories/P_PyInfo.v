(** Lemmas for "polytracker info". *)
From Coq Require Import NArith ZArith List Bool Lia.
From Verif Require Import M_Base M_Encoding M_Memory M_Labels M_Functions M_CfLog M_OutputFile M_PyNode M_PySections M_PyFile M_Api M_PyInfo
  S_Provenance S_Labels S_OutputFile S_Api S_Info S_CallStack P_Base P_Encoding P_Labels P_PyNode P_ControlFlow P_History P_ApiMem P_Api P_ApiFile P_ApiRun P_CfLog.
Import ListNotations.
Open Scope N_scope.

Lemma derives_in_use t l b : wf_table t -> derives (view t) l b -> in_use t l.
Proof.
  intros W (m & cf & B & V). destruct B as [l|l m k C B]; [exact (view_in_use _ _ _ W V)|].
  inversion C; subst; eapply view_in_use; eauto.
Qed.
Lemma lab_derives base r s g l b : api_inv base r s g -> In b (a_lab s l) <-> derives (view (r_tab r)) l b.
Proof.
  intros A. assert (I := reachable_inv _ (ai_tr _ _ _ _ A)). split; intros H.
  - assert (U : in_use (r_tab r) l).
    { apply (proj1 (ai_lab _ _ _ _ A)). intros E. rewrite E in H. destruct H. }
    now apply (proj2 (ai_lab _ _ _ _ A)).
  - apply (proj2 (ai_lab _ _ _ _ A)); [exact (derives_in_use _ _ _ (proj1 I) H)|exact H].
Qed.
Lemma flagged_cf base r s g l b : api_inv base r s g -> flg (r_tab r) l -> In b (a_lab s l) -> In b (a_cf s).
Proof.
  intros A F H. assert (I := reachable_inv _ (ai_tr _ _ _ _ A)). apply (lab_derives _ _ _ _ _ _ A) in H.
  destruct H as (m & cf & B & V).
  assert (Fm : flg (r_tab r) m).
  { clear V. induction B as [x|x m k C B IH]; [exact F|]. apply IH. exact (proj2 I x m F C). }
  destruct Fm as (tn & V' & Ct). rewrite V in V'. injection V' as <-. cbn [cf_of] in Ct. subst cf.
  apply (ai_cf _ _ _ _ A). exists m. exact V.
Qed.
Lemma node_describes base r s g l tn : api_inv base r s g -> view (r_tab r) l = Some tn -> describes s l (node_of tn).
Proof.
  intros A V.
  assert (D : forall b, In b (a_lab s l) <-> den (view (r_tab r)) tn b).
  { intros b. rewrite (lab_derives _ _ _ _ _ _ A). now apply derives_den. }
  assert (C : cf_of tn = true -> forall b, In b (a_lab s l) -> In b (a_cf s)).
  { intros C b H. apply (flagged_cf base r s g l b A); [|exact H]. exists tn. auto. }
  destruct tn as [cf i o|cf f la|cf lo hi]; cbn [node_of describes den cf_of] in *.
  - split; [exact D|]. intros ->. apply C; [reflexivity|]. now apply D.
  - split; [|exact C]. intros b. rewrite D. split; intros (k & K & H); exists k; (split; [exact K|]); now apply (lab_derives _ _ _ _ _ _ A).
  - split; [|exact C]. intros b. rewrite D, !(lab_derives _ _ _ _ _ _ A). tauto.
Qed.
Lemma decode_known base r s g d paths fnames bits l : api_inv base r s g -> opened r s g d paths fnames bits -> in_use (r_tab r) l ->
  exists n, td_decode_node d l = Ok n /\ describes s l n.
Proof.
  intros A O U. assert (I := reachable_inv _ (ai_tr _ _ _ _ A)). destruct (wf_view _ _ (proj1 I) U) as (tn & _ & V & _).
  exists (node_of tn). split; [exact (op_dec _ _ _ _ _ _ _ O l tn V)|]. now apply (node_describes base r s g).
Qed.

Lemma py_map_rel {A B C} (f : A -> Res B) (R : C -> B -> Prop) : forall (l : list A) (cs : list C),
  Forall2 (fun x c => exists y, f x = Ok y /\ R c y) l cs -> exists ys, py_map f l = Ok ys /\ Forall2 R cs ys.
Proof.
  induction 1 as [|x c l cs (y & E & Ry) H IH]; [exists []; split; [reflexivity|constructor]|].
  destruct IH as (ys & E' & F). exists (y :: ys). cbn [py_map]. rewrite E. cbn [bind]. rewrite E'. cbn [bind].
  split; [reflexivity|now constructor].
Qed.
Lemma Forall2_diag {A} (P : A -> A -> Prop) : forall l, (forall x, In x l -> P x x) -> Forall2 P l l.
Proof. induction l as [|x l IH]; intros H; constructor; [apply H; now left|apply IH; intros; apply H; now right]. Qed.
Lemma numbered_map {A B} (f : A -> B) : forall l i, numbered i (map f l) = map (fun p => (fst p, f (snd p))) (numbered i l).
Proof. induction l as [|x l IH]; intros i; [reflexivity|]. cbn [map numbered fst snd]. now rewrite IH. Qed.
Lemma numbered_positions {A} (l : list A) : numbered 0 l = with_positions l.
Proof.
  unfold with_positions. change 0 with (N.of_nat 0). generalize 0%nat.
  induction l as [|x l IH]; intros k; [reflexivity|]. cbn [numbered length seq map combine]. f_equal.
  rewrite <- IH. f_equal. lia.
Qed.
