(** C98: the summaries that a trace gives of how an input was read.  Reads are in S_Reads. *)
From Coq Require Import NArith ZArith List Bool Lia Sorted.
From Verif Require Import M_Base M_PyNode M_PyFile M_PyAnalysis M_PyProgram S_Api S_PyAnalysis S_Forest S_Reads P_Base P_PyNode P_Api P_PyProgram T_Forest.
Import ListNotations.
Open Scope N_scope.

(** All reads are within the input. *)
Definition within (src size : N) (accs : list access) : Prop := forall a o, In a accs -> In (src, o) a -> o < size.

Lemma state_after src size accs : within src size accs -> exists st, accesses_loop src 0 accs (repeat None (N.to_nat size), [], None) = Ok st /\ after (N.to_nat size) (reads src accs) st.
Proof. intros W. destruct (accesses_after (N.to_nat size) src accs 0 [] _ (after_start _)) as (st & E & A); [intros a o I J; rewrite N2Nat.id; exact (W a o I J)|]. exists st. auto. Qed.

(** If every byte was read, or there is at most one, the summary is exact: the unread
    offsets, the offsets first read before the one in front of them, and the steps back. *)
Theorem C98_properties_partial : forall src size accs, within src size accs ->
  size < 2 \/ (forall o, o < size -> was_read (reads src accs) o) ->
  exists p, input_properties src size accs = Ok p /\
    (forall o, In o (p_unused p) <-> o < size /\ ~ was_read (reads src accs) o) /\
    (forall o, In o (p_out_of_order p) <-> 0 < o < size /\ exists i j, first_read (reads src accs) (o - 1) i /\ first_read (reads src accs) o j /\ j < i) /\
    StronglySorted N.lt (p_out_of_order p) /\
    p_seeks p = falls (reads src accs).
Proof.
  intros src size accs W C. destruct (state_after src size accs W) as ([[fu seeks] lst] & E & [L F S _]). cbn [fst snd] in *.
  unfold input_properties. rewrite E. cbn [bind].
  assert (Un : forall o, In o (unused_from 0 fu) <-> o < size /\ ~ was_read (reads src accs) o).
  { intros o. rewrite unused_spec. split.
    - intros (k & -> & Ek). assert (Hk : (k < length fu)%nat) by (apply nth_error_Some; congruence). split; [lia|]. intros R. apply read_first in R as (i & Fi).
      rewrite N.add_0_l in Fi. assert (Q : nth_error fu k = Some (Some i)) by (apply F; split; [exact Fi|lia]). congruence.
    - intros [Lo N]. exists (N.to_nat o). split; [lia|]. destruct (nth_error fu (N.to_nat o)) as [[i|]|] eqn:En; [|reflexivity|apply nth_error_None in En; lia].
      exfalso. apply N. apply F in En as [Fi _]. rewrite N2Nat.id in Fi. eapply first_was, Fi. }
  destruct C as [Small|All].
  - assert (exists x, out_from 0 fu = Ok [] /\ x = tt) as (_ & -> & _) by (exists tt; split; [|reflexivity]; destruct fu as [|a [|b fu]]; [reflexivity|reflexivity|cbn in L; lia]).
    eexists. split; [reflexivity|]. cbn. split; [exact Un|]. split; [|split; [constructor|exact S]]. intros o. split; [intros []|lia].
  - destruct (out_spec fu) with (o := 0) as (l & -> & Il & Sl & _).
    { intros k Hk. destruct (read_first _ _ (All (N.of_nat k) ltac:(lia))) as (i & Fi). exists i. apply F. split; [exact Fi|lia]. }
    eexists. split; [reflexivity|]. cbn. split; [exact Un|]. split; [|split; [exact Sl|exact S]]. intros o. rewrite Il. split.
    + intros (k & i & j & -> & A & B & Lt). assert (H : (Datatypes.S k < length fu)%nat) by (apply nth_error_Some; congruence). apply F in A as [A _]. apply F in B as [B _]. split; [lia|]. exists i, j.
      replace (0 + N.of_nat k + 1 - 1) with (N.of_nat k) by lia. replace (0 + N.of_nat k + 1) with (N.of_nat (Datatypes.S k)) by lia. auto.
    + intros (H & i & j & A & B & Lt). exists (N.to_nat (o - 1)), i, j. split; [lia|]. split; [apply F; rewrite N2Nat.id; split; [exact A|lia]|].
      replace (Datatypes.S (N.to_nat (o - 1))) with (N.to_nat o) by lia. split; [apply F; rewrite N2Nat.id; split; [exact B|lia]|exact Lt].
Qed.

(** Such a summary is true exactly if all bytes were read and the offsets never went down. *)
Theorem C98_in_order_partial : forall src size accs p, within src size accs ->
  size < 2 \/ (forall o, o < size -> was_read (reads src accs) o) -> input_properties src size accs = Ok p ->
  (props_bool p = true <-> (forall o, o < size -> was_read (reads src accs) o) /\ StronglySorted N.le (map snd (reads src accs))).
Proof.
  intros src size accs p W C E. destruct (C98_properties_partial src size accs W C) as (p' & E' & U & O & _ & S). rewrite E in E'. apply Ok_inj in E'. subst p'.
  assert (Fa : forall us, falls us = [] <-> StronglySorted N.le (map snd us)).
  { clear. induction us as [|[i a] us IH]; [split; [constructor|reflexivity]|]. destruct us as [|[j b] us]; [split; [repeat constructor|reflexivity]|].
    change (falls ((i, a) :: (j, b) :: us)) with ((if b <? a then [((Z.of_N j - 1)%Z, a, b)] else []) ++ falls ((j, b) :: us)). destruct (N.ltb_spec b a) as [Lt|Ge].
    - split; [discriminate|]. intros Q. apply StronglySorted_inv in Q as [_ Q]. cbn in Q. apply Forall_inv in Q. lia.
    - cbn [app]. rewrite IH. split; intros Q.
      + change (StronglySorted N.le (a :: map snd ((j, b) :: us))). constructor; [exact Q|]. cbn [map snd] in *. apply StronglySorted_inv in Q as [_ Q]. constructor; [exact Ge|].
        eapply Forall_impl; [|exact Q]. cbn. lia.
      + apply StronglySorted_inv in Q as [Q _]. exact Q. }
  rewrite <- Fa, <- S. unfold props_bool. split.
  - destruct (p_unused p) eqn:Eu; [|discriminate]. destruct (p_out_of_order p) eqn:Eo; [|discriminate]. destruct (p_seeks p); [|discriminate]. intros _. split; [|reflexivity].
    intros o Lo. destruct (read_dec (reads src accs) o) as [R|R]; [exact R|]. destruct (proj2 (U o) (conj Lo R)).
  - intros [All Sk]. rewrite Sk. destruct (p_unused p) as [|x u]; [|exfalso; destruct (proj1 (U x) (or_introl eq_refl)) as [Lx N]; exact (N (All x Lx))].
    destruct (p_out_of_order p) as [|x u]; [reflexivity|]. exfalso. destruct (proj1 (O x) (or_introl eq_refl)) as (Hx & i & j & Fi & Fj & Lt).
    rewrite S in Sk. apply Fa in Sk. assert (Q := order_first _ (proj1 (reads_index src accs 0)) Sk (x - 1) x i j Fi Fj ltac:(lia)). lia.
Qed.

(** As soon as an input of two or more bytes has a byte that was not read, there is no
    summary: the unread bytes are never reported. *)
Theorem C98_unused_refuted : forall src size accs o, within src size accs -> 2 <= size -> o < size -> ~ was_read (reads src accs) o ->
  input_properties src size accs = Exit.
Proof.
  intros src size accs o W S Lo N. destruct (state_after src size accs W) as ([[fu seeks] lst] & E & [L F _ _]). cbn [fst snd] in *.
  unfold input_properties. rewrite E. cbn [bind]. rewrite (out_none fu 0 (N.to_nat o)); [reflexivity| |lia].
  destruct (nth_error fu (N.to_nat o)) as [[i|]|] eqn:En; [|reflexivity|apply nth_error_None in En; lia].
  exfalso. apply N. apply F in En as [Fi _]. rewrite N2Nat.id in Fi. eapply first_was, Fi.
Qed.

Lemma label_input base h r s paths fnames d : opened_trace base h r s paths fnames d -> forall i o l, In (i, o) (a_lab s l) -> exists x, input_at s paths i x.
Proof.
  revert base h r s paths fnames d. facts. intros i o l I. exists (src_of d i). apply (Src i); [exact (proj1 (ai_byt _ _ _ _ A _ _ I))|reflexivity].
Qed.
(** The taints of nodes are always empty, also when the labels of the nodes stand for input
    bytes. *)
Theorem C98_taints_refuted : forall base h r s paths fnames d, opened_trace base h r s paths fnames d ->
  forall fo l n fo', forest_run d fo -> known s l -> get_node d fo (Z.of_N l) = Ok (n, fo') ->
  (exists x o fo2 m, walk d fo (Z.of_N l) fo2 m /\ py_file_offset d m = Ok (x, o)) /\
  forall fuel nodes, In n nodes -> (length nodes < fuel)%nat -> trace_taints fuel d fo' nodes = Ok ([], fo').
Proof.
  intros base h r s paths fnames d T fo l n fo' Fr K G. split.
  - destruct (a_lab s l) as [|[i o] bs] eqn:El; [contradiction K|]. assert (I : In (i, o) (a_lab s l)) by (rewrite El; now left).
    destruct (label_input base h r s paths fnames d T i o l I) as (x & X).
    destruct (proj2 (C33_leaves base h r s paths fnames d T fo l Fr K x o)) as (fo2 & m & Wk & P); [exists i; auto|]. exists x, o, fo2, m. auto.
  - intros fuel nodes I L. apply taints_nothing, L.
Qed.

(** ** Concrete cases *)
(** Source 1, four bytes; 0 and 1 are read, then 3, then 2. *)
Definition demo_accs : list access := [[(1, 0); (2, 9)]; [(1, 0); (1, 1)]; [(1, 3)]; [(2, 0)]; [(1, 2)]].
Example C98_case :
  within 1 4 demo_accs /\ (forall o, o < 4 -> was_read (reads 1 demo_accs) o) /\
  input_properties 1 4 demo_accs = Ok (mkProps [] [3] [(3%Z, 3, 2)]) /\
  within 1 5 demo_accs /\ ~ was_read (reads 1 demo_accs) 4 /\ input_properties 1 5 demo_accs = Exit.
Proof.
  assert (W : within 1 4 demo_accs).
  { intros a o I J. unfold demo_accs in I. repeat (destruct I as [<-|I]; [repeat (destruct J as [J|J]; [inversion J; subst; lia|]); destruct J|]). destruct I. }
  split; [exact W|]. split; [|split; [reflexivity|split; [intros a o I J; specialize (W a o I J); lia|split; [|reflexivity]]]].
  - intros o L. assert (D : o = 0 \/ o = 1 \/ o = 2 \/ o = 3) by lia. destruct D as [->|[->|[->| ->]]]; [exists 0|exists 1|exists 4|exists 2]; vm_compute; tauto.
  - intros (i & I). vm_compute in I. repeat (destruct I as [I|I]; [discriminate I|]). destruct I.
Qed.
Example C98_taints_case : exists h r s paths fnames d fo n fo', opened_trace 8192 h r s paths fnames d /\ forest_run d fo /\ known s 8 /\ get_node d fo 8 = Ok (n, fo').
Proof.
  destruct C33_case as (h & r & s & paths & fnames & d & T & _ & K).
  destruct T as (M & R & T1 & T2 & D). destruct (C33_opens 8192 h r s paths fnames M R T1 T2) as (d' & fo & T & E).
  assert (d' = d) as -> by (destruct T as (_ & _ & _ & _ & D'); rewrite D in D'; now apply Ok_inj in D').
  assert (Fr : forest_run d fo) by (exact (fr_new d fo E)).
  destruct (C33_nodes_well_formed 8192 h r s paths fnames d T fo 8 Fr) as (n & fo' & G & _).
  - apply (proj2 (C33_labels 8192 h r s paths fnames d T fo Fr) 8). now right.
  - exists h, r, s, paths, fnames, d, fo, n, fo'. auto.
Qed.

Print Assumptions C98_properties_partial.
Print Assumptions C98_in_order_partial.
Print Assumptions C98_unused_refuted.
Print Assumptions C98_taints_refuted.
