(** Proofs about the chunks of tainted offsets. *)
From Coq Require Import NArith List Bool Lia Sorted.
From Verif Require Import M_Base M_PyChunks.
Import ListNotations.
Open Scope N_scope.

Lemma insert_in x y l : In y (insert_offset x l) <-> y = x \/ In y l.
Proof.
  induction l as [|z r IH]; cbn; [intuition|]. destruct (x <=? z); cbn; [intuition|]. rewrite IH. intuition.
Qed.
Lemma sorted_in y l : In y (sorted_offsets l) <-> In y l.
Proof. induction l as [|x r IH]; cbn; [tauto|]. rewrite insert_in. fold (sorted_offsets r). rewrite IH. intuition. Qed.
Lemma insert_sorted x l : StronglySorted N.le l -> StronglySorted N.le (insert_offset x l).
Proof.
  induction 1 as [|z r S IH F]; cbn; [repeat constructor|]. destruct (N.leb_spec x z) as [L|L].
  - constructor; [constructor; assumption|]. constructor; [exact L|]. rewrite Forall_forall in *. intros y Y.
    specialize (F y Y). lia.
  - constructor; [exact IH|]. rewrite Forall_forall in *. intros y Y. apply insert_in in Y. destruct Y as [->|Y]; [lia|auto].
Qed.
Lemma sorted_sorted l : StronglySorted N.le (sorted_offsets l).
Proof. induction l as [|x r IH]; cbn; [constructor|]. apply insert_sorted, IH. Qed.

Definition covers (cs : list (N * N)) (x : N) := exists s e, In (s, e) cs /\ s <= x /\ x < e.
Lemma covers_cons s e cs x : covers ((s, e) :: cs) x <-> (s <= x /\ x < e) \/ covers cs x.
Proof.
  unfold covers; split.
  - intros (a & b & [Q|I] & H); [inversion Q; subst; auto|right; eauto].
  - intros [H|(a & b & I & H)]; [exists s, e; cbn; auto|exists a, b; cbn; auto].
Qed.
Lemma chunks_from_ok l : forall start last, start <= last -> StronglySorted N.le (last :: l) ->
  (forall x, covers (chunks_from start last l) x <-> (start <= x <= last \/ In x l)) /\
  (forall s e, In (s, e) (chunks_from start last l) -> s < e /\ start <= s) /\
  StronglySorted (fun c d : N * N => snd c < fst d) (chunks_from start last l).
Proof.
  induction l as [|y r IH]; intros start last B S; cbn [chunks_from].
  - split; [|split].
    + intro x. rewrite covers_cons. unfold covers. cbn. split; [intros [H|(a & b & [] & _)]; lia|intros [H|[]]; left; lia].
    + intros s e [Q|[]]. inversion Q; subst. lia.
    + repeat constructor.
  - inversion S as [|? ? S1 F]; subst. rewrite Forall_forall in F.
    assert (LY : last <= y) by (apply F; cbn; auto).
    destruct (N.eqb_spec y last) as [E|E]; cbn [negb andb];
      [|destruct (N.eqb_spec y (last + 1)) as [E1|E1]; cbn [negb andb]].
    + subst y. destruct (IH start last B S1) as (A1 & A2 & A3). split; [|split; [exact A2|exact A3]].
      intro x. rewrite A1. cbn. split; [tauto|]. intros [H|[<-|H]]; auto; left; lia.
    + subst y. destruct (IH start (last + 1)) as (A1 & A2 & A3); [lia|exact S1|]. split; [|split; [exact A2|exact A3]].
      intro x. rewrite A1. cbn. split.
      * intros [H|H]; [|auto]. destruct (N.eq_dec (last + 1) x); [auto|left; lia].
      * intros [H|[<-|H]]; auto; left; lia.
    + destruct (IH y y) as (A1 & A2 & A3); [lia|exact S1|]. split; [|split].
      * intro x. rewrite covers_cons, A1. cbn. split.
        -- intros [H|[H|H]]; [left; lia|right; left; lia|auto].
        -- intros [H|[<-|H]]; [left; lia|right; left; lia|auto].
      * intros s e [Q|I]; [inversion Q; subst; lia|]. apply A2 in I. lia.
      * constructor; [exact A3|]. rewrite Forall_forall. intros [s e] I. apply A2 in I. cbn. lia.
Qed.
Lemma chunks_ok l :
  (forall x, In x l <-> exists s e, In (s, e) (tainted_chunks l) /\ s <= x /\ x < e) /\
  (forall s e, In (s, e) (tainted_chunks l) -> s < e) /\
  StronglySorted (fun c d => snd c < fst d) (tainted_chunks l).
Proof.
  unfold tainted_chunks. pose proof (sorted_sorted l) as S.
  assert (I : forall x, In x l <-> In x (sorted_offsets l)) by (intro; symmetry; apply sorted_in).
  destruct (sorted_offsets l) as [|y r].
  - split; [|split; [intros ? ? []|constructor]]. intro x. rewrite I. split; [intros []|intros (? & ? & [] & _)].
  - destruct (chunks_from_ok r y y (N.le_refl _) S) as (A1 & A2 & A3). split; [|split; [|exact A3]].
    + intro x. rewrite I. fold (covers (chunks_from y y r) x). rewrite A1. cbn.
      split; [intros [->|H]; [left; lia|auto]|intros [H|H]; [left; lia|auto]].
    + intros s e H. apply A2 in H. tauto.
Qed.

Lemma chunks_unique cs ds :
  (forall x, covers cs x <-> covers ds x) ->
  (forall s e, In (s, e) cs -> s < e) -> (forall s e, In (s, e) ds -> s < e) ->
  StronglySorted (fun c d => snd c < fst d) cs -> StronglySorted (fun c d => snd c < fst d) ds -> cs = ds.
Proof.
  revert ds. induction cs as [|[s e] cs IH]; intros [|[s' e'] ds] C P Q S T.
  - reflexivity.
  - exfalso. assert (H : covers [] s'); [|destruct H as (? & ? & [] & _)].
    apply C. exists s', e'. cbn. split; [auto|]. specialize (Q s' e' (or_introl eq_refl)). lia.
  - exfalso. assert (H : covers [] s); [|destruct H as (? & ? & [] & _)].
    apply C. exists s, e. cbn. split; [auto|]. specialize (P s e (or_introl eq_refl)). lia.
  - pose proof (P s e (or_introl eq_refl)) as L. pose proof (Q s' e' (or_introl eq_refl)) as L'.
    inversion S as [|? ? S1 F]; subst. inversion T as [|? ? T1 G]; subst. rewrite Forall_forall in F, G.
    assert (OUT : forall x, covers cs x -> e < x).
    { intros x (a & b & I & H). specialize (F _ I). cbn in F. lia. }
    assert (OUT' : forall x, covers ds x -> e' < x).
    { intros x (a & b & I & H). specialize (G _ I). cbn in G. lia. }
    assert (K : forall x, (s <= x < e \/ covers cs x) <-> (s' <= x < e' \/ covers ds x)).
    { intro x. rewrite <- !covers_cons. apply C. }
    assert (SS : s = s').
    { assert (Z : s <= s < e) by lia. assert (Z' : s' <= s' < e') by lia.
      pose proof (proj1 (K s) (or_introl Z)) as A. pose proof (proj2 (K s') (or_introl Z')) as B.
      destruct A as [A|A]; [|apply OUT' in A]; (destruct B as [B|B]; [|apply OUT in B]); lia. }
    subst s'.
    assert (EE : e = e').
    { destruct (N.lt_trichotomy e e') as [H|[H|H]]; [|exact H|]; exfalso.
      - assert (Z : s <= e < e') by lia. destruct (proj2 (K e) (or_introl Z)) as [A|A]; [lia|apply OUT in A; lia].
      - assert (Z : s <= e' < e) by lia. destruct (proj1 (K e') (or_introl Z)) as [A|A]; [lia|apply OUT' in A; lia]. }
    subst e'. f_equal. apply IH; auto.
    + intro x. split; intro H.
      * pose proof (OUT x H). destruct (proj1 (K x) (or_intror H)) as [A|A]; [lia|exact A].
      * pose proof (OUT' x H). destruct (proj2 (K x) (or_intror H)) as [A|A]; [lia|exact A].
    + intros a b I. apply P; cbn; auto.
    + intros a b I. apply Q; cbn; auto.
Qed.

Lemma source_chunks_ok d src x :
  (exists offsets, In (src, offsets) d /\ In x offsets) <->
  (exists s e, In (src, (s, e)) (source_chunks d) /\ s <= x /\ x < e).
Proof.
  unfold source_chunks. split.
  - intros (l & I & X). apply chunks_ok in X. destruct X as (s & e & J & H). exists s, e. split; [|exact H].
    apply in_flat_map. exists (src, l). split; [exact I|]. cbn. apply in_map_iff. exists (s, e). auto.
  - intros (s & e & I & H). apply in_flat_map in I. destruct I as ([q l] & I & J). cbn in J. apply in_map_iff in J.
    destruct J as (c & Q & J). inversion Q; subst. exists l. split; [exact I|]. apply chunks_ok. eauto.
Qed.
