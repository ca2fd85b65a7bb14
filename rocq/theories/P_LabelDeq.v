(** LabelDeq refines an unbounded FIFO. *)
From Coq Require Import ZArith NArith List Bool Lia ZifyBool ZifyNat ZifyN.
From Verif Require Import M_Base M_LabelDeq S_Fifo P_Base.
Import ListNotations.
Open Scope N_scope.

Section Rep.
Variable cap : N.
Hypothesis cap1 : 1 <= cap.

Definition arr_rep (a : array_impl) (l : list N) : Prop :=
  len (slots a) = cap /\ first a < cap /\ last a < cap /\ len l < cap /\
  first a = (last a + len l) mod cap /\
  forall i, i < len l -> get (slots a) ((last a + i) mod cap) = get l i.

Definition deq_rep (q : labeldeq) (l : list N) : Prop :=
  match q with
  | DArr a => arr_rep a l
  | DHeap d => d = l
  end.

Lemma mod_wrap a i : a < cap -> i < cap ->
  (a + i) mod cap = if a + i <? cap then a + i else a + i - cap.
Proof.
  intros Ha Hi. destruct (N.ltb_spec (a + i) cap).
  - now apply N.mod_small.
  - symmetry. apply (N.mod_unique _ _ 1); lia.
Qed.

Lemma arr_empty_rep a l : arr_rep a l -> arr_empty a = match l with [] => true | _ => false end.
Proof.
  intros (Hs & Hf & Hl & Hn & E & _). unfold arr_empty. rewrite E.
  rewrite mod_wrap by assumption.
  destruct l as [|x l'].
  - change (len (@nil N)) with 0. replace (last a + 0 <? cap) with true by (symmetry; apply N.ltb_lt; lia).
    apply N.eqb_eq. lia.
  - rewrite len_cons in *. apply N.eqb_neq. destruct (N.ltb_spec (last a + (1 + len l')) cap); lia.
Qed.

Lemma arr_pop_rep a x l : arr_rep a (x :: l) ->
  exists a', arr_pop cap a = Ok (x, a') /\ arr_rep a' l.
Proof.
  intros (Hs & Hf & Hl & Hn & E & G). unfold arr_pop.
  rewrite len_cons in *.
  assert (G0 := G 0 ltac:(lia)). rewrite mod_wrap in G0 by lia.
  destruct (N.ltb_spec (last a + 0) cap); [|lia].
  replace (last a + 0) with (last a) in G0 by lia. rewrite G0. cbn.
  eexists. split; [reflexivity|].
  split; [exact Hs|]. split; [exact Hf|]. cbn [last first slots].
  assert (Hnx : arr_next cap (last a) < cap) by (apply N.mod_lt; lia).
  split; [exact Hnx|]. split; [lia|].
  assert (Hadd : forall i, (arr_next cap (last a) + i) mod cap = (last a + (1 + i)) mod cap).
  { intros i. unfold arr_next. rewrite N.add_mod_idemp_l by lia. f_equal. lia. }
  split.
  - rewrite Hadd. exact E.
  - intros i Hi. rewrite Hadd. rewrite G by lia.
    rewrite get_cons_S by lia. f_equal. lia.
Qed.

Lemma drain_rep l : forall fuel a d, (length l <= fuel)%nat -> arr_rep a l ->
  drain cap fuel a d = Ok (d ++ l).
Proof.
  induction l as [|x l IH]; intros fuel a d Hf R.
  - assert (E := arr_empty_rep _ _ R). destruct fuel; cbn [drain]; rewrite E; now rewrite app_nil_r.
  - destruct fuel; [simpl in Hf; lia|].
    assert (E := arr_empty_rep _ _ R). cbn [drain]. rewrite E.
    destruct (arr_pop_rep _ _ _ R) as (a' & P & R'). rewrite P. cbn [bind fst snd].
    rewrite IH by (simpl in Hf; auto; lia). rewrite <- app_assoc. reflexivity.
Qed.

Lemma arr_full_rep a l : arr_rep a l -> arr_full cap a = (len l =? cap - 1).
Proof.
  intros (Hs & Hf & Hl & Hn & E & _). unfold arr_full, arr_next. rewrite E.
  rewrite N.add_mod_idemp_l by lia.
  apply eq_true_iff_eq. rewrite !N.eqb_eq. split; intros H.
  - destruct (N.eq_dec (len l) (cap - 1)); auto.
    replace (last a + len l + 1) with (last a + (len l + 1)) in H by lia.
    rewrite mod_wrap in H by lia. destruct (N.ltb_spec (last a + (len l + 1)) cap); lia.
  - rewrite H. apply (N.mod_unique _ _ 1); lia.
Qed.

Lemma arr_push_rep a l v : arr_rep a l -> len l <> cap - 1 ->
  exists a', arr_push cap a v = Ok a' /\ arr_rep a' (l ++ [v]).
Proof.
  intros (Hs & Hf & Hl & Hn & E & G) Hne. unfold arr_push. rewrite Hs.
  destruct (N.ltb_spec (first a) cap); [|lia].
  eexists. split; [reflexivity|]. split; [cbn; now rewrite len_upd|].
  cbn [first last slots]. split; [apply N.mod_lt; lia|]. split; [exact Hl|].
  rewrite len_app. change (len [v]) with 1. split; [lia|]. split.
  - unfold arr_next. rewrite E. rewrite N.add_mod_idemp_l by lia. f_equal. lia.
  - intros i Hi. rewrite get_upd.
    assert (Hi' : (last a + i) mod cap < cap) by (apply N.mod_lt; lia).
    destruct (N.eqb_spec (first a) ((last a + i) mod cap)) as [e|ne]; cbn [andb].
    + rewrite Hs. destruct (N.ltb_spec ((last a + i) mod cap) cap); [|lia].
      assert (i = len l).
      { rewrite E in e. rewrite !mod_wrap in e by lia.
        destruct (N.ltb_spec (last a + len l) cap), (N.ltb_spec (last a + i) cap); lia. }
      subst i. now rewrite get_app_last.
    + assert (i <> len l) by (intros ->; congruence).
      rewrite get_app_l by lia. apply G. lia.
Qed.

Lemma deq_push_rep q l v : deq_rep q l -> exists q', deq_push cap q v = Ok q' /\ deq_rep q' (l ++ [v]).
Proof.
  destruct q as [a|d]; cbn [deq_rep deq_push]; intros R.
  - rewrite (arr_full_rep _ _ R). destruct (N.eqb_spec (len l) (cap - 1)).
    + rewrite (drain_rep l).
      * cbn [bind app]. eexists. split; reflexivity.
      * destruct R as (Hs & _ & _ & Hn & _). unfold len in *. lia.
      * exact R.
    + destruct (arr_push_rep a l v R n) as (a' & P & R'). rewrite P. cbn [bind].
      exists (DArr a'). split; auto.
  - subst. eexists. split; reflexivity.
Qed.

Lemma deq_empty_rep q l : deq_rep q l -> deq_empty q = match l with [] => true | _ => false end.
Proof.
  destruct q; cbn [deq_rep deq_empty]; intros R.
  - now apply arr_empty_rep.
  - now subst.
Qed.

Lemma deq_pop_rep q x l : deq_rep q (x :: l) -> exists q', deq_pop cap q = Ok (x, q') /\ deq_rep q' l.
Proof.
  destruct q as [a|d]; cbn [deq_rep deq_pop]; intros R.
  - rewrite (arr_empty_rep _ _ R).
    destruct (arr_pop_rep _ _ _ R) as (a' & P & R'). rewrite P. cbn [bind fst snd].
    exists (DArr a'). split; auto.
  - subst. eexists. split; reflexivity.
Qed.

Lemma deq_pop_rep_nil q : deq_rep q [] -> deq_pop cap q = UB.
Proof.
  destruct q as [a|d]; cbn [deq_rep deq_pop]; intros R.
  - now rewrite (arr_empty_rep _ _ R).
  - now subst.
Qed.

Lemma deq_new_rep junk : deq_rep (deq_new cap junk) [].
Proof.
  cbn. split; [|split; [|split; [|split; [|split]]]]; cbn [slots first last].
  - unfold len. rewrite repeat_length. lia.
  - lia.
  - lia.
  - change (len (@nil N)) with 0. lia.
  - change (len (@nil N)) with 0. rewrite N.mod_small; lia.
  - change (len (@nil N)) with 0. intros. lia.
Qed.

Lemma deq_run_fifo ops : forall q l, deq_rep q l -> deq_run cap q ops = fifo_run l ops.
Proof.
  induction ops as [|o ops IH]; intros q l R; [reflexivity|].
  cbn [deq_run fifo_run]. destruct o; cbn [deq_step fifo_step].
  - destruct (deq_push_rep q l v R) as (q' & P & R'). rewrite P. cbn [bind fst snd].
    now rewrite (IH q' _ R').
  - destruct l as [|x l].
    + rewrite deq_pop_rep_nil by assumption. reflexivity.
    + destruct (deq_pop_rep q x l R) as (q' & P & R'). rewrite P. cbn [bind fst snd].
      now rewrite (IH q' _ R').
  - rewrite (deq_empty_rep _ _ R). cbn [bind fst snd]. now rewrite (IH q l R).
Qed.
End Rep.
