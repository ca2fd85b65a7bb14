From Coq Require Import Arith NArith List Bool Lia.
From Verif Require Import M_Base M_Memory M_Section S_Section P_Base P_Memory P_Section.
Import ListNotations.
Open Scope N_scope.

Section Fixed.
  Variables (es cap b : N).
  Hypothesis Ees : 1 <= es.
  Hypothesis Ees2 : es < two64.
  Hypothesis Efit : b + es * cap < two64.

  Definition frep (m : mem) (s : sect) (recs : list (list N)) : Prop :=
    holds m s (concat recs) /\ recs_ok es recs /\ sbeg s = b /\ send s = b + es * cap.

  Lemma mul_lt_cancel x y : es * x < es * y <-> x < y.
  Proof. split; intros H; [apply N.mul_lt_mono_pos_l in H|apply N.mul_lt_mono_pos_l]; lia. Qed.
  Lemma mul_le_cancel x y : es * x <= es * y <-> x <= y.
  Proof. split; intros H; [apply N.mul_le_mono_pos_l in H|apply N.mul_le_mono_pos_l]; lia. Qed.

  Lemma code_step_ok m s recs o : frep m s recs -> fop_ok es o ->
    exists m' s', code_step es m s o = Ok (fst (spec_step cap recs o), m', s') /\
      frep m' s' (snd (spec_step cap recs o)) /\
      (forall a, a < b \/ b + es * cap <= a -> m' a = m a).
  Proof.
    intros (H & R & Eb & Ee) K. destruct o as [r|n gen]; unfold code_step; cbn [spec_step fop_ok] in *.
    - assert (Hl : len r < two64) by lia.
      assert (Cn := construct_none m s _ r H Hl). rewrite (len_concat es) in Cn by assumption.
      rewrite K, Ee, Eb in Cn.
      destruct (construct m s r) as [[[p m'] s']|] eqn:C.
      + destruct (construct_some _ _ _ _ _ _ _ H Hl C) as (A1 & A2 & A3 & A4 & A5 & A6).
        rewrite (len_concat es) in A1, A6 by assumption. rewrite Eb, Ee in *. rewrite K in A6.
        assert (len recs + 1 <= cap) by (apply mul_le_cancel; lia).
        destruct (N.leb_spec (len recs + 1) cap); [|lia]. cbn [fst snd].
        rewrite (holds_index s' es p (len recs)) by (auto; rewrite ?A2, ?A3; auto;
          assert (es * len recs < es * cap) by (apply mul_lt_cancel; lia); lia).
        cbn [bind]. exists m', s'. split; [reflexivity|]. split.
        * split; [rewrite concat_app; cbn [concat]; rewrite app_nil_r; exact A4|].
          split; [|split; congruence]. apply recs_app. split; auto. constructor; auto.
        * intros a Ha. apply A5. rewrite ?Eb, ?Ee. lia.
      + destruct (N.leb_spec (len recs + 1) cap) as [L|L].
        * exfalso. apply mul_le_cancel in L. assert (b + es * cap < b + es * len recs + es) by (apply Cn; reflexivity). lia.
        * cbn [fst snd]. exists m, s. split; [reflexivity|]. split; [split; [exact H|]; auto|auto].
    - destruct K as (Kn & Kf & Kg).
      assert (Cn := construct_range_none m s _ es n gen H R Kf). rewrite Ee, Eb in Cn.
      destruct (construct_range m s es n gen) as [[[p m'] s']|] eqn:C.
      + destruct (construct_range_some _ _ _ _ _ _ _ _ _ H R Ees Kf Kg C) as (A1 & A2 & A3 & A4 & A5 & A6).
        rewrite Eb, Ee in *.
        assert (len recs + n <= cap) by (apply mul_le_cancel; lia).
        destruct (N.leb_spec (len recs + n) cap); [|lia]. cbn [fst snd].
        rewrite (holds_index s' es p (len recs)) by (auto; rewrite ?A2, ?A3; auto;
          assert (es * len recs < es * cap) by (apply mul_lt_cancel; lia); lia).
        cbn [bind]. exists m', s'. split; [reflexivity|]. split.
        * split; [exact A4|]. split; [|split; congruence].
          apply recs_app. split; auto. now apply recs_map.
        * intros a Ha. apply A5. rewrite ?Eb, ?Ee. lia.
      + destruct (N.leb_spec (len recs + n) cap) as [L|L].
        * exfalso. apply mul_le_cancel in L. assert (b + es * cap < b + es * (len recs + n)) by (apply Cn; reflexivity). lia.
        * cbn [fst snd]. exists m, s. split; [reflexivity|]. split; [split; [exact H|]; auto|auto].
  Qed.

  Lemma code_run_ok ops : forall m s recs, frep m s recs -> Forall (fop_ok es) ops ->
    exists m' s', code_run es m s ops = Ok (fst (spec_run cap recs ops), m', s') /\
      frep m' s' (snd (spec_run cap recs ops)) /\
      (forall a, a < b \/ b + es * cap <= a -> m' a = m a).
  Proof.
    induction ops as [|o ops IH]; intros m s recs F K.
    - cbn. eauto.
    - inversion K; subst. cbn [code_run spec_run].
      destruct (code_step_ok m s recs o F H1) as (m1 & s1 & E1 & F1 & Fr1).
      rewrite E1. cbn [bind]. destruct (spec_step cap recs o) as [a recs1]. cbn [fst snd] in *.
      destruct (IH m1 s1 recs1 F1 H2) as (m2 & s2 & E2 & F2 & Fr2).
      rewrite E2. cbn [bind]. destruct (spec_run cap recs1 ops) as [l recs2]. cbn [fst snd] in *.
      exists m2, s2. split; [reflexivity|]. split; [exact F2|].
      intros x Hx. rewrite Fr2 by assumption. auto.
  Qed.
End Fixed.
