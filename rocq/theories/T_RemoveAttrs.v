(** C120: no optimisation may take the calls that carry labels for calls without effect. *)
From Coq Require Import NArith List Bool.
From Verif Require Import M_Base M_RemoveAttrs S_RemoveAttrs.
Import ListNotations.
Open Scope N_scope.

Lemma startswith_app p q : startswith (p ++ q) p = true.
Proof. induction p as [|x p IH]; cbn; [reflexivity|]. now rewrite N.eqb_refl. Qed.
Lemma strip_in a l : In a (strip l) <-> In a l /\ removed a = false.
Proof. unfold strip. rewrite filter_In, negb_true_iff. reflexivity. Qed.
Lemma by_pass_custom n : by_pass (s_custom ++ n) = true.
Proof. change s_custom with (s_dfsw ++ [95]). rewrite <- app_assoc. unfold by_pass. now rewrite startswith_app. Qed.
Lemma by_pass_dfs n : by_pass (s_dfs ++ n) = true.
Proof. unfold by_pass. rewrite startswith_app. apply orb_true_r. Qed.
Lemma holds_after m i name a : is_call_of (rm_pass m) i name -> by_pass name = true -> holds (rm_pass m) i a ->
  removed a = false /\ exists i0, is_call_of m i0 name /\ rm_instr i0 = i /\ holds m i0 a.
Proof.
  intros (f & l & If & Ii & ->) B H. unfold rm_pass in If. apply in_map_iff in If as (f0 & <- & I0). cbn in Ii.
  apply in_map_iff in Ii as (i0 & E & Ii0).
  assert (X : exists l0, i0 = ICall Plain (Some name) l0 /\ l = strip l0).
  { destruct i0 as [[] [c|] l0|]; cbn in E; try discriminate.
    destruct (by_pass c) eqn:Bc; injection E as -> <-; [eauto|congruence]. }
  destruct X as (l0 & -> & ->). cbn in H. destruct H as [H|(n & En & g & Ig & Eg & Ia)].
  - apply strip_in in H as [H R]. split; [exact R|]. exists (ICall Plain (Some name) l0). split; [exists f0, l0; auto|]. split; [exact E|]. now left.
  - injection En as <-. unfold rm_pass in Ig. apply in_map_iff in Ig as (g0 & <- & Ig0). cbn in Eg, Ia. rewrite Eg, B in Ia.
    apply strip_in in Ia as [Ia R]. split; [exact R|]. exists (ICall Plain (Some name) l0). split; [exists f0, l0; auto|]. split; [exact E|].
    right. exists name. split; [reflexivity|]. exists g0. auto.
Qed.

(** After the pass, a call of a custom wrapper or an instrumented function is not taken to only
    read, or to only touch memory that the program cannot see; and what is assumed of it was
    assumed before. *)
Theorem C120_removed : forall m i name a,
  is_call_of (rm_pass m) i name -> (exists n, name = s_custom ++ n \/ name = s_dfs ++ n) -> holds (rm_pass m) i a ->
  a <> ReadOnly /\ a <> InaccessibleMemOnly /\ a <> InaccessibleMemOrArgMemOnly /\
  exists i0, is_call_of m i0 name /\ holds m i0 a.
Proof.
  intros m i name a C (n & N) H.
  assert (B : by_pass name = true) by (destruct N as [->| ->]; [apply by_pass_custom|apply by_pass_dfs]).
  destruct (holds_after m i name a C B H) as (R & i0 & C0 & _ & H0). repeat split; try (intros ->; discriminate). eauto.
Qed.
Print Assumptions C120_removed.

Lemma startswith_iff name p : startswith name p = true -> exists n, name = p ++ n.
Proof.
  revert name. induction p as [|x p IH]; intros [|y name]; cbn; intros H; try discriminate; eauto.
  apply andb_true_iff in H as [E H]. apply N.eqb_eq in E as ->. destruct (IH name H) as (n & ->). eauto.
Qed.
Lemma by_pass_touched name : by_pass name = true -> touched_name name.
Proof. unfold by_pass. rewrite orb_true_iff. intros [H|H]; apply startswith_iff in H; [now left|now right]. Qed.
Lemma same_strip (P : Prop) l : P -> same_attrs P l (strip l).
Proof.
  intros p. split; [contradiction|]. intros a A1 A2 A3. rewrite strip_in. split; [tauto|]. intros I. split; [exact I|]. destruct a; cbn; congruence.
Qed.
Lemma same_refl P l : same_attrs P l l.
Proof. split; [auto|]. tauto. Qed.
(** Nothing else changes: functions, their names and bodies stay in place, attributes of other
    kinds stay, and so do all attributes of other functions and other calls. *)
Theorem C120_kept : forall m, Forall2 same_func m (rm_pass m).
Proof.
  induction m as [|f m IH]; cbn; constructor; [|exact IH]. unfold same_func. cbn. repeat split.
  - destruct (by_pass (f_name f)) eqn:B; [intros N; destruct N; now apply by_pass_touched|reflexivity].
  - destruct (by_pass (f_name f)) eqn:B; [apply (same_strip True); auto; exact I|tauto].
  - destruct (by_pass (f_name f)) eqn:B; [apply (same_strip True); auto; exact I|tauto].
  - induction (f_body f) as [|i b IHb]; cbn; constructor; [|exact IHb]. destruct i as [k c l|n]; cbn; [|reflexivity].
    destruct k; [destruct c as [c|]; [destruct (by_pass c) eqn:B|]|]; cbn; repeat split; auto; try tauto.
    + intros N. destruct N. split; [reflexivity|]. exists c. split; [reflexivity|now apply by_pass_touched].
    + apply (same_strip True); auto; exact I.
    + apply (same_strip True); auto; exact I.
Qed.
Print Assumptions C120_kept.

(** The label that a custom wrapper returns is not assumed to be left alone by the call, if the
    function returns something and the call was not marked as one without effect. *)
Theorem C120_return_label_partial : forall m f i,
  In (custom f) m -> (forall g, In g m -> f_name g = s_custom ++ f_name f -> g = custom f) -> f_void f = false ->
  (forall i0 l, is_call_of m i0 (s_custom ++ f_name f) -> i0 = custom_call f l -> ~ In ReadNone l) ->
  is_call_of (rm_pass m) i (s_custom ++ f_name f) -> ~ keeps_arguments (rm_pass m) i.
Proof.
  intros m f i If U V N C K.
  assert (W : forall a, holds (rm_pass m) i a -> a <> ReadOnly /\ a <> InaccessibleMemOnly /\ a <> InaccessibleMemOrArgMemOnly /\
      exists i0, is_call_of m i0 (s_custom ++ f_name f) /\ holds m i0 a) by (intros a; apply C120_removed; eauto).
  destruct K as [K|[K|K]]; destruct (W _ K) as (W1 & W2 & W3 & i0 & C0 & H0); try contradiction.
  destruct C0 as (g & l & Ig & Ii & ->). destruct H0 as [H0|(n & En & h & Ih & Eh & Ia)].
  - apply (N (custom_call f l) l); [exists g, l; auto|reflexivity|exact H0].
  - injection En as <-. rewrite (U h Ih Eh) in Ia. cbn in Ia. rewrite V in Ia. unfold no_read_attrs in Ia. apply filter_In in Ia as [_ Ia]. discriminate.
Qed.
Print Assumptions C120_return_label_partial.

(** A call of an instrumented function is not assumed to leave labels alone, unless it or the
    function is marked as without effect or as touching its arguments only. *)
Theorem C120_instrumented_partial : forall m n i,
  (forall i0 a, is_call_of m i0 (s_dfs ++ n) -> holds m i0 a -> a <> ReadNone /\ a <> ArgMemOnly) ->
  is_call_of (rm_pass m) i (s_dfs ++ n) -> ~ keeps_globals (rm_pass m) i.
Proof.
  intros m n i N C K.
  assert (W : forall a, holds (rm_pass m) i a -> a <> ReadOnly /\ a <> InaccessibleMemOnly /\ a <> InaccessibleMemOrArgMemOnly /\ a <> ReadNone /\ a <> ArgMemOnly).
  { intros a H. destruct (C120_removed m i (s_dfs ++ n) a C) as (W1 & W2 & W3 & i0 & C0 & H0); [eauto|exact H|]. destruct (N i0 a C0 H0). auto. }
  destruct K as [[K|[K|K]]|[K|K]]; destruct (W _ K) as (W1 & W2 & W3 & W4 & W5); contradiction.
Qed.
Print Assumptions C120_instrumented_partial.

(** A function that computes without memory is marked so by the optimiser (ReadNone); when it is
    instrumented it passes labels through memory, but is still marked. *)
Theorem C120_instrumented_refuted : exists f g, In ReadNone (f_attrs f) /\ f_void f = false /\
  let m := rm_pass [instrumented f; instrumented g] in let i := ICall Plain (Some (f_name (instrumented f))) [] in
  is_call_of m i (s_dfs ++ f_name f) /\ keeps_globals m i /\ no_effect m i.
Proof.
  exists (mkFunc [102] [ReadNone] false []), (mkFunc [103] [] false [ICall Plain (Some (s_dfs ++ [102])) []]). cbv zeta.
  split; [now left|]. split; [reflexivity|].
  assert (H : no_effect (rm_pass [instrumented (mkFunc [102] [ReadNone] false []); instrumented (mkFunc [103] [] false [ICall Plain (Some (s_dfs ++ [102])) []])])
     (ICall Plain (Some (f_name (instrumented (mkFunc [102] [ReadNone] false [])))) [])).
  { right. eexists. split; [reflexivity|]. eexists. split; [now left|]. split; [reflexivity|now left]. }
  split; [|split; [left; right; now left|exact H]]. eexists _, _. split; [right; now left|]. split; [now left|reflexivity].
Qed.
Print Assumptions C120_instrumented_refuted.
(** The call of a custom wrapper keeps the mark ReadNone of the call that it replaces, and is
    then assumed not to write the label that is read after it. *)
Theorem C120_return_label_refuted : exists f g, f_void f = false /\ In (custom_call f [ReadNone]) (f_body g) /\
  let m := rm_pass [custom f; g] in
  is_call_of m (custom_call f [ReadNone]) (s_custom ++ f_name f) /\ keeps_arguments m (custom_call f [ReadNone]).
Proof.
  pose (f := mkFunc [102] [] false []). exists f, (mkFunc [103] [] false [custom_call f [ReadNone]]). cbv zeta.
  split; [reflexivity|]. split; [now left|]. split; [|right; left; left; now left].
  eexists _, _. split; [right; now left|]. split; [now left|reflexivity].
Qed.
Print Assumptions C120_return_label_refuted.
(** Wrappers called through pointers or by invoke instructions have names that the pass does not
    know; the calls themselves keep every mark. *)
Theorem C120_wrapped_refuted : forall f, In InaccessibleMemOnly (f_attrs f) ->
  (exists g, In g (rm_pass [wrapped f]) /\ f_name g = s_wrap ++ f_name f /\ In InaccessibleMemOnly (f_attrs g)) /\
  forall k c l, k = Invoke \/ c = None -> rm_instr (ICall k c l) = ICall k c l.
Proof.
  intros f I. split.
  - eexists. split; [left; reflexivity|]. cbn [rm_func f_name wrapped f_attrs]. split; [reflexivity|].
    replace (by_pass (s_wrap ++ f_name f)) with false by reflexivity. unfold no_read_attrs. apply filter_In. auto.
  - intros k c l [->| ->]; [reflexivity|]. destruct k; reflexivity.
Qed.
Print Assumptions C120_wrapped_refuted.
(** The function that records a decision on labelled data is declared as one without effect before
    the program is optimised, so two records of the same decision may become one. *)
Theorem C120_recording_refuted : forall m k l, incl logging_functions m -> no_effect m (ICall k (Some s_log) l).
Proof.
  intros m k l I. right. exists s_log. split; [reflexivity|]. exists (mkFunc s_log [ReadNone] false []). split; [apply I; now left|]. split; [reflexivity|now left].
Qed.
Print Assumptions C120_recording_refuted.
(** The functions that record entering and leaving are not. *)
Theorem C120_enter_leave : forall name, name = s_enter \/ name = s_leave ->
  ~ keeps_globals logging_functions (ICall Plain (Some name) []).
Proof.
  intros name N K.
  assert (W : forall a, ~ holds logging_functions (ICall Plain (Some name) []) a).
  { intros a [[]|(n & E & f & If & Ef & Ia)]. injection E as <-. destruct If as [<-|[<-|[<-|[]]]]; cbn in *; try contradiction.
    destruct N as [->| ->]; discriminate Ef. }
  destruct K as [[K|[K|K]]|[K|K]]; exact (W _ K).
Qed.
Print Assumptions C120_enter_leave.

Example C120_case : let f := mkFunc [102] [ReadOnly; OtherAttr 1] false [] in
  let m := [custom f; mkFunc (s_dfs ++ [103]) [InaccessibleMemOnly; OtherAttr 2] false [custom_call f [ReadOnly; ArgMemOnly]; ICall Plain (Some (s_dfs ++ [103])) []]] in
  rm_pass m = [mkFunc (s_custom ++ [102]) [OtherAttr 1] false [];
               mkFunc (s_dfs ++ [103]) [OtherAttr 2] false [custom_call f [ArgMemOnly]; ICall Plain (Some (s_dfs ++ [103])) []]] /\
  is_call_of (rm_pass m) (custom_call f [ArgMemOnly]) (s_custom ++ [102]) /\ ~ keeps_arguments (rm_pass m) (custom_call f [ArgMemOnly]) /\
  keeps_arguments m (custom_call f [ReadOnly; ArgMemOnly]).
Proof.
  cbv zeta. split; [reflexivity|]. split; [eexists _, _; split; [right; now left|]; split; [now left|reflexivity]|].
  split; [|left; left; now left].
  assert (W : forall a, holds (rm_pass [custom (mkFunc [102] [ReadOnly; OtherAttr 1] false []);
      mkFunc (s_dfs ++ [103]) [InaccessibleMemOnly; OtherAttr 2] false [custom_call (mkFunc [102] [ReadOnly; OtherAttr 1] false []) [ReadOnly; ArgMemOnly]; ICall Plain (Some (s_dfs ++ [103])) []]])
      (custom_call (mkFunc [102] [ReadOnly; OtherAttr 1] false []) [ArgMemOnly]) a -> a = ArgMemOnly \/ exists n, a = OtherAttr n).
  { intros a [[<-|[]]|(n & E & f & If & Ef & Ia)]; [now left|]. destruct If as [<-|[<-|[]]]; destruct Ia as [<-|[]]; eauto. }
  intros [K|[K|K]]; destruct (W _ K) as [E|(n & E)]; discriminate.
Qed.
