(** C128: an interactive session survives errors and runs its exit functions. *)
From Coq Require Import NArith List Bool Lia.
From Verif Require Import M_Base M_PySession S_Session P_Base.
Import ListNotations.
Open Scope N_scope.

Lemma loop_left pre last rest : Forall goes_on pre -> leaves last -> forall e x,
  loop (pre ++ last :: rest) e x =
    (e :: map wrong pre, Left, x ++ flat_map registered (pre ++ [last])).
Proof.
  intros P L. induction P as [|s pre G P IH]; intros e x.
  - cbn [app map flat_map loop]. destruct last as [| | |[] l]; try easy; cbn; now rewrite app_nil_r.
  - cbn [app map flat_map loop].
    destruct s as [| | |[] l]; try easy; rewrite IH; cbn [registered wrong app]; now rewrite ?app_assoc.
Qed.

Lemma run_exits_all fuel beh : forall q l, run_exits fuel beh q = Ok (l, true) ->
  l = q ++ flat_map (fun f => fst (beh f)) l /\ forall f, In f l -> snd (beh f) = false.
Proof.
  induction fuel as [|k IH]; intros [|f r] l H; cbn [run_exits] in H.
  - inversion H; subst. split; [reflexivity|intros ? []].
  - discriminate.
  - inversion H; subst. split; [reflexivity|intros ? []].
  - destruct (beh f) as [new raises] eqn:B. destruct raises; [discriminate|].
    destruct (run_exits k beh (r ++ new)) as [[l' b]| | |] eqn:E; cbn in H; try discriminate.
    inversion H; subst. destruct (IH _ _ E) as [A C]. split.
    + cbn [flat_map app]. f_equal. rewrite B. cbn [fst]. rewrite A at 1. now rewrite app_assoc.
    + intros g [<-|G]; [now rewrite B|now apply C].
Qed.

Lemma run_exits_quiet beh q : (forall f, In f q -> beh f = ([], false)) ->
  forall k, run_exits (length q + k) beh q = Ok (q, true).
Proof.
  induction q as [|f q IH]; intros H k; [now destruct k|].
  cbn [length Nat.add run_exits]. rewrite H by now left. rewrite app_nil_r.
  rewrite IH by (intros; apply H; now right). reflexivity.
Qed.

(** A session goes on after interrupts and failing lines, of whatever kind: it has not ended
    and the functions for the end have not been run. *)
Theorem C128_survives : forall steps fuel beh self current exits, Forall goes_on steps ->
  exists r, run fuel beh self current exits steps = Ok r /\
    ran r = [] /\ left_over r = exits ++ flat_map registered steps /\
    prompts r = false :: map wrong steps /\
    current_after r = match current with Some c => Some c | None => Some self end.
Proof.
  intros steps fuel beh self current exits G. unfold run.
  assert (forall e x, loop steps e x = (e :: map wrong steps, Waiting, x ++ flat_map registered steps)) as L.
  { induction G as [|s r G _ IH]; intros e x; cbn [loop map flat_map].
    - now rewrite app_nil_r.
    - destruct s as [| | |[] l]; try easy; rewrite IH; cbn [registered wrong app]; now rewrite ?app_assoc. }
  rewrite L. eexists. split; [reflexivity|]. cbn. repeat split.
Qed.
Print Assumptions C128_survives.

(** The session ends when the user leaves, whatever came before.  If no function fails or
    registers another, all registered functions are run, in the order of their registration,
    once for each registration; none is left over, and the session is no longer current. *)
Theorem C128_exits_partial : forall pre last rest beh self current exits,
  Forall goes_on pre -> leaves last -> current <> Some self ->
  (forall f, In f (exits ++ flat_map registered (pre ++ [last])) -> beh f = ([], false)) ->
  exists fuel r, run fuel beh self current exits (pre ++ last :: rest) = Ok r /\
    returned r = true /\ ran r = exits ++ flat_map registered (pre ++ [last]) /\ left_over r = [] /\
    prompts r = false :: map wrong pre /\ current_after r = current.
Proof.
  intros pre last rest beh self current exits P L C B.
  exists (length (exits ++ flat_map registered (pre ++ [last])) + 0)%nat.
  unfold run. rewrite (loop_left pre last rest P L), (run_exits_quiet _ _ B). cbn [bind fst snd].
  eexists. split; [reflexivity|]. cbn. repeat split.
  destruct current as [c|]; cbn; [|now rewrite N.eqb_refl].
  destruct (c =? self) eqn:E; [|reflexivity]. apply N.eqb_eq in E. congruence.
Qed.
Print Assumptions C128_exits_partial.

(** In general, if run returns, the functions run are those registered in the session,
    followed by those registered by the functions run, in order: none is left out. *)
Theorem C128_all_run : forall pre last rest fuel beh self current exits r,
  Forall goes_on pre -> leaves last ->
  run fuel beh self current exits (pre ++ last :: rest) = Ok r -> returned r = true ->
  ran r = exits ++ flat_map registered (pre ++ [last]) ++ flat_map (fun f => fst (beh f)) (ran r) /\
  (forall f, In f (ran r) -> snd (beh f) = false) /\ left_over r = [].
Proof.
  intros pre last rest fuel beh self current exits r P L H R. unfold run in H.
  rewrite (loop_left pre last rest P L) in H.
  destruct (run_exits fuel beh _) as [[l b]| | |] eqn:E; cbn [bind fst snd] in H; try discriminate.
  destruct b; injection H as <-; cbn in *; [|discriminate].
  destruct (run_exits_all _ _ _ _ E) as [A C]. repeat split; [|exact C].
  rewrite A at 1. now rewrite <- app_assoc.
Qed.
Print Assumptions C128_all_run.

(** Sessions within sessions leave the current one as it was. *)
Theorem C128_nested : forall h, nested h -> forall c,
  (forall i, c = Some i -> ~ In (Starts i) h) -> current_of h c = c.
Proof.
  unfold current_of. induction 1 as [|i h h' _ IH1 _ IH2 NI]; intros c C; [reflexivity|].
  cbn [fold_left]. rewrite fold_left_app. cbn [fold_left].
  assert (forall j, start i c = Some j -> ~ In (Starts j) h) as S1.
  { intros j J. destruct c as [k|]; cbn in J; inversion J; subst; [|exact NI].
    intros X. apply (C j eq_refl). right. apply in_or_app. now left. }
  rewrite (IH1 _ S1).
  assert (finish i (start i c) = c) as F.
  { destruct c as [k|]; cbn; [|now rewrite N.eqb_refl].
    destruct (k =? i) eqn:E; [|reflexivity]. apply N.eqb_eq in E. subst. exfalso.
    apply (C i eq_refl). now left. }
  rewrite F. apply IH2. intros j J X. apply (C j J). right. apply in_or_app. right. now right.
Qed.
Print Assumptions C128_nested.

(** A session with an interrupt, failing lines and registrations in some of them. *)
Example C128_case :
  let pre := [Line Done [1]; Interrupt; Line NameErr []; Line Raised [2; 1]] in
  Forall goes_on pre /\ leaves (Line SysExit [3])
  /\ run 10 (fun _ => ([], false)) 7 None [5] (pre ++ [Line SysExit [3]])
     = Ok (mkResult [false; false; true; true; true] [5; 1; 2; 1; 3] true [] None)
  /\ run 10 (fun f => if f =? 1 then ([9], false) else ([], false)) 7 (Some 4) [] [Line Done [1; 2]; Eof]
     = Ok (mkResult [false; false] [1; 2; 9] true [] (Some 4))
  /\ nested [Starts 1; Starts 2; Ends 2; Starts 2; Ends 2; Ends 1].
Proof.
  cbn zeta. repeat split; try reflexivity.
  - repeat constructor.
  - apply (nested_cons 1 [Starts 2; Ends 2; Starts 2; Ends 2] []).
    + apply (nested_cons 2 [] [Starts 2; Ends 2]); [constructor| |intros []].
      apply (nested_cons 2 [] []); [constructor|constructor|intros []].
    + constructor.
    + cbn. intuition discriminate.
Qed.

(** A function that fails keeps those behind it from being run, the session stays current
    although it is over, and a second run starts all functions anew. *)
Theorem C128_failing_refuted : exists beh steps r,
  run 10 beh 7 None [1; 2; 3] steps = Ok r /\ returned r = false /\
  ran r = [1; 2] /\ left_over r = [1; 2; 3] /\ current_after r = Some 7.
Proof.
  exists (fun f => ([], f =? 2)), [Eof]. eexists. split; [reflexivity|]. repeat split.
Qed.
Print Assumptions C128_failing_refuted.

(** An exception from the prompt itself ends the session without running any of them. *)
Theorem C128_prompt_refuted : forall fuel beh self exits rest,
  exists r, run fuel beh self None exits (PromptFails :: rest) = Ok r /\
    returned r = false /\ ran r = [] /\ current_after r = Some self.
Proof. intros. eexists. split; [reflexivity|]. repeat split. Qed.
Print Assumptions C128_prompt_refuted.

(** When sessions overlap without being nested, or a session is run from within itself, none
    is current although one is running. *)
Theorem C128_overlap_refuted :
  current_of [Starts 1; Starts 2; Ends 1] None = None /\
  current_of [Starts 1; Starts 1; Ends 1] None = None.
Proof. split; reflexivity. Qed.
Print Assumptions C128_overlap_refuted.
