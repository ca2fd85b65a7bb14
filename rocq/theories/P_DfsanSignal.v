(** Lemmas about signal handlers. *)
From Coq Require Import NArith ZArith List Bool Lia.
From Verif Require Import M_Base M_DfsanSignal S_Signal P_Base.
Import ListNotations.
Open Scope N_scope.

(** What the kernel has for action [a] of the program. *)
Definition hooked (a : action) : action := mk_action (siginfo a) (if siginfo a then SIGNAL_ACTION else SIGNAL_HANDLER) (others a).

Record inv_at (K : kernel) (st : dstate) (k : actions) (s : Z) : Prop := {
  inv_special : special (handler (k s)) = true -> kern st s = k s;
  inv_user : special (handler (k s)) = false ->
    exists_ K s = true /\ fixed K s = false /\ kern st s = hooked (k s) /\ table_of st s = handler (k s) /\ user_function (handler (k s))
}.
Definition inv (K : kernel) (st : dstate) (k : actions) : Prop := forall s, inv_at K st k s.

Lemma update_same {A} (f : Z -> A) s x : update f s x s = x.
Proof. unfold update. now rewrite Z.eqb_refl. Qed.
Lemma update_other {A} (f : Z -> A) s x y : y <> s -> update f s x y = f y.
Proof. intros H. unfold update. now replace (y =? s)%Z with false by (symmetry; now apply Z.eqb_neq). Qed.

Lemma special_cases h : special h = true <-> h = SIG_DFL \/ h = SIG_IGN.
Proof. unfold special. rewrite orb_true_iff, !N.eqb_eq. tauto. Qed.

Lemma inv_fresh K k : fresh k -> inv K (mk_dstate (fun _ => 0) k) k.
Proof.
  intros F s. assert (S : special (handler (k s)) = true) by (apply special_cases; apply F).
  split; [reflexivity|]. rewrite S. discriminate.
Qed.

(** What is reported is what the program installed. *)
Lemma reported_ok K st k s : inv K st k -> reported (table_of st s) (kern st s) = k s.
Proof.
  intros I. destruct (I s) as [A B]. destruct (special (handler (k s))) eqn:E.
  - rewrite A by reflexivity. unfold reported. apply special_cases in E.
    destruct (siginfo (k s)), E as [-> | ->]; reflexivity.
  - destruct B as (_ & _ & -> & -> & _); [reflexivity|]. unfold reported, hooked. cbn [handler siginfo others].
    rewrite N.eqb_refl. now destruct (k s).
Qed.

Lemma checked_ok {A} s (r : Res A) : (0 <= s < 1024)%Z -> checked s r = r.
Proof.
  intros [H1 H2]. unfold checked, MAX_SIGNALS. replace (1024 <=? s)%Z with false by (symmetry; now apply Z.leb_gt).
  now replace (s <? 0)%Z with false by (symmetry; now apply Z.ltb_ge).
Qed.

(** Installing, as done by both functions. *)
Lemma install_inv K st k s a : inv K st k -> user_function (handler a) -> exists_ K s = true -> fixed K s = false ->
  inv K (mk_dstate (fst (install (table_of st) s a)) (update (kern st) s (snd (install (table_of st) s a)))) (update k s a).
Proof.
  intros I U Ex Fx y. unfold install. destruct (special (handler a)) eqn:E; cbn [fst snd].
  - destruct (Z.eq_dec y s) as [->|Ne].
    + split; cbn [kern table_of]; rewrite !update_same; [reflexivity|rewrite E; discriminate].
    + destruct (I y) as [A B]. split; cbn [kern table_of]; rewrite !update_other by exact Ne; assumption.
  - destruct (Z.eq_dec y s) as [->|Ne].
    + split; cbn [kern table_of]; rewrite !update_same; [rewrite E; discriminate|]. intros _. repeat split; auto; apply U.
    + destruct (I y) as [A B]. split; cbn [kern table_of]; rewrite !update_other by exact Ne; assumption.
Qed.

(** If it fails, only the table may have changed, where it does not matter. *)
Lemma failed_inv K st k s a : inv K st k -> exists_ K s = false \/ fixed K s = true ->
  inv K (mk_dstate (fst (install (table_of st) s a)) (kern st)) k.
Proof.
  intros I F y. destruct (I y) as [A B]. split; [exact A|]. intros E. destruct (B E) as (C1 & C2 & C3 & C4 & C5).
  repeat split; auto; try apply C5. cbn [table_of]. unfold install. destruct (special (handler a)); cbn [fst]; [exact C4|].
  rewrite update_other; [exact C4|]. intros ->. destruct F as [F|F]; congruence.
Qed.

Definition mixes (k : actions) (e : event) : Prop :=
  match e with
  | Signal s _ => siginfo (k s) = true /\ special (handler (k s)) = false
  | _ => False
  end.

Lemma step_ok K st k e : inv K st k -> proper e ->
  exists o st', step K st e = Ok (o, st') /\ inv K st' (snd (plain_step K k e)) /\
  (o = fst (plain_step K k e) \/ (mixes k e /\ exists h, o = Old_handler h)) /\
  (match e with Signal _ _ => exists h, fst (plain_step K k e) = Old_handler h | _ => o = fst (plain_step K k e) end).
Proof.
  intros I P. destruct e as [s act|s h|s]; cbn [step plain_step proper] in *.
  - destruct P as [R P]. unfold dfsw_sigaction. rewrite checked_ok by exact R.
    assert (Rep := reported_ok K st k s I). destruct act as [a|].
    + destruct (install (table_of st) s a) as [tab a'] eqn:Ei. unfold libc_sigaction.
      assert (I2 := install_inv K st k s a I P). assert (I3 := failed_inv K st k s a I). rewrite Ei in I2, I3. cbn [fst snd] in I2, I3.
      destruct (exists_ K s) eqn:Ex; [destruct (fixed K s) eqn:Fx|]; cbn [bind].
      * eexists. eexists. split; [reflexivity|]. cbn [fst snd]. split; [now apply I3; right|]. auto.
      * eexists. eexists. split; [reflexivity|]. cbn [fst snd]. rewrite Rep. split; [now apply I2|]. auto.
      * eexists. eexists. split; [reflexivity|]. cbn [fst snd]. split; [now apply I3; left|]. auto.
    + unfold libc_sigaction. destruct (exists_ K s); cbn [bind]; eexists; eexists; (split; [reflexivity|]); cbn [fst snd].
      * rewrite Rep. split; [destruct st; exact I|]. auto.
      * split; [destruct st; exact I|]. auto.
  - destruct P as [R P]. unfold dfsw_signal. rewrite checked_ok by exact R.
    set (a := mk_action false h restart). assert (Ei : (if special h then (table_of st, h) else (update (table_of st) s h, SIGNAL_HANDLER)) =
      (fst (install (table_of st) s a), handler (snd (install (table_of st) s a)))).
    { unfold install, a. cbn [handler siginfo others]. destruct (special h); reflexivity. }
    assert (Ea : mk_action false (handler (snd (install (table_of st) s a))) restart = snd (install (table_of st) s a)).
    { unfold install, a. cbn [handler siginfo others]. destruct (special h); reflexivity. }
    rewrite Ei. unfold libc_signal.
    assert (H1 : (h =? SIG_ERR) = false) by (apply N.eqb_neq; apply P).
    assert (H2 : (handler (snd (install (table_of st) s a)) =? SIG_ERR) = false).
    { unfold install, a. cbn [handler siginfo others]. destruct (special h); [exact H1|reflexivity]. }
    rewrite H1, H2, Ea. fold a. unfold libc_sigaction.
    assert (I2 := install_inv K st k s a I P). assert (I3 := failed_inv K st k s a I).
    destruct (exists_ K s) eqn:Ex; [destruct (fixed K s) eqn:Fx|]; cbn [bind].
    + eexists. eexists. split; [reflexivity|]. cbn [fst snd]. split; [now apply I3; right|]. eauto.
    + eexists. eexists. split; [reflexivity|]. cbn [fst snd]. split; [now apply I2|]. split; [|eauto].
      destruct (I s) as [A B]. destruct (special (handler (k s))) eqn:E.
      * left. rewrite A by reflexivity. apply special_cases in E. destruct E as [-> | ->]; reflexivity.
      * destruct B as (_ & _ & E1 & E2 & _); [reflexivity|]. rewrite E1, E2. unfold hooked. cbn [handler].
        destruct (siginfo (k s)) eqn:Es; [right; split; [split; assumption|eauto]|]. left. rewrite N.eqb_refl. reflexivity.
    + eexists. eexists. split; [reflexivity|]. cbn [fst snd]. split; [now apply I3; left|]. eauto.
  - unfold deliver. destruct (I s) as [A B].
    assert (Sp : forall h, special h = ((h =? SIG_DFL) || (h =? SIG_IGN))) by (intros; unfold special; apply orb_comm).
    destruct (special (handler (k s))) eqn:E.
    + specialize (A eq_refl). unfold kernel_deliver. rewrite A. rewrite Sp in E.
      destruct (handler (k s) =? SIG_DFL) eqn:E1; [|destruct (handler (k s) =? SIG_IGN) eqn:E2; [|discriminate E]];
      (eexists; eexists; split; [reflexivity|]; cbn [fst snd]; split; [destruct st; exact I|auto]).
    + destruct (B eq_refl) as (C1 & C2 & C3 & C4 & C5). unfold kernel_deliver. rewrite C3. unfold hooked at 1 2 3 4 5 6. cbn [handler siginfo others].
      assert (E0 := E). rewrite Sp in E. apply orb_false_iff in E as [E1 E2]. rewrite E1, E2.
      assert (T1 : (if siginfo (k s) then SIGNAL_ACTION else SIGNAL_HANDLER) =? SIG_DFL = false) by (destruct (siginfo (k s)); reflexivity).
      assert (T2 : (if siginfo (k s) then SIGNAL_ACTION else SIGNAL_HANDLER) =? SIG_IGN = false) by (destruct (siginfo (k s)); reflexivity).
      rewrite T1, T2. eexists. eexists. split; [reflexivity|]. cbn [fst snd]. split.
      * destruct (one_shot K (others (k s))); [|destruct st; exact I].
        intros y. destruct (Z.eq_dec y s) as [->|Ne].
        -- split; cbn [kern table_of]; rewrite !update_same; [reflexivity|discriminate].
        -- destruct (I y) as [A' B']. split; cbn [kern table_of]; rewrite !update_other by exact Ne; assumption.
      * rewrite C4. split; [left|]; destruct (siginfo (k s)); reflexivity.
Qed.

Lemma run_same K es : forall st k, inv K st k -> Forall proper es -> no_mixing K k es -> run K st es = Ok (plain_run K k es).
Proof.
  induction es as [|e es IH]; intros st k I P N; [reflexivity|]. inversion P as [|? ? P1 P2]; subst. destruct N as [N1 N2].
  cbn [run plain_run]. destruct (step_ok K st k e I P1) as (o & st' & E & I' & Ho & _). rewrite E. cbn [bind].
  destruct (plain_step K k e) as [o' k'] eqn:Ep. cbn [fst snd] in *. rewrite (IH st' k' I' P2 N2). cbn [bind].
  destruct Ho as [-> |[M _]]; [reflexivity|]. destruct e as [s act|s h|s]; try contradiction. destruct M as [M1 M2].
  destruct N1 as [N1|N1]; [congruence|]. apply special_cases in N1. congruence.
Qed.

Lemma run_delivery K es : forall st k, inv K st k -> Forall proper es ->
  exists os, run K st es = Ok os /\ without_signal os = without_signal (plain_run K k es).
Proof.
  induction es as [|e es IH]; intros st k I P; [exists []; auto|]. inversion P as [|? ? P1 P2]; subst.
  cbn [run plain_run]. destruct (step_ok K st k e I P1) as (o & st' & E & I' & Ho & He). rewrite E. cbn [bind].
  destruct (plain_step K k e) as [o' k'] eqn:Ep. cbn [fst snd] in *. destruct (IH st' k' I' P2) as (os & Er & Eo). rewrite Er. cbn [bind].
  eexists. split; [reflexivity|]. destruct Ho as [-> |[M (h & ->)]].
  - unfold without_signal in *. cbn [filter]. rewrite Eo. reflexivity.
  - destruct e as [s act|s h'|s]; try contradiction. destruct He as (h2 & ->). exact Eo.
Qed.

Lemma sigaction_function K st s b f o : (0 <= s < 1024)%Z -> exists_ K s = true -> fixed K s = false -> special f = false ->
  dfsw_sigaction K st s (Some (mk_action b f o)) =
  Ok (Some (reported (table_of st s) (kern st s)),
      mk_dstate (update (table_of st) s f) (update (kern st) s (mk_action b (if b then SIGNAL_ACTION else SIGNAL_HANDLER) o))).
Proof.
  intros R Ex Fx Sf. unfold dfsw_sigaction. rewrite checked_ok by exact R. unfold install. cbn [handler siginfo others].
  rewrite Sf. unfold libc_sigaction. rewrite Ex, Fx. reflexivity.
Qed.
Lemma signal_function K st s f : (0 <= s < 1024)%Z -> exists_ K s = true -> fixed K s = false -> special f = false ->
  dfsw_signal K st s f =
  Ok (Some (if handler (kern st s) =? SIGNAL_HANDLER then table_of st s else handler (kern st s)),
      mk_dstate (update (table_of st) s f) (update (kern st) s (mk_action false SIGNAL_HANDLER restart))).
Proof.
  intros R Ex Fx Sf. unfold dfsw_signal. rewrite checked_ok by exact R. rewrite Sf. unfold libc_signal.
  change (SIGNAL_HANDLER =? SIG_ERR) with false. cbn match. unfold libc_sigaction. rewrite Ex, Fx. reflexivity.
Qed.
