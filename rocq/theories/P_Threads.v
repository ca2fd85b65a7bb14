(** Proofs about labels in programs with several threads. *)
From Coq Require Import NArith List Bool Lia.
From Verif Require Import S_Threads M_Threads.
Import ListNotations.
Open Scope N_scope.
Local Arguments next_instr : simpl never.

Lemma upd_same {V} (f : N -> V) k v : upd f k v k = v.
Proof. unfold upd. rewrite N.eqb_refl. reflexivity. Qed.
Lemma upd_other {V} (f : N -> V) k v x : x <> k -> upd f k v x = f x.
Proof. unfold upd. intro H. apply N.eqb_neq in H. rewrite H. reflexivity. Qed.
Lemma updt_same {V} (f : nat -> V) k v : updt f k v k = v.
Proof. unfold updt. rewrite PeanoNat.Nat.eqb_refl. reflexivity. Qed.
Lemma updt_other {V} (f : nat -> V) k v x : x <> k -> updt f k v x = f x.
Proof. unfold updt. intro H. apply PeanoNat.Nat.eqb_neq in H. rewrite H. reflexivity. Qed.

(** ** Sets *)
Definition rel (strict : bool) (x y : dset) : Prop := if strict then same x y else within x y.
Lemma same_refl x : same x x. Proof. intro; reflexivity. Qed.
Lemma same_sym x y : same x y -> same y x. Proof. intros H b. symmetry. apply H. Qed.
Lemma same_trans x y z : same x y -> same y z -> same x z. Proof. intros H G b. rewrite H. apply G. Qed.
Lemma du_same a b c d : same a b -> same c d -> same (du a c) (du b d).
Proof. intros H G x. unfold du. rewrite H, G. reflexivity. Qed.
Lemma du_d0 a b : same a d0 -> same b d0 -> same (du a b) d0.
Proof. intros H G x. unfold du. rewrite H, G. reflexivity. Qed.
Lemma rel_refl st x : rel st x x.
Proof. destruct st; cbn; [apply same_refl|intros b H; exact H]. Qed.
Lemma rel_du st a b c d : rel st a b -> rel st c d -> rel st (du a c) (du b d).
Proof.
  destruct st; cbn; [apply du_same|]. intros H G x X. unfold du in *. apply orb_true_iff in X. apply orb_true_iff.
  destruct X as [X|X]; [left; apply H, X|right; apply G, X].
Qed.
Lemma rel_l st x x' y : same x x' -> rel st x y -> rel st x' y.
Proof.
  destruct st; cbn; intros S H; [eapply same_trans; [apply same_sym, S|exact H]|].
  intros b B. apply H. rewrite S. exact B.
Qed.
Lemma rel_r st x y y' : same y y' -> rel st x y -> rel st x y'.
Proof.
  destruct st; cbn; intros S H; [eapply same_trans; [exact H|exact S]|].
  intros b B. rewrite <- S. apply H, B.
Qed.
Lemma rel_d0 st y : (st = true -> same y d0) -> rel st d0 y.
Proof. destruct st; cbn; intro H; [apply same_sym, H; reflexivity|intros b B; discriminate B]. Qed.
Lemma rel_dunion st (f g : N -> dset) l : (forall r, In r l -> rel st (f r) (g r)) -> rel st (dunion (map f l)) (dunion (map g l)).
Proof.
  induction l as [|x l IH]; intro H; cbn [map dunion fold_right]; [apply rel_refl|].
  apply rel_du; [apply H; cbn; auto|]. apply IH. intros; apply H; cbn; auto.
Qed.

Section Run.
  Variable sem : N -> list N -> N.
  Variable P : program.
  Notation ostep := (ostep sem P).
  Notation istep := (istep sem P).
  Notation nxt := (next_instr P).

  (** ** States that differ in one thread *)
  Definition agree_t (x y : othread) : Prop := o_pc x = o_pc y /\ (forall r, o_reg x r = o_reg y r).
  Definition agree_m (s s2 : ostate) : Prop := (forall a, o_mem s a = o_mem s2 a) /\ (forall m, o_lock s m = o_lock s2 m).

  Lemma agree_upd_reg f g r v w : (forall x, f x = g x) -> v = w -> forall x : N, upd f r v x = upd g r w x :> N.
  Proof. intros H E x. unfold upd. destruct (x =? r); [exact E|apply H]. Qed.
  Lemma map_ext' (f g : N -> N) l : (forall x, f x = g x) -> map f l = map g l.
  Proof. intro H. apply map_ext, H. Qed.

  Lemma ostep_others s t s' u : ostep s t = Some s' -> u <> t -> o_thr s' u = o_thr s u.
  Proof.
    unfold S_Threads.ostep. intros H U. destruct (nxt t (o_pc (o_thr s t))) as [i|]; [|discriminate].
    destruct i; try (destruct (o_lock s m) as [w|]; try discriminate; try (destruct (Nat.eqb w t); try discriminate));
      inversion H; subst; cbn; apply updt_other; exact U.
  Qed.
  Lemma ostep_agree s s2 t s' : agree_t (o_thr s t) (o_thr s2 t) -> agree_m s s2 -> ostep s t = Some s' ->
    exists s2', ostep s2 t = Some s2' /\ agree_t (o_thr s' t) (o_thr s2' t) /\ agree_m s' s2'.
  Proof.
    intros [EP ER] [EM EL]. unfold S_Threads.ostep. rewrite <- EP. destruct (nxt t (o_pc (o_thr s t))) as [i|]; [|discriminate].
    destruct i as [r op args|a r p|a p v|r p op v|c tgt|m|m].
    - intro H. inversion H; subst. eexists. split; [reflexivity|]. cbn. rewrite !updt_same. split; [|split; assumption].
      split; cbn; [reflexivity|]. apply agree_upd_reg; [exact ER|]. rewrite (map_ext' _ _ args ER). reflexivity.
    - intro H. inversion H; subst. eexists. split; [reflexivity|]. cbn. rewrite !updt_same. split; [|split; assumption].
      split; cbn; [reflexivity|]. apply agree_upd_reg; [exact ER|]. rewrite ER. apply EM.
    - intro H. inversion H; subst. eexists. split; [reflexivity|]. cbn. rewrite !updt_same. split; [split; cbn; auto|].
      split; cbn; [|assumption]. rewrite !ER. apply agree_upd_reg; [exact EM|reflexivity].
    - intro H. inversion H; subst. eexists. split; [reflexivity|]. cbn. rewrite !updt_same. split.
      + split; cbn; [reflexivity|]. apply agree_upd_reg; [exact ER|]. rewrite ER. apply EM.
      + split; cbn; [|assumption]. rewrite !ER. apply agree_upd_reg; [exact EM|]. rewrite EM. reflexivity.
    - intro H. inversion H; subst. eexists. split; [reflexivity|]. cbn. rewrite !updt_same. split; [|split; assumption].
      split; cbn; [rewrite ER; reflexivity|exact ER].
    - rewrite <- EL. destruct (o_lock s m); [discriminate|]. intro H. inversion H; subst. eexists. split; [reflexivity|].
      cbn. rewrite !updt_same. split; [split; cbn; auto|]. split; cbn; [assumption|]. intro x. unfold upd. destruct (x =? m); auto.
    - rewrite <- EL. destruct (o_lock s m) as [w|]; [|discriminate]. destruct (Nat.eqb w t); [|discriminate].
      intro H. inversion H; subst. eexists. split; [reflexivity|].
      cbn. rewrite !updt_same. split; [split; cbn; auto|]. split; cbn; [assumption|]. intro x. unfold upd. destruct (x =? m); auto.
  Qed.
  Lemma access_agree s s2 t : agree_t (o_thr s t) (o_thr s2 t) -> access P s t = access P s2 t.
  Proof. intros [EP ER]. unfold access. rewrite <- EP. destruct (nxt t _) as [[]|]; rewrite ?ER; reflexivity. Qed.

  (** ** The invariant *)
  Definition pc_of (x : ithread) : nat := match i_mid x with MValueLoaded _ => S (i_pc x) | _ => i_pc x end.
  Record rel_state (s : istate) (o : ostate) : Prop := mkRel {
    r_reg : forall t r, i_reg (i_thr s t) r = o_reg (o_thr o t) r;
    r_pc : forall t, o_pc (o_thr o t) = pc_of (i_thr s t);
    r_mem : forall a, i_mem s a = o_mem o a;
    r_lock : forall m, i_lock s m = o_lock o m
  }.
  Definition mid_ok (s : istate) (t : nat) : Prop :=
    match i_mid (i_thr s t), nxt t (i_pc (i_thr s t)) with
    | MStart, _ => True
    | MShadowLoaded _, Some (ILoad false _ _) => True
    | MValueLoaded _, Some (ILoad true _ _) => True
    | MShadowStored, Some (IStore _ _ _) => True
    | MShadowStored, Some (IRmw _ _ _ _) => True
    | _, _ => False
    end.

  (** Values: every step of the instrumented program is a step of the program, or silent. *)
  Lemma set_thread s o t x' y' : rel_state s o -> (forall r, i_reg x' r = o_reg y' r) -> o_pc y' = pc_of x' ->
    forall mem msh lk omem omd olk, (forall a, mem a = omem a) -> (forall m, lk m = olk m) ->
    rel_state (mkIs (updt (i_thr s) t x') mem msh lk) (mkOs (updt (o_thr o) t y') omem omd olk).
  Proof.
    intros R E1 E2 mem msh lk omem omd olk EM EL. constructor; cbn; auto; intro u; unfold updt; destruct (Nat.eqb u t); auto;
      [apply (r_reg _ _ R)|apply (r_pc _ _ R)].
  Qed.
  Lemma set_silent s o t x' : rel_state s o -> (forall r, i_reg x' r = i_reg (i_thr s t) r) -> pc_of x' = pc_of (i_thr s t) ->
    forall msh, rel_state (mkIs (updt (i_thr s) t x') (i_mem s) msh (i_lock s)) o.
  Proof.
    intros R E1 E2 msh. constructor; cbn; [| |exact (r_mem _ _ R)|exact (r_lock _ _ R)];
      intro u; unfold updt; destruct (Nat.eqb u t) eqn:E.
    - apply PeanoNat.Nat.eqb_eq in E. subst u. intro r. rewrite E1. apply (r_reg _ _ R).
    - apply (r_reg _ _ R).
    - apply PeanoNat.Nat.eqb_eq in E. subst u. rewrite E2. apply (r_pc _ _ R).
    - apply (r_pc _ _ R).
  Qed.
  Lemma step_values s o t s' : rel_state s o -> (forall u, mid_ok s u) -> istep s t = Some s' ->
    (forall u, mid_ok s' u) /\ (rel_state s' o \/ exists o', ostep o t = Some o' /\ rel_state s' o').
  Proof.
    intros R M H. pose proof (M t) as MT. unfold M_Threads.istep in H.
    assert (MO : forall x', (let s1 := mkIs (updt (i_thr s) t x') (i_mem s') (i_msh s') (i_lock s') in mid_ok s1 t) ->
      i_thr s' = updt (i_thr s) t x' -> forall u, mid_ok s' u).
    { intros x' A E u. unfold mid_ok in *. rewrite E. cbn in A. destruct (PeanoNat.Nat.eq_dec u t) as [->|U].
      - exact A.
      - rewrite updt_other by exact U. apply M. }
    unfold mid_ok in MT. unfold S_Threads.ostep. pose proof (r_pc _ _ R t) as EP. pose proof (r_reg _ _ R t) as ER. unfold pc_of in EP.
    destruct (nxt t (i_pc (i_thr s t))) as [i|] eqn:EN; [|discriminate].
    destruct i as [r op args|[] r p|a p v|r p op v|c tgt|m|m].
    - destruct (i_mid (i_thr s t)) eqn:EMID; try contradiction. inversion H; subst; clear H. split.
      + eapply MO; [|reflexivity]. unfold mid_ok. cbn. rewrite updt_same. cbn. exact I.
      + right. eexists. rewrite EP, EN. split; [reflexivity|]. apply set_thread; auto; cbn; [|exact (r_mem _ _ R)|exact (r_lock _ _ R)].
        apply agree_upd_reg; [exact ER|]. rewrite (map_ext' _ _ args ER). reflexivity.
    - destruct (i_mid (i_thr s t)) eqn:EMID; try discriminate.
      + inversion H; subst; clear H. split.
        * eapply MO; [|reflexivity]. unfold mid_ok. cbn. rewrite updt_same. cbn. rewrite EN. exact I.
        * right. eexists. rewrite EP, EN. split; [reflexivity|]. apply set_thread; auto; cbn; [|exact (r_mem _ _ R)|exact (r_lock _ _ R)].
          apply agree_upd_reg; [exact ER|]. rewrite ER. apply (r_mem _ _ R).
      + inversion H; subst; clear H. split.
        * eapply MO; [|reflexivity]. unfold mid_ok. cbn. rewrite updt_same. cbn. exact I.
        * left. apply set_silent; [exact R|reflexivity|]. unfold pc_of. cbn. rewrite EMID. reflexivity.
    - destruct (i_mid (i_thr s t)) eqn:EMID; try discriminate.
      + inversion H; subst; clear H. split.
        * eapply MO; [|reflexivity]. unfold mid_ok. cbn. rewrite updt_same. cbn. rewrite EN. exact I.
        * left. apply set_silent; [exact R|reflexivity|]. unfold pc_of. cbn. rewrite EMID. reflexivity.
      + inversion H; subst; clear H. split.
        * eapply MO; [|reflexivity]. unfold mid_ok. cbn. rewrite updt_same. cbn. exact I.
        * right. eexists. rewrite EP, EN. split; [reflexivity|]. apply set_thread; auto; cbn; [|exact (r_mem _ _ R)|exact (r_lock _ _ R)].
          apply agree_upd_reg; [exact ER|]. rewrite ER. apply (r_mem _ _ R).
    - destruct (i_mid (i_thr s t)) eqn:EMID; try discriminate.
      + inversion H; subst; clear H. split.
        * eapply MO; [|reflexivity]. unfold mid_ok. cbn. rewrite updt_same. cbn. rewrite EN. exact I.
        * left. apply set_silent; [exact R|reflexivity|]. unfold pc_of. cbn. rewrite EMID. reflexivity.
      + inversion H; subst; clear H. split.
        * eapply MO; [|reflexivity]. unfold mid_ok. cbn. rewrite updt_same. cbn. exact I.
        * right. eexists. rewrite EP, EN. split; [reflexivity|]. apply set_thread; auto; cbn; [|exact (r_lock _ _ R)].
          rewrite !ER. apply agree_upd_reg; [exact (r_mem _ _ R)|reflexivity].
    - destruct (i_mid (i_thr s t)) eqn:EMID; try discriminate.
      + inversion H; subst; clear H. split.
        * eapply MO; [|reflexivity]. unfold mid_ok. cbn. rewrite updt_same. cbn. rewrite EN. exact I.
        * left. apply set_silent; [exact R|reflexivity|]. unfold pc_of. cbn. rewrite EMID. reflexivity.
      + inversion H; subst; clear H. split.
        * eapply MO; [|reflexivity]. unfold mid_ok. cbn. rewrite updt_same. cbn. exact I.
        * right. eexists. rewrite EP, EN. split; [reflexivity|]. apply set_thread; auto; cbn; [| |exact (r_lock _ _ R)].
          -- apply agree_upd_reg; [exact ER|]. rewrite ER. apply (r_mem _ _ R).
          -- rewrite !ER. apply agree_upd_reg; [exact (r_mem _ _ R)|]. rewrite (r_mem _ _ R). reflexivity.
    - destruct (i_mid (i_thr s t)) eqn:EMID; try contradiction. inversion H; subst; clear H. split.
      + eapply MO; [|reflexivity]. unfold mid_ok. cbn. rewrite updt_same. cbn. exact I.
      + right. eexists. rewrite EP, EN. split; [reflexivity|]. apply set_thread; auto; cbn; [|exact (r_mem _ _ R)|exact (r_lock _ _ R)].
        unfold pc_of. cbn. rewrite ER. reflexivity.
    - destruct (i_mid (i_thr s t)) eqn:EMID; try contradiction. destruct (i_lock s m) eqn:EL; [discriminate|].
      inversion H; subst; clear H. split.
      + eapply MO; [|reflexivity]. unfold mid_ok. cbn. rewrite updt_same. cbn. exact I.
      + right. eexists. rewrite EP, EN. rewrite <- (r_lock _ _ R), EL. split; [reflexivity|].
        apply set_thread; auto; cbn; [exact (r_mem _ _ R)|].
        intro x. unfold upd. destruct (x =? m); [reflexivity|apply (r_lock _ _ R)].
    - destruct (i_mid (i_thr s t)) eqn:EMID; try contradiction. destruct (i_lock s m) as [w|] eqn:EL; [|discriminate].
      destruct (Nat.eqb w t) eqn:EW; [|discriminate]. inversion H; subst; clear H. split.
      + eapply MO; [|reflexivity]. unfold mid_ok. cbn. rewrite updt_same. cbn. exact I.
      + right. eexists. rewrite EP, EN. rewrite <- (r_lock _ _ R), EL, EW. split; [reflexivity|].
        apply set_thread; auto; cbn; [exact (r_mem _ _ R)|].
        intro x. unfold upd. destruct (x =? m); [reflexivity|apply (r_lock _ _ R)].
  Qed.

  Lemma start_rel o0 : rel_state (istart o0) o0.
  Proof. constructor; reflexivity. Qed.
  Theorem reach_values o0 s : ireach sem P (istart o0) s ->
    (forall u, mid_ok s u) /\ exists o, oreach sem P o0 o /\ rel_state s o.
  Proof.
    induction 1 as [|s t s' _ (M & o & O & R) H].
    - split; [intro; exact I|]. exists o0. split; [constructor|apply start_rel].
    - destruct (step_values s o t s' R M H) as (M' & [R'|(o' & S & R')]).
      + split; [exact M'|]. exists o. auto.
      + split; [exact M'|]. exists o'. split; [econstructor; eassumption|exact R'].
  Qed.
  (** ** Executions of the program are executions of the instrumented program *)
  Lemma step_complete s o t o' : rel_state s o -> (forall u, i_mid (i_thr s u) = MStart) -> ostep o t = Some o' ->
    exists s', (exists s1, istep s t = Some s1 /\ (s' = s1 \/ istep s1 t = Some s')) /\ rel_state s' o' /\ (forall u, i_mid (i_thr s' u) = MStart).
  Proof.
    intros R M. pose proof (M t) as MT. pose proof (r_reg _ _ R t) as ER. pose proof (r_pc _ _ R t) as EP. unfold pc_of in EP. rewrite MT in EP.
    unfold S_Threads.ostep, M_Threads.istep. rewrite EP, MT. destruct (nxt t (i_pc (i_thr s t))) as [i|] eqn:EN; [|discriminate].
    assert (MM : forall x' mem msh lk, i_mid x' = MStart -> forall u, i_mid (i_thr (mkIs (updt (i_thr s) t x') mem msh lk) u) = MStart).
    { intros x' mem msh lk E u. cbn. unfold updt. destruct (Nat.eqb u t); [exact E|apply M]. }
    assert (M2 : forall x' x1 mem msh lk, i_mid x' = MStart -> forall u, i_mid (i_thr (mkIs (updt (updt (i_thr s) t x1) t x') mem msh lk) u) = MStart).
    { intros x' x1 mem msh lk E u. cbn. unfold updt. destruct (Nat.eqb u t); [exact E|apply M]. }
    assert (U2 : forall x' x1 mem msh lk y' omem omd olk, rel_state (mkIs (updt (i_thr s) t x') mem msh lk) (mkOs (updt (o_thr o) t y') omem omd olk) ->
      rel_state (mkIs (updt (updt (i_thr s) t x1) t x') mem msh lk) (mkOs (updt (o_thr o) t y') omem omd olk)).
    { intros x' x1 mem msh lk y' omem omd olk [A1 A2 A3 A4]. constructor; cbn in *; auto; intro u; specialize (A1 u); specialize (A2 u); unfold updt in *;
        destruct (Nat.eqb u t); auto. }
    destruct i as [r op args|[] r p|a p v|r p op v|c tgt|m|m].
    - intro H. inversion H; subst. eexists. split; [eexists; split; [reflexivity|left; reflexivity]|]. split; [|apply MM; reflexivity].
      apply set_thread; auto; cbn; [|exact (r_mem _ _ R)|exact (r_lock _ _ R)].
      apply agree_upd_reg; [exact ER|]. rewrite (map_ext' _ _ args ER). reflexivity.
    - intro H. inversion H; subst. eexists. split; [eexists; split; [reflexivity|right; cbn; rewrite !updt_same; cbn; rewrite EN; reflexivity]|].
      split; [|apply M2; reflexivity]. apply U2. apply set_thread; auto; cbn; [|exact (r_mem _ _ R)|exact (r_lock _ _ R)].
      apply agree_upd_reg; [exact ER|]. rewrite ER. apply (r_mem _ _ R).
    - intro H. inversion H; subst. eexists. split; [eexists; split; [reflexivity|right; cbn; rewrite !updt_same; cbn; rewrite EN; reflexivity]|].
      split; [|apply M2; reflexivity]. apply U2. apply set_thread; auto; cbn; [|exact (r_mem _ _ R)|exact (r_lock _ _ R)].
      apply agree_upd_reg; [exact ER|]. rewrite ER. apply (r_mem _ _ R).
    - intro H. inversion H; subst. eexists. split; [eexists; split; [reflexivity|right; cbn; rewrite !updt_same; cbn; rewrite EN; reflexivity]|].
      split; [|apply M2; reflexivity]. apply U2. apply set_thread; auto; cbn; [|exact (r_lock _ _ R)].
      rewrite !ER. apply agree_upd_reg; [exact (r_mem _ _ R)|reflexivity].
    - intro H. inversion H; subst. eexists. split; [eexists; split; [reflexivity|right; cbn; rewrite !updt_same; cbn; rewrite EN; reflexivity]|].
      split; [|apply M2; reflexivity]. apply U2. apply set_thread; auto; cbn; [| |exact (r_lock _ _ R)].
      + apply agree_upd_reg; [exact ER|]. rewrite ER. apply (r_mem _ _ R).
      + rewrite !ER. apply agree_upd_reg; [exact (r_mem _ _ R)|]. rewrite (r_mem _ _ R). reflexivity.
    - intro H. inversion H; subst. eexists. split; [eexists; split; [reflexivity|left; reflexivity]|]. split; [|apply MM; reflexivity].
      apply set_thread; auto; cbn; [|exact (r_mem _ _ R)|exact (r_lock _ _ R)]. unfold pc_of. cbn. rewrite ER. reflexivity.
    - rewrite <- (r_lock _ _ R). destruct (i_lock s m); [discriminate|]. intro H. inversion H; subst.
      eexists. split; [eexists; split; [reflexivity|left; reflexivity]|]. split; [|apply MM; reflexivity].
      apply set_thread; auto; cbn; [exact (r_mem _ _ R)|]. intro x. unfold upd. destruct (x =? m); [reflexivity|apply (r_lock _ _ R)].
    - rewrite <- (r_lock _ _ R). destruct (i_lock s m) as [w|]; [|discriminate]. destruct (Nat.eqb w t); [|discriminate]. intro H. inversion H; subst.
      eexists. split; [eexists; split; [reflexivity|left; reflexivity]|]. split; [|apply MM; reflexivity].
      apply set_thread; auto; cbn; [exact (r_mem _ _ R)|]. intro x. unfold upd. destruct (x =? m); [reflexivity|apply (r_lock _ _ R)].
  Qed.
  Theorem reach_complete o0 o : oreach sem P o0 o ->
    exists s, ireach sem P (istart o0) s /\ rel_state s o /\ (forall u, i_mid (i_thr s u) = MStart).
  Proof.
    induction 1 as [|o t o' _ (s & I1 & I2 & I3) H].
    - exists (istart o0). split; [constructor|]. split; [apply start_rel|reflexivity].
    - destruct (step_complete s o t o' I2 I3 H) as (s' & (s1 & E1 & E2) & R' & M'). exists s'. split; [|split; assumption].
      destruct E2 as [->|E2]; [econstructor; eassumption|]. econstructor; [econstructor; eassumption|exact E2].
  Qed.
  (** A thread of the instrumented program waits only where the program does. *)
  Lemma step_progress s o t : rel_state s o -> mid_ok s t -> istep s t = None -> ostep o t = None.
  Proof.
    intros R M H. pose proof (r_pc _ _ R t) as EP. unfold pc_of in EP. unfold mid_ok in M. unfold M_Threads.istep in H. unfold S_Threads.ostep.
    destruct (i_mid (i_thr s t)) eqn:EM; destruct (nxt t (i_pc (i_thr s t))) as [[r op args|[] r p|at_ p v|r p op v|c tgt|m|m]|] eqn:EN;
      try contradiction; try discriminate; rewrite EP, EN; try reflexivity; rewrite <- (r_lock _ _ R).
    - destruct (i_lock s m); [reflexivity|discriminate].
    - destruct (i_lock s m) as [w|]; [|reflexivity]. destruct (Nat.eqb w t); [discriminate|reflexivity].
  Qed.

  (** ** Labels *)
  Section Labels.
  Variable strict : bool.
  Variable o0 : ostate.
  Hypothesis RF : race_free sem P o0.
  Hypothesis UA : strict = true -> untainted_atomics sem P o0.
  Notation rl := (rel strict).
  Notation reach := (oreach sem P o0).

  Definition not_dest (s : istate) (t : nat) (r : N) : Prop :=
    forall a d p, i_mid (i_thr s t) = MValueLoaded a -> nxt t (i_pc (i_thr s t)) = Some (ILoad true d p) -> r <> d.
  Definition regs_ok (s : istate) (o : ostate) (t : nat) : Prop :=
    forall r, not_dest s t r -> rl (i_sh (i_thr s t) r) (o_dep (o_thr o t) r).
  Definition mid_inv (s : istate) (o : ostate) (t : nat) : Prop :=
    let x := i_thr s t in
    match i_mid x with
    | MStart => True
    | MShadowLoaded l => exists r p, nxt t (i_pc x) = Some (ILoad false r p) /\ rl l (o_mdep o (i_reg x p))
    | MValueLoaded a => exists r p D Dp, nxt t (i_pc x) = Some (ILoad true r p) /\
        same (o_dep (o_thr o t) r) (du D Dp) /\ rl (i_msh s a) D /\ rl (i_sh x p) Dp /\
        (strict = true -> same D (o_mdep o a)) /\
        exists o2, reach o2 /\ o_pc (o_thr o2 t) = i_pc x /\ o_reg (o_thr o2 t) p = a /\
          (forall u, u <> t -> agree_t (o_thr o u) (o_thr o2 u)) /\ agree_m o o2
    | MShadowStored =>
        (exists p v, nxt t (i_pc x) = Some (IStore false p v) /\ rl (i_msh s (i_reg x p)) (o_dep (o_thr o t) v)) \/
        (exists p v, nxt t (i_pc x) = Some (IStore true p v) /\ same (i_msh s (i_reg x p)) d0) \/
        (exists r p op v, nxt t (i_pc x) = Some (IRmw r p op v) /\ same (i_msh s (i_reg x p)) d0)
    end.
  Definition storing (s : istate) (a : N) : Prop :=
    exists t p v, i_mid (i_thr s t) = MShadowStored /\ nxt t (i_pc (i_thr s t)) = Some (IStore false p v) /\ i_reg (i_thr s t) p = a.
  Definition cells_ok (s : istate) (o : ostate) : Prop := forall a, ~ storing s a -> rl (i_msh s a) (o_mdep o a).
  Record inv (s : istate) (o : ostate) : Prop := mkInv {
    v_rel : rel_state s o;
    v_reach : reach o;
    v_regs : forall t, regs_ok s o t;
    v_mid : forall t, mid_inv s o t;
    v_cells : cells_ok s o
  }.

  Lemma inv_mid_ok s o : inv s o -> forall t, mid_ok s t.
  Proof.
    intros V t. pose proof (v_mid _ _ V t) as M. unfold mid_inv in M. unfold mid_ok.
    destruct (i_mid (i_thr s t)); [exact I|destruct M as (r & p & E & _)|destruct M as (r & p & D & Dp & E & _)|
      destruct M as [(p & v & E & _)|[(p & v & E & _)|(r & p & op & v & E & _)]]]; rewrite E; exact I.
  Qed.

  (** The access of a thread that is not past an atomic load. *)
  Lemma access_at s o t i : rel_state s o -> nxt t (i_pc (i_thr s t)) = Some i ->
    (forall a, i_mid (i_thr s t) <> MValueLoaded a) ->
    access P o t = match i with
      | ILoad at_ _ p => Some (i_reg (i_thr s t) p, false, at_)
      | IStore at_ p _ => Some (i_reg (i_thr s t) p, true, at_)
      | IRmw _ p _ _ => Some (i_reg (i_thr s t) p, true, true)
      | _ => None
      end.
  Proof.
    intros R E M. unfold access. rewrite (r_pc _ _ R). unfold pc_of.
    assert (X : (match i_mid (i_thr s t) with MValueLoaded _ => S (i_pc (i_thr s t)) | _ => i_pc (i_thr s t) end) = i_pc (i_thr s t)).
    { destruct (i_mid (i_thr s t)) eqn:Q; try reflexivity. exfalso. exact (M _ eq_refl). }
    rewrite X, E. destruct i; rewrite <- ?(r_reg _ _ R); reflexivity.
  Qed.
  Lemma no_race o t u a w1 w2 at1 at2 : reach o -> t <> u -> access P o t = Some (a, w1, at1) -> access P o u = Some (a, w2, at2) ->
    w1 || w2 = true -> at1 && at2 = false -> False.
  Proof. intros O N A B C D. apply (RF o O). exists t, u, a, w1, w2, at1, at2. auto. Qed.
  Lemma atomic_cell o t a : reach o -> access P o t = Some (a, true, true) -> strict = true -> same (o_mdep o a) d0.
  Proof.
    intros O A ST. pose proof (UA ST o t O) as U. cbn in U. unfold access in A. revert U A.
    destruct (nxt t (o_pc (o_thr o t))) as [[| |[] p v|r p op v| | |]|]; intros U A; inversion A; subst; tauto.
  Qed.

  (** What a step of thread [t] leaves alone in another thread [u]. *)
  Lemma frame s o t s' o' u : inv s o -> u <> t -> i_thr s' u = i_thr s u ->
    (o' = o \/ ostep o t = Some o') ->
    (forall b, i_msh s' b = i_msh s b \/ exists at_, access P o t = Some (b, true, at_) /\ (at_ = true -> same (i_msh s' b) d0)) ->
    (forall b, o_mdep o' b = o_mdep o b \/ exists at_, access P o t = Some (b, true, at_) /\ (at_ = true -> strict = true -> same (o_mdep o' b) d0)) ->
    regs_ok s' o' u /\ mid_inv s' o' u.
  Proof.
    intros V U ET HO HM HD.
    assert (EO : o_thr o' u = o_thr o u).
    { destruct HO as [->|HO]; [reflexivity|]. exact (ostep_others _ _ _ _ HO U). }
    split.
    - intros r NR. rewrite ET, EO. apply (v_regs _ _ V). intros a d p A B. apply (NR a d p); rewrite ET; assumption.
    - pose proof (v_mid _ _ V u) as M. unfold mid_inv in *. rewrite ET. rewrite EO.
      destruct (i_mid (i_thr s u)) as [|l|a|] eqn:EMID; [exact I| | |].
      + destruct M as (r & p & E & RL). exists r, p. split; [exact E|].
        destruct (HD (i_reg (i_thr s u) p)) as [->|(at_ & A & _)]; [exact RL|]. exfalso.
        assert (B : access P o u = Some (i_reg (i_thr s u) p, false, false)).
        { rewrite (access_at s o u _ (v_rel _ _ V) E); [reflexivity|]. intros; congruence. }
        exact (no_race o t u _ true false at_ false (v_reach _ _ V) (fun Q => U (eq_sym Q)) A B eq_refl (andb_false_r _)).
      + destruct M as (r & p & D & Dp & E & SD & RL & RP & SS & o2 & O2 & PC2 & RG2 & AG & AM).
        assert (AT : access P o2 t = access P o t).
        { symmetry. apply access_agree. apply AG. auto. }
        assert (AU : access P o2 u = Some (a, false, true)).
        { unfold access. rewrite PC2, E, RG2. reflexivity. }
        assert (NR : access P o t <> Some (a, true, false)).
        { intro A. rewrite <- AT in A. exact (no_race o2 t u a true false false true O2 (fun Q => U (eq_sym Q)) A AU eq_refl eq_refl). }
        exists r, p, D, Dp. split; [exact E|]. split; [exact SD|].
        split.
        { destruct (HM a) as [->|([] & A & Z)]; [exact RL| |tauto].
          apply (rel_l strict d0); [apply same_sym, Z; reflexivity|]. apply rel_d0. intro ST.
          eapply same_trans; [exact (SS ST)|]. exact (atomic_cell o t a (v_reach _ _ V) A ST). }
        split; [exact RP|]. split.
        { intro ST. destruct (HD a) as [->|([] & A & Z)]; [exact (SS ST)| |tauto].
          eapply same_trans; [exact (SS ST)|]. eapply same_trans; [exact (atomic_cell o t a (v_reach _ _ V) A ST)|].
          apply same_sym, Z; auto. }
        destruct HO as [->|HO].
        * exists o2. split; [exact O2|]. split; [exact PC2|]. split; [exact RG2|]. split; assumption.
        * destruct (ostep_agree o o2 t o' (AG t (fun Q => U (eq_sym Q))) AM HO) as (o2' & S2 & AG' & AM').
          exists o2'. split; [econstructor; eassumption|].
          rewrite (ostep_others _ _ _ _ S2 U). split; [exact PC2|]. split; [exact RG2|]. split; [|exact AM'].
          intros w W. destruct (PeanoNat.Nat.eq_dec w t) as [->|NW]; [exact AG'|].
          rewrite (ostep_others _ _ _ _ HO NW), (ostep_others _ _ _ _ S2 NW). apply AG, W.
      + assert (NM : forall a, i_mid (i_thr s u) <> MValueLoaded a) by (intros; congruence).
        destruct M as [(p & v & E & RL)|[(p & v & E & RL)|(r & p & op & v & E & RL)]].
        * left. exists p, v. split; [exact E|].
          destruct (HM (i_reg (i_thr s u) p)) as [->|(at_ & A & _)]; [exact RL|]. exfalso.
          pose proof (access_at s o u _ (v_rel _ _ V) E NM) as B. cbn in B.
          exact (no_race o t u _ true true at_ false (v_reach _ _ V) (fun Q => U (eq_sym Q)) A B eq_refl (andb_false_r _)).
        * right; left. exists p, v. split; [exact E|].
          destruct (HM (i_reg (i_thr s u) p)) as [->|([] & A & Z)]; [exact RL|apply Z; reflexivity|]. exfalso.
          pose proof (access_at s o u _ (v_rel _ _ V) E NM) as B. cbn in B.
          exact (no_race o t u _ true true false true (v_reach _ _ V) (fun Q => U (eq_sym Q)) A B eq_refl eq_refl).
        * right; right. exists r, p, op, v. split; [exact E|].
          destruct (HM (i_reg (i_thr s u) p)) as [->|([] & A & Z)]; [exact RL|apply Z; reflexivity|]. exfalso.
          pose proof (access_at s o u _ (v_rel _ _ V) E NM) as B. cbn in B.
          exact (no_race o t u _ true true false true (v_reach _ _ V) (fun Q => U (eq_sym Q)) A B eq_refl eq_refl).
  Qed.

  (** Nobody is storing to a cell that thread [t] is about to access and that has ended no access. *)
  Lemma not_storing s o t a w at_ : inv s o -> access P o t = Some (a, w, at_) ->
    (forall p v, i_mid (i_thr s t) = MShadowStored -> nxt t (i_pc (i_thr s t)) = Some (IStore false p v) -> False) -> ~ storing s a.
  Proof.
    intros V A NT (u & p & v & E1 & E2 & E3). destruct (PeanoNat.Nat.eq_dec u t) as [->|U]; [exact (NT p v E1 E2)|].
    assert (NM : forall b, i_mid (i_thr s u) <> MValueLoaded b) by (intros; congruence).
    pose proof (access_at s o u _ (v_rel _ _ V) E2 NM) as B. cbn in B. rewrite E3 in B.
    exact (no_race o t u a w true at_ false (v_reach _ _ V) (fun Q => U (eq_sym Q)) A B (orb_true_r _) (andb_false_r _)).
  Qed.

  (** Steps that change nothing but thread [t] (and perhaps mutexes). *)
  Lemma inv_local s o t s' o' x' : inv s o -> i_thr s' = updt (i_thr s) t x' -> (forall b, i_msh s' b = i_msh s b) ->
    (forall b, o_mdep o' b = o_mdep o b) -> (o' = o \/ ostep o t = Some o') -> rel_state s' o' ->
    regs_ok s' o' t -> mid_inv s' o' t ->
    (forall p v, i_mid (i_thr s t) = MShadowStored -> nxt t (i_pc (i_thr s t)) = Some (IStore false p v) -> False) ->
    (forall p v, i_mid x' = MShadowStored -> nxt t (i_pc x') = Some (IStore false p v) -> False) ->
    inv s' o'.
  Proof.
    intros V ET HM HD HO R RT MT NS NS'.
    assert (F : forall u, u <> t -> regs_ok s' o' u /\ mid_inv s' o' u).
    { intros u U. apply (frame s o t s' o' u V U); auto. rewrite ET. apply updt_other, U. }
    constructor.
    - exact R.
    - destruct HO as [->|HO]; [exact (v_reach _ _ V)|]. econstructor; [exact (v_reach _ _ V)|exact HO].
    - intro u. destruct (PeanoNat.Nat.eq_dec u t) as [->|U]; [exact RT|apply F, U].
    - intro u. destruct (PeanoNat.Nat.eq_dec u t) as [->|U]; [exact MT|apply F, U].
    - intros a NA. rewrite HM, HD. apply (v_cells _ _ V). intros (u & p & v & E1 & E2 & E3). apply NA.
      destruct (PeanoNat.Nat.eq_dec u t) as [->|U]; [exfalso; exact (NS p v E1 E2)|].
      exists u, p, v. rewrite ET, updt_other by exact U. auto.
  Qed.

  Lemma regs_start s o t : inv s o -> (forall a, i_mid (i_thr s t) <> MValueLoaded a) ->
    forall r, rl (i_sh (i_thr s t) r) (o_dep (o_thr o t) r).
  Proof. intros V M r. apply (v_regs _ _ V). intros a d p A. congruence. Qed.

  Theorem step_inv s o t s' : inv s o -> istep s t = Some s' -> exists o', inv s' o'.
  Proof.
    intros V H. pose proof (v_rel _ _ V) as R. pose proof (v_reach _ _ V) as O.
    pose proof (step_values s o t s' R (inv_mid_ok _ _ V) H) as (_ & RV).
    pose proof (v_mid _ _ V t) as MT. unfold mid_inv in MT.
    pose proof (r_pc _ _ R t) as EP. pose proof (r_reg _ _ R t) as ER. unfold pc_of in EP.
    unfold M_Threads.istep in H. destruct (nxt t (i_pc (i_thr s t))) as [i|] eqn:EN; [|discriminate].
    assert (LOCAL : i_mid (i_thr s t) = MStart -> forall x' y' lk olk,
      s' = mkIs (updt (i_thr s) t x') (i_mem s) (i_msh s) lk ->
      ostep o t = Some (mkOs (updt (o_thr o) t y') (o_mem o) (o_mdep o) olk) ->
      i_mid x' = MStart -> (forall r, rl (i_sh x' r) (o_dep y' r)) -> rel_state s' (mkOs (updt (o_thr o) t y') (o_mem o) (o_mdep o) olk) ->
      exists o', inv s' o').
    { intros EM x' y' lk olk -> OS EM' RR RS. eexists. eapply (inv_local s o t _ _ x' V); [reflexivity|reflexivity| |right; exact OS|exact RS| | | |].
      - reflexivity.
      - intros r _. cbn. rewrite !updt_same. apply RR.
      - unfold mid_inv. cbn. rewrite updt_same, EM'. exact I.
      - intros; congruence.
      - intros; congruence. }
    destruct i as [r op args|[] r p|a p v|r p op v|c tgt|m|m].
    - (* IOp *)
      destruct (i_mid (i_thr s t)) eqn:EM;
        [|destruct MT as (? & ? & Q & _); discriminate|destruct MT as (? & ? & ? & ? & Q & _); discriminate|
         destruct MT as [(? & ? & Q & _)|[(? & ? & Q & _)|(? & ? & ? & ? & Q & _)]]; discriminate].
      injection H as H1. rewrite <- H1 in RV.
      assert (OS : ostep o t = Some (mkOs (updt (o_thr o) t (mkOt (S (o_pc (o_thr o t))) (upd (o_reg (o_thr o t)) r (sem op (map (o_reg (o_thr o t)) args)))
                 (upd (o_dep (o_thr o t)) r (dunion (map (o_dep (o_thr o t)) args))))) (o_mem o) (o_mdep o) (o_lock o))).
      { unfold S_Threads.ostep. rewrite EP, EN. reflexivity. }
      destruct RV as [RV|(o' & OS' & RV)].
      { exfalso. pose proof (r_pc _ _ RV t) as Q. cbn in Q. rewrite updt_same in Q. unfold pc_of in Q. cbn in Q. rewrite EP in Q. lia. }
      rewrite OS in OS'. injection OS' as OS2; subst o'.
      eapply LOCAL; [reflexivity|symmetry; exact H1|exact OS|reflexivity| |rewrite <- H1; exact RV].
      intro q. cbn. unfold upd. destruct (q =? r).
      + apply rel_dunion. intros w _. apply regs_start; [exact V|intros; congruence].
      + apply regs_start; [exact V|intros; congruence].
    - (* atomic load *)
      destruct (i_mid (i_thr s t)) as [|l|a|] eqn:EM; try discriminate.
      + (* the value *)
        injection H as H1. clear LOCAL.
        assert (AC : access P o t = Some (i_reg (i_thr s t) p, false, true)).
        { apply (access_at s o t (ILoad true r p) R EN). intros; congruence. }
        set (a := i_reg (i_thr s t) p) in *.
        set (o' := mkOs (updt (o_thr o) t (mkOt (S (o_pc (o_thr o t))) (upd (o_reg (o_thr o t)) r (o_mem o (o_reg (o_thr o t) p)))
                  (upd (o_dep (o_thr o t)) r (du (o_mdep o (o_reg (o_thr o t) p)) (o_dep (o_thr o t) p))))) (o_mem o) (o_mdep o) (o_lock o)).
        assert (OS : ostep o t = Some o').
        { unfold S_Threads.ostep, o'. rewrite EP, EN. reflexivity. }
        exists o'. destruct RV as [RV|(o'' & OS' & RV)].
        { exfalso. pose proof (r_pc _ _ RV t) as Q. rewrite <- H1 in Q. cbn in Q. rewrite updt_same in Q. unfold pc_of in Q. cbn in Q. rewrite EP in Q. lia. }
        rewrite OS in OS'. injection OS' as OS2; subst o''.
        eapply (inv_local s o t); [exact V|rewrite <- H1; reflexivity|rewrite <- H1; reflexivity|reflexivity|right; exact OS|exact RV| | | |].
        * intros q NQ. rewrite <- H1. cbn. rewrite !updt_same. cbn.
          rewrite upd_other.
          -- apply regs_start; [exact V|intros; congruence].
          -- apply (NQ a r p); rewrite <- H1; cbn; rewrite updt_same; cbn; [reflexivity|exact EN].
        * unfold mid_inv. rewrite <- H1. cbn. rewrite !updt_same. cbn.
          exists r, p, (o_mdep o a), (o_dep (o_thr o t) p). split; [exact EN|].
          split; [rewrite upd_same; unfold a; rewrite ER; apply same_refl|].
          split. { apply (v_cells _ _ V). apply (not_storing s o t a false true V AC). intros; congruence. }
          split. { apply regs_start; [exact V|intros; congruence]. }
          split; [intros _; apply same_refl|].
          exists o. split; [exact O|]. split; [exact EP|]. split; [symmetry; apply ER|].
          split; [|split; reflexivity]. intros u U. rewrite updt_other by exact U. split; reflexivity.
        * intros; congruence.
        * cbn. intros; congruence.
      + (* its shadow *)
        injection H as H1. exists o. destruct MT as (r1 & p1 & D & Dp & E & SD & RLD & RLP & SS & _).
        try rewrite EN in E. inversion E; subst r1 p1. clear E.
        destruct RV as [RV|(o'' & OS' & RV)].
        2:{ assert (X : rel_state s' o).
            - rewrite <- H1. apply set_silent; [exact R|reflexivity|]. unfold pc_of. cbn. rewrite EM. reflexivity.
            - eapply (inv_local s o t); [exact V|rewrite <- H1; reflexivity|rewrite <- H1; reflexivity|reflexivity|left; reflexivity|exact X| | | |].
              + intros q NQ. rewrite <- H1. cbn. rewrite updt_same. cbn. unfold upd. destruct (N.eqb_spec q r) as [->|Q].
                * eapply rel_r; [apply same_sym, SD|]. apply rel_du; assumption.
                * apply (v_regs _ _ V). intros b d p2 B1 B2. rewrite EN in B2. inversion B2; subst. exact Q.
              + unfold mid_inv. rewrite <- H1. cbn. rewrite updt_same. cbn. exact I.
              + intros; congruence.
              + cbn. intros; congruence. }
        eapply (inv_local s o t); [exact V|rewrite <- H1; reflexivity|rewrite <- H1; reflexivity|reflexivity|left; reflexivity|exact RV| | | |].
        * intros q NQ. rewrite <- H1. cbn. rewrite updt_same. cbn. unfold upd. destruct (N.eqb_spec q r) as [->|Q].
          -- eapply rel_r; [apply same_sym, SD|]. apply rel_du; assumption.
          -- apply (v_regs _ _ V). intros b d p2 B1 B2. rewrite EN in B2. inversion B2; subst. exact Q.
        * unfold mid_inv. rewrite <- H1. cbn. rewrite updt_same. cbn. exact I.
        * intros; congruence.
        * cbn. intros; congruence.
    - (* load *)
      assert (NM : forall b, i_mid (i_thr s t) <> MValueLoaded b).
      { intros b Q. rewrite Q in H. discriminate. }
      assert (AC : access P o t = Some (i_reg (i_thr s t) p, false, false)) by exact (access_at s o t _ R EN NM).
      destruct (i_mid (i_thr s t)) as [|l|a|] eqn:EM; try discriminate.
      + injection H as H1. exists o.
        assert (X : rel_state s' o).
        { rewrite <- H1. apply set_silent; [exact R|reflexivity|]. unfold pc_of. cbn. rewrite EM. reflexivity. }
        eapply (inv_local s o t); [exact V|rewrite <- H1; reflexivity|rewrite <- H1; reflexivity|reflexivity|left; reflexivity|exact X| | | |].
        * intros q NQ. rewrite <- H1. cbn. rewrite updt_same. cbn. apply regs_start; [exact V|intros; congruence].
        * unfold mid_inv. rewrite <- H1. cbn. rewrite updt_same. cbn. exists r, p. split; [exact EN|].
          apply (v_cells _ _ V). apply (not_storing s o t _ false false V AC). intros; congruence.
        * intros; congruence.
        * cbn. intros; congruence.
      + injection H as H1.
        set (o' := mkOs (updt (o_thr o) t (mkOt (S (o_pc (o_thr o t))) (upd (o_reg (o_thr o t)) r (o_mem o (o_reg (o_thr o t) p)))
                  (upd (o_dep (o_thr o t)) r (du (o_mdep o (o_reg (o_thr o t) p)) (o_dep (o_thr o t) p))))) (o_mem o) (o_mdep o) (o_lock o)).
        assert (OS : ostep o t = Some o').
        { unfold S_Threads.ostep, o'. rewrite EP, EN. reflexivity. }
        exists o'. destruct RV as [RV|(o'' & OS' & RV)].
        { exfalso. pose proof (r_pc _ _ RV t) as Q. rewrite <- H1 in Q. cbn in Q. rewrite updt_same in Q. unfold pc_of in Q. cbn in Q. rewrite EP in Q. lia. }
        rewrite OS in OS'. injection OS' as OS2; subst o''.
        destruct MT as (r1 & p1 & E & RL). try rewrite EN in E. inversion E; subst r1 p1. clear E.
        eapply (inv_local s o t); [exact V|rewrite <- H1; reflexivity|rewrite <- H1; reflexivity|reflexivity|right; exact OS|exact RV| | | |].
        * intros q NQ. rewrite <- H1. cbn. rewrite !updt_same. cbn. unfold upd. destruct (q =? r).
          -- rewrite <- ER. apply rel_du; [exact RL|]. apply regs_start; [exact V|intros; congruence].
          -- apply regs_start; [exact V|intros; congruence].
        * unfold mid_inv. rewrite <- H1. cbn. rewrite updt_same. cbn. exact I.
        * intros; congruence.
        * cbn. intros; congruence.
    - (* store *)
      assert (NM : forall b, i_mid (i_thr s t) <> MValueLoaded b).
      { intros b Q. rewrite Q in H. discriminate. }
      assert (AC : access P o t = Some (i_reg (i_thr s t) p, true, a)) by exact (access_at s o t _ R EN NM).
      set (c := i_reg (i_thr s t) p) in *.
      destruct (i_mid (i_thr s t)) as [|l|b|] eqn:EM; try discriminate.
      + (* shadow *)
        injection H as H1. exists o.
        assert (X : rel_state s' o).
        { rewrite <- H1. apply set_silent; [exact R|reflexivity|]. unfold pc_of. cbn. rewrite EM. reflexivity. }
        assert (NS : ~ storing s c) by (apply (not_storing s o t c true a V AC); intros; congruence).
        assert (F : forall u, u <> t -> regs_ok s' o u /\ mid_inv s' o u).
        { intros u U. apply (frame s o t s' o u V U).
          - rewrite <- H1. cbn. apply updt_other, U.
          - left; reflexivity.
          - intro b. rewrite <- H1. cbn. unfold upd. destruct (N.eqb_spec b c) as [->|Q]; [right|left; reflexivity].
            exists a. split; [exact AC|]. intros ->. apply same_refl.
          - left; reflexivity. }
        constructor; [exact X|exact O| | |].
        * intro u. destruct (PeanoNat.Nat.eq_dec u t) as [->|U]; [|apply F, U].
          intros q NQ. rewrite <- H1. cbn. rewrite updt_same. cbn. apply regs_start; [exact V|intros; congruence].
        * intro u. destruct (PeanoNat.Nat.eq_dec u t) as [->|U]; [|apply F, U].
          unfold mid_inv. rewrite <- H1. cbn. rewrite updt_same. cbn. destruct a.
          -- right; left. exists p, v. split; [exact EN|]. fold c. rewrite upd_same. apply same_refl.
          -- left. exists p, v. split; [exact EN|]. fold c. rewrite upd_same. apply regs_start; [exact V|intros; congruence].
        * intros b NB. rewrite <- H1. cbn. fold c. destruct (N.eq_dec b c) as [->|Q].
          -- rewrite upd_same. destruct a.
             ++ apply rel_d0. intro ST. exact (atomic_cell o t c O AC ST).
             ++ exfalso. apply NB. exists t, p, v. rewrite <- H1. cbn. rewrite updt_same. cbn. auto.
          -- rewrite upd_other by exact Q. apply (v_cells _ _ V). intros (u & p1 & v1 & E1 & E2 & E3). apply NB.
             destruct (PeanoNat.Nat.eq_dec u t) as [->|U]; [congruence|].
             exists u, p1, v1. rewrite <- H1. cbn. rewrite updt_other by exact U. auto.
      + (* value *)
        injection H as H1.
        set (o' := mkOs (updt (o_thr o) t (mkOt (S (o_pc (o_thr o t))) (o_reg (o_thr o t)) (o_dep (o_thr o t))))
                   (upd (o_mem o) (o_reg (o_thr o t) p) (o_reg (o_thr o t) v)) (upd (o_mdep o) (o_reg (o_thr o t) p) (o_dep (o_thr o t) v)) (o_lock o)).
        assert (OS : ostep o t = Some o').
        { unfold S_Threads.ostep, o'. rewrite EP, EN. reflexivity. }
        exists o'. destruct RV as [RV|(o'' & OS' & RV)].
        { exfalso. pose proof (r_pc _ _ RV t) as Q. rewrite <- H1 in Q. cbn in Q. rewrite updt_same in Q. unfold pc_of in Q. cbn in Q. rewrite EP in Q. lia. }
        rewrite OS in OS'. injection OS' as OS2; subst o''.
        assert (EC : o_reg (o_thr o t) p = c) by (symmetry; apply ER).
        assert (TV : a = true -> strict = true -> same (o_dep (o_thr o t) v) d0).
        { intros -> ST. pose proof (UA ST o t O) as U. cbn in U. rewrite EP, EN in U. tauto. }
        assert (F : forall u, u <> t -> regs_ok s' o' u /\ mid_inv s' o' u).
        { intros u U. apply (frame s o t s' o' u V U).
          - rewrite <- H1. cbn. apply updt_other, U.
          - right; exact OS.
          - left. rewrite <- H1. reflexivity.
          - intro b. cbn. rewrite EC. unfold upd. destruct (N.eqb_spec b c) as [->|Q]; [right|left; reflexivity].
            exists a. split; [exact AC|exact TV]. }
        constructor; [exact RV|econstructor; [exact O|exact OS]| | |].
        * intro u. destruct (PeanoNat.Nat.eq_dec u t) as [->|U]; [|apply F, U].
          intros q NQ. rewrite <- H1. cbn. rewrite !updt_same. cbn. apply regs_start; [exact V|intros; congruence].
        * intro u. destruct (PeanoNat.Nat.eq_dec u t) as [->|U]; [|apply F, U].
          unfold mid_inv. rewrite <- H1. cbn. rewrite updt_same. exact I.
        * intros b NB. rewrite <- H1. cbn. rewrite EC. destruct (N.eq_dec b c) as [->|Q].
          -- rewrite upd_same. destruct MT as [(p1 & v1 & E & RL)|[(p1 & v1 & E & RL)|(r1 & p1 & op1 & v1 & E & RL)]].
             ++ try rewrite EN in E. inversion E; subst. exact RL.
             ++ try rewrite EN in E. inversion E; subst. eapply rel_l; [apply same_sym; exact RL|]. apply rel_d0. intro ST. exact (TV eq_refl ST).
             ++ try rewrite EN in E. discriminate.
          -- rewrite upd_other by exact Q. apply (v_cells _ _ V). intros (u & p1 & v1 & E1 & E2 & E3). apply NB.
             destruct (PeanoNat.Nat.eq_dec u t) as [->|U].
             ++ rewrite EN in E2. inversion E2; subst. congruence.
             ++ exists u, p1, v1. rewrite <- H1. cbn. rewrite updt_other by exact U. auto.
    - (* atomic operation *)
      assert (NM : forall b, i_mid (i_thr s t) <> MValueLoaded b).
      { intros b Q. rewrite Q in H. discriminate. }
      assert (AC : access P o t = Some (i_reg (i_thr s t) p, true, true)) by exact (access_at s o t _ R EN NM).
      set (c := i_reg (i_thr s t) p) in *.
      destruct (i_mid (i_thr s t)) as [|l|b|] eqn:EM; try discriminate.
      + injection H as H1. exists o.
        assert (X : rel_state s' o).
        { rewrite <- H1. apply set_silent; [exact R|reflexivity|]. unfold pc_of. cbn. rewrite EM. reflexivity. }
        assert (F : forall u, u <> t -> regs_ok s' o u /\ mid_inv s' o u).
        { intros u U. apply (frame s o t s' o u V U).
          - rewrite <- H1. cbn. apply updt_other, U.
          - left; reflexivity.
          - intro b. rewrite <- H1. cbn. unfold upd. destruct (N.eqb_spec b c) as [->|Q]; [right|left; reflexivity].
            exists true. split; [exact AC|]. intros _. apply same_refl.
          - left; reflexivity. }
        constructor; [exact X|exact O| | |].
        * intro u. destruct (PeanoNat.Nat.eq_dec u t) as [->|U]; [|apply F, U].
          intros q NQ. rewrite <- H1. cbn. rewrite updt_same. cbn. apply regs_start; [exact V|intros; congruence].
        * intro u. destruct (PeanoNat.Nat.eq_dec u t) as [->|U]; [|apply F, U].
          unfold mid_inv. rewrite <- H1. cbn. rewrite updt_same. cbn. right; right. exists r, p, op, v. split; [exact EN|].
          fold c. rewrite upd_same. apply same_refl.
        * intros b NB. rewrite <- H1. cbn. fold c. destruct (N.eq_dec b c) as [->|Q].
          -- rewrite upd_same. apply rel_d0. intro ST. exact (atomic_cell o t c O AC ST).
          -- rewrite upd_other by exact Q. apply (v_cells _ _ V). intros (u & p1 & v1 & E1 & E2 & E3). apply NB.
             destruct (PeanoNat.Nat.eq_dec u t) as [->|U]; [congruence|].
             exists u, p1, v1. rewrite <- H1. cbn. rewrite updt_other by exact U. auto.
      + injection H as H1.
        set (o' := mkOs (updt (o_thr o) t (mkOt (S (o_pc (o_thr o t))) (upd (o_reg (o_thr o t)) r (o_mem o (o_reg (o_thr o t) p)))
                        (upd (o_dep (o_thr o t)) r (du (o_mdep o (o_reg (o_thr o t) p)) (o_dep (o_thr o t) p)))))
                   (upd (o_mem o) (o_reg (o_thr o t) p) (sem op [o_mem o (o_reg (o_thr o t) p); o_reg (o_thr o t) v]))
                   (upd (o_mdep o) (o_reg (o_thr o t) p) (du (o_mdep o (o_reg (o_thr o t) p)) (o_dep (o_thr o t) v))) (o_lock o)).
        assert (OS : ostep o t = Some o').
        { unfold S_Threads.ostep, o'. rewrite EP, EN. reflexivity. }
        exists o'. destruct RV as [RV|(o'' & OS' & RV)].
        { exfalso. pose proof (r_pc _ _ RV t) as Q. rewrite <- H1 in Q. cbn in Q. rewrite updt_same in Q. unfold pc_of in Q. cbn in Q. rewrite EP in Q. lia. }
        rewrite OS in OS'. injection OS' as OS2; subst o''.
        assert (EC : o_reg (o_thr o t) p = c) by (symmetry; apply ER).
        assert (TV : strict = true -> same (o_mdep o c) d0 /\ same (o_dep (o_thr o t) v) d0 /\ same (o_dep (o_thr o t) p) d0).
        { intro ST. pose proof (UA ST o t O) as U. cbn in U. rewrite EP, EN in U. rewrite EC in U. exact U. }
        assert (F : forall u, u <> t -> regs_ok s' o' u /\ mid_inv s' o' u).
        { intros u U. apply (frame s o t s' o' u V U).
          - rewrite <- H1. cbn. apply updt_other, U.
          - right; exact OS.
          - left. rewrite <- H1. reflexivity.
          - intro b. cbn. rewrite EC. unfold upd. destruct (N.eqb_spec b c) as [->|Q]; [right|left; reflexivity].
            exists true. split; [exact AC|]. intros _ ST. destruct (TV ST) as (T1 & T2 & T3). apply du_d0; assumption. }
        constructor; [exact RV|econstructor; [exact O|exact OS]| | |].
        * intro u. destruct (PeanoNat.Nat.eq_dec u t) as [->|U]; [|apply F, U].
          intros q NQ. rewrite <- H1. cbn. rewrite !updt_same. cbn. unfold upd at 1 2. destruct (q =? r).
          -- rewrite EC. apply rel_d0. intro ST. destruct (TV ST) as (T1 & T2 & T3). apply du_d0; assumption.
          -- apply regs_start; [exact V|intros; congruence].
        * intro u. destruct (PeanoNat.Nat.eq_dec u t) as [->|U]; [|apply F, U].
          unfold mid_inv. rewrite <- H1. cbn. rewrite updt_same. exact I.
        * intros b NB. rewrite <- H1. cbn. rewrite EC. destruct (N.eq_dec b c) as [->|Q].
          -- rewrite upd_same. destruct MT as [(p1 & v1 & E & RL)|[(p1 & v1 & E & RL)|(r1 & p1 & op1 & v1 & E & RL)]]; try rewrite EN in E; try discriminate.
             inversion E; subst. eapply rel_l; [apply same_sym; exact RL|]. apply rel_d0. intro ST.
             destruct (TV ST) as (T1 & T2 & T3). apply du_d0; assumption.
          -- rewrite upd_other by exact Q. apply (v_cells _ _ V). intros (u & p1 & v1 & E1 & E2 & E3). apply NB.
             destruct (PeanoNat.Nat.eq_dec u t) as [->|U]; [congruence|].
             exists u, p1, v1. rewrite <- H1. cbn. rewrite updt_other by exact U. auto.
    - (* branch *)
      destruct (i_mid (i_thr s t)) eqn:EM;
        [|destruct MT as (? & ? & Q & _); discriminate|destruct MT as (? & ? & ? & ? & Q & _); discriminate|
         destruct MT as [(? & ? & Q & _)|[(? & ? & Q & _)|(? & ? & ? & ? & Q & _)]]; discriminate].
      injection H as H1.
      assert (OS : ostep o t = Some (mkOs (updt (o_thr o) t (mkOt (if o_reg (o_thr o t) c =? 0 then S (o_pc (o_thr o t)) else tgt) (o_reg (o_thr o t)) (o_dep (o_thr o t))))
                 (o_mem o) (o_mdep o) (o_lock o))).
      { unfold S_Threads.ostep. rewrite EP, EN. reflexivity. }
      eapply LOCAL; [reflexivity|symmetry; exact H1|exact OS|reflexivity| |].
      + cbn. apply regs_start; [exact V|intros; congruence].
      + rewrite <- H1. apply set_thread; auto; cbn; [|exact (r_mem _ _ R)|exact (r_lock _ _ R)].
        unfold pc_of. cbn. rewrite ER, EP. reflexivity.
    - (* lock *)
      destruct (i_mid (i_thr s t)) eqn:EM;
        [|destruct MT as (? & ? & Q & _); discriminate|destruct MT as (? & ? & ? & ? & Q & _); discriminate|
         destruct MT as [(? & ? & Q & _)|[(? & ? & Q & _)|(? & ? & ? & ? & Q & _)]]; discriminate].
      destruct (i_lock s m) eqn:EL; [discriminate|]. injection H as H1.
      assert (OS : ostep o t = Some (mkOs (updt (o_thr o) t (mkOt (S (o_pc (o_thr o t))) (o_reg (o_thr o t)) (o_dep (o_thr o t))))
                 (o_mem o) (o_mdep o) (upd (o_lock o) m (Some t)))).
      { unfold S_Threads.ostep. rewrite EP, EN, <- (r_lock _ _ R), EL. reflexivity. }
      eapply LOCAL; [reflexivity|symmetry; exact H1|exact OS|reflexivity| |].
      + cbn. apply regs_start; [exact V|intros; congruence].
      + rewrite <- H1. apply set_thread; auto; cbn; [unfold pc_of; cbn; rewrite EP; reflexivity|exact (r_mem _ _ R)|].
        intro x. unfold upd. destruct (x =? m); [reflexivity|apply (r_lock _ _ R)].
    - (* unlock *)
      destruct (i_mid (i_thr s t)) eqn:EM;
        [|destruct MT as (? & ? & Q & _); discriminate|destruct MT as (? & ? & ? & ? & Q & _); discriminate|
         destruct MT as [(? & ? & Q & _)|[(? & ? & Q & _)|(? & ? & ? & ? & Q & _)]]; discriminate].
      destruct (i_lock s m) as [w|] eqn:EL; [|discriminate]. destruct (Nat.eqb w t) eqn:EW; [|discriminate]. injection H as H1.
      assert (OS : ostep o t = Some (mkOs (updt (o_thr o) t (mkOt (S (o_pc (o_thr o t))) (o_reg (o_thr o t)) (o_dep (o_thr o t))))
                 (o_mem o) (o_mdep o) (upd (o_lock o) m None))).
      { unfold S_Threads.ostep. rewrite EP, EN, <- (r_lock _ _ R), EL, EW. reflexivity. }
      eapply LOCAL; [reflexivity|symmetry; exact H1|exact OS|reflexivity| |].
      + cbn. apply regs_start; [exact V|intros; congruence].
      + rewrite <- H1. apply set_thread; auto; cbn; [unfold pc_of; cbn; rewrite EP; reflexivity|exact (r_mem _ _ R)|].
        intro x. unfold upd. destruct (x =? m); [reflexivity|apply (r_lock _ _ R)].
  Qed.

  Lemma start_inv : inv (istart o0) o0.
  Proof.
    constructor; [apply start_rel|constructor| | |].
    - intros t r _. apply rel_refl.
    - intro t. exact I.
    - intros a _. apply rel_refl.
  Qed.
  Theorem reach_inv s : ireach sem P (istart o0) s -> exists o, inv s o.
  Proof.
    induction 1 as [|s t s' _ (o & V) H]; [exists o0; exact start_inv|]. exact (step_inv s o t s' V H).
  Qed.
  End Labels.
End Run.
