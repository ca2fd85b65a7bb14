From Coq Require Import NArith List Bool Lia Permutation.
From Verif Require Import M_Base M_Memory M_Section M_Conc M_ConcSection S_Section S_ConcSection P_Base P_Memory P_Section P_Conc.
Import ListNotations.
Open Scope N_scope.

Lemma store_ext m m' p bs : (forall a, m a = m' a) -> forall a, store m p bs a = store m' p bs a.
Proof. intros H a. unfold store. now rewrite H. Qed.

Lemma replays_ext log : forall m0 m s m' s', (forall a, m0 a = m a) -> replays m s log m' s' -> replays m0 s log m' s'.
Proof.
  induction log as [|[r a] log IH]; intros m0 m s m' s' E R; cbn [replays] in *.
  - destruct R as [R1 R2]. split; [|exact R2]. intros x. now rewrite E.
  - unfold construct in *. destruct (sect_write s (len r)) as [[p s1]|].
    + destruct R as [R1 R2]. split; [exact R1|]. eapply IH; [|exact R2]. now apply store_ext.
    + destruct R as [R1 R2]. split; [exact R1|]. eapply IH; eauto.
Qed.

Lemma replays_end_ext log : forall m s m1 m2 s', (forall a, m1 a = m2 a) -> replays m s log m1 s' -> replays m s log m2 s'.
Proof.
  induction log as [|[r a] log IH]; intros m s m1 m2 s' E R; cbn [replays] in *.
  - destruct R as [R1 R2]. split; [|exact R2]. intros x. now rewrite R1, E.
  - destruct (construct m s r) as [[[p m3] s3]|]; destruct R as [R1 R2]; split; eauto.
Qed.

Lemma replays_snoc log : forall m s m1 s1 r p m2 s2, replays m s log m1 s1 ->
  construct m1 s1 r = Some (p, m2, s2) -> replays m s (log ++ [(r, Some p)]) m2 s2.
Proof.
  induction log as [|[r0 a] log IH]; intros m s m1 s1 r p m2 s2 R C; cbn [replays app] in *.
  - destruct R as [R1 ->]. unfold construct in *. destruct (sect_write s1 (len r)) as [[q s3]|]; [|discriminate].
    injection C as -> <- ->. split; [reflexivity|]. split; [|reflexivity]. now apply store_ext.
  - destruct (construct m s r0) as [[[p3 m3] s3]|]; destruct R as [R1 R2]; split; eauto.
Qed.

Lemma replays_snoc_none log : forall m s m1 s1 r, replays m s log m1 s1 ->
  sect_write s1 (len r) = None -> replays m s (log ++ [(r, None)]) m1 s1.
Proof.
  induction log as [|[r0 a] log IH]; intros m s m1 s1 r R C; cbn [replays app] in *.
  - destruct R as [R1 ->]. unfold construct. rewrite C. auto.
  - destruct (construct m s r0) as [[[p3 m3] s3]|]; destruct R as [R1 R2]; split; eauto.
Qed.

(** The record and what is left to do of a thread. *)
Definition sleft (t : sthread) : list (list N) :=
  match t with
  | SIdle todo => todo
  | SLocked r todo | SWriting r _ _ todo | SRefused r todo => r :: todo
  end.
Definition sidle (t : sthread) : Prop := match t with SIdle _ => True | _ => False end.

Lemma firstn_snoc {A} (l : list A) k x : get l k = Some x -> firstn (N.to_nat (k + 1)) l = firstn (N.to_nat k) l ++ [x].
Proof.
  unfold get. replace (N.to_nat (k + 1)) with (S (N.to_nat k)) by lia. generalize (N.to_nat k). clear k.
  intros n. revert l. induction n as [|n IH]; intros [|y l] H; cbn in *; try discriminate.
  - injection H as ->. reflexivity.
  - f_equal. now apply IH.
Qed.

Lemma sleft_upd ts i t t' : get ts i = Some t ->
  forall r, sleft t = r :: sleft t' ->
  Permutation (concat (map sleft ts)) (r :: concat (map sleft (upd ts i t'))).
Proof.
  unfold get, upd. generalize (N.to_nat i). clear i. intros n. revert ts. induction n as [|n IH]; intros [|y l] G r E; cbn in *; try discriminate.
  - injection G as ->. rewrite E. reflexivity.
  - specialize (IH l G r E). rewrite IH. symmetry. apply Permutation_middle.
Qed.
Lemma sleft_same ts i t t' : get ts i = Some t -> sleft t = sleft t' -> map sleft (upd ts i t') = map sleft ts.
Proof.
  unfold get, upd. generalize (N.to_nat i). clear i. intros n. revert ts. induction n as [|n IH]; intros [|y l] G E; cbn in *; try discriminate.
  - injection G as ->. now rewrite E.
  - f_equal. now apply IH.
Qed.

Section Inv.
Variables (m0 : mem) (s0 : sect) (progs : list (list (list N))).

Definition sholds (m1 : mem) (s1 : sect) (s : sshared) (t : sthread) : Prop :=
  match t with
  | SIdle _ => False
  | SLocked r _ => ss_sect s = s1 /\ forall a, ss_mem s a = m1 a
  | SRefused r _ => ss_sect s = s1 /\ (forall a, ss_mem s a = m1 a) /\ sect_write s1 (len r) = None
  | SWriting r p k _ => sect_write s1 (len r) = Some (p, ss_sect s) /\ k <= len r /\
      forall a, ss_mem s a = store m1 p (firstn (N.to_nat k) r) a
  end.

Definition sinv (s : sshared) (ts : list sthread) : Prop :=
  (exists m1 s1, replays m0 s0 (ss_log s) m1 s1 /\
    match ss_lock s with
    | None => ss_sect s = s1 /\ forall a, ss_mem s a = m1 a
    | Some i => exists t, get ts i = Some t /\ sholds m1 s1 s t
    end) /\
  (forall j t, get ts j = Some t -> ss_lock s <> Some j -> sidle t) /\
  Permutation (concat progs) (map fst (ss_log s) ++ concat (map sleft ts)).

Lemma sinv_step s ts i ch t t' s' : sinv s ts -> get ts i = Some t -> sstep i ch t s = Some (t', s') -> sinv s' (upd ts i t').
Proof.
  intros ((m1 & s1 & R & K) & O & P) G E.
  assert (Li : i < len ts) by (eapply get_some; eauto).
  assert (OT : forall l j tj, get (upd ts i t') j = Some tj -> l = Some i -> l <> Some j ->
     (forall tk, get ts j = Some tk -> ss_lock s <> Some j -> sidle tk) -> ss_lock s <> Some j -> sidle tj).
  { intros l j tj Gj -> Hn H1 H2. rewrite get_upd_neq in Gj by congruence. auto. }
  assert (own : ~ sidle t -> ss_lock s = Some i).
  { intros Hn. destruct (ss_lock s) as [k|] eqn:El.
    - destruct (N.eq_dec k i) as [->|Hk]; [reflexivity|]. exfalso. apply Hn, (O i t G). congruence.
    - exfalso. apply Hn, (O i t G). congruence. }
  destruct t as [todo|r todo|r p k todo|r todo]; cbn [sstep] in E.
  - destruct todo as [|r todo]; [discriminate|]. destruct (ss_lock s) eqn:El; [discriminate|]. injection E as <- <-.
    split; [|split].
    + exists m1, s1. split; [exact R|]. cbn [ss_lock]. exists (SLocked r todo). split; [now apply get_upd_eq|]. exact K.
    + cbn [ss_lock]. intros j tj Gj Hn. rewrite get_upd_neq in Gj by congruence. apply (O j tj Gj). congruence.
    + cbn [ss_log]. rewrite (sleft_same ts i (SIdle (r :: todo)) (SLocked r todo) G eq_refl). exact P.
  - assert (El := own (fun x => x)). rewrite El in K. destruct K as (t1 & G1 & K). rewrite G in G1. injection G1 as <-.
    cbn [sholds] in K. destruct K as [K1 K2].
    destruct (sect_write (ss_sect s) (len r)) as [[p s2]|] eqn:Ew; injection E as <- <-.
    + split; [|split].
      * exists m1, s1. split; [exact R|]. cbn [ss_lock]. rewrite El. exists (SWriting r p 0 todo). split; [now apply get_upd_eq|].
        cbn [sholds ss_sect ss_mem]. rewrite <- K1. split; [exact Ew|]. split; [lia|].
        intros a. rewrite K2. symmetry. apply store_other. cbn. lia.
      * cbn [ss_lock]. intros j tj Gj Hn. rewrite get_upd_neq in Gj by congruence. now apply (O j tj Gj).
      * cbn [ss_log]. rewrite (sleft_same ts i (SLocked r todo) (SWriting r p 0 todo) G eq_refl). exact P.
    + split; [|split].
      * exists m1, s1. split; [exact R|]. rewrite El. exists (SRefused r todo). split; [now apply get_upd_eq|].
        cbn [sholds]. rewrite <- K1. auto.
      * intros j tj Gj Hn. rewrite get_upd_neq in Gj by congruence. now apply (O j tj Gj).
      * rewrite (sleft_same ts i (SLocked r todo) (SRefused r todo) G eq_refl). exact P.
  - assert (El := own (fun x => x)). rewrite El in K. destruct K as (t1 & G1 & K). rewrite G in G1. injection G1 as <-.
    cbn [sholds] in K. destruct K as (K1 & K2 & K3).
    destruct (get r k) as [b|] eqn:Eg; injection E as <- <-.
    + assert (Lk := get_some _ _ _ Eg). split; [|split].
      * exists m1, s1. split; [exact R|]. cbn [ss_lock]. rewrite El. exists (SWriting r p (k + 1) todo). split; [now apply get_upd_eq|].
        cbn [sholds ss_sect ss_mem]. split; [exact K1|]. split; [lia|]. intros a.
        rewrite (firstn_snoc r k b Eg). rewrite <- store_app.
        assert (Lf : len (firstn (N.to_nat k) r) = k). { unfold len. rewrite firstn_length_le; unfold len in *; lia. }
        rewrite Lf. now apply store_ext.
      * cbn [ss_lock]. intros j tj Gj Hn. rewrite get_upd_neq in Gj by congruence. now apply (O j tj Gj).
      * cbn [ss_log]. rewrite (sleft_same ts i (SWriting r p k todo) (SWriting r p (k + 1) todo) G eq_refl). exact P.
    + apply get_none in Eg. assert (k = len r) by lia. subst k.
      assert (Ef : firstn (N.to_nat (len r)) r = r) by (unfold len; rewrite Nat2N.id; apply firstn_all).
      rewrite Ef in K3. split; [|split].
      * exists (ss_mem s), (ss_sect s). cbn [ss_log ss_lock ss_sect ss_mem]. split; [|auto].
        eapply replays_end_ext; [intros a; symmetry; apply K3|]. eapply replays_snoc; [exact R|].
        unfold construct. now rewrite K1.
      * cbn [ss_lock]. intros j tj Gj _. destruct (N.eq_dec i j) as [->|Hj].
        -- rewrite get_upd_eq in Gj by auto. injection Gj as <-. exact I.
        -- rewrite get_upd_neq in Gj by auto. apply (O j tj Gj). congruence.
      * cbn [ss_log]. rewrite map_app. cbn [map fst]. rewrite <- app_assoc. cbn [app].
        rewrite P. apply Permutation_app_head. now apply (sleft_upd ts i (SWriting r p (len r) todo)).
  - assert (El := own (fun x => x)). rewrite El in K. destruct K as (t1 & G1 & K). rewrite G in G1. injection G1 as <-.
    cbn [sholds] in K. destruct K as (K1 & K2 & K3). injection E as <- <-.
    split; [|split].
    + exists m1, s1. cbn [ss_log ss_lock ss_sect ss_mem]. split; [|auto]. now apply replays_snoc_none.
    + cbn [ss_lock]. intros j tj Gj _. destruct (N.eq_dec i j) as [->|Hj].
      * rewrite get_upd_eq in Gj by auto. injection Gj as <-. exact I.
      * rewrite get_upd_neq in Gj by auto. apply (O j tj Gj). congruence.
    + cbn [ss_log]. rewrite map_app. cbn [map fst]. rewrite <- app_assoc. cbn [app].
      rewrite P. apply Permutation_app_head. now apply (sleft_upd ts i (SRefused r todo)).
Qed.

Lemma sinv_run schedule :
  sinv (fst (run sstep (sstart m0 s0 progs) schedule)) (snd (run sstep (sstart m0 s0 progs) schedule)).
Proof.
  unfold sstart. apply run_inv; [intros; eapply sinv_step; eauto|].
  split; [|split].
  - exists m0, s0. cbn. auto.
  - intros j t G _. unfold get in G. rewrite nth_error_map in G. destruct (nth_error progs (N.to_nat j)); [|discriminate].
    injection G as <-. exact I.
  - cbn [ss_log map app]. rewrite map_map. cbn [sleft]. now rewrite map_id.
Qed.
End Inv.

(** Consequences of a sequential replay. *)
Lemma replays_spec log : forall m s m' s', section_ok s -> Forall (fun x => len (fst x) < two64) log ->
  replays m s log m' s' ->
  section_ok s' /\ sbeg s' = sbeg s /\ send s' = send s /\ wit s <= wit s' /\
  (forall a, a < wit s \/ wit s' <= a -> m' a = m a) /\
  (forall r p, In (r, Some p) log -> wit s <= p /\ p + len r <= wit s' /\ load m' p (len r) = r) /\
  (forall i j r p q k, i < j -> get log i = Some (r, Some p) -> get log j = Some (q, Some k) -> p + len r <= k) /\
  (forall r, In (r, None) log -> send s < wit s' + len r) /\
  (Forall (fun x => snd x <> None) log -> wit s' = wit s + len (concat (map fst log))).
Proof.
  induction log as [|[r a] log IH]; intros m s m' s' K F R; cbn [replays] in R.
  - destruct R as [R1 <-]. split; [exact K|]. split; [reflexivity|]. split; [reflexivity|]. split; [lia|].
    split; [intros; now rewrite R1|]. split; [intros ? ? []|]. split.
    { intros i j ? ? ? ? _ Gi. rewrite get_nil in Gi. discriminate. }
    split; [intros ? []|]. intros _. cbn. lia.
  - inversion_clear F as [|? ? F1 F2]. cbn [fst] in F1. unfold construct in R.
    destruct (sect_write s (len r)) as [[p s1]|] eqn:E.
    + destruct R as [-> R]. destruct (sect_write_some _ _ _ _ K F1 E) as (-> & -> & Fit & K1).
      destruct (IH _ _ _ _ K1 F2 R) as (A & B & C & D & Fr & Rd & Or & Rf & Al). cbn [wit sbeg send] in *.
      split; [exact A|]. split; [exact B|]. split; [exact C|]. split; [lia|]. split; [|split; [|split; [|split]]].
      * intros x Hx. rewrite Fr by lia. apply store_other. lia.
      * intros q p [Q|Iq].
        -- assert (q = r) by congruence. assert (p = wit s) by congruence. subst q p. split; [lia|]. split; [lia|].
           rewrite <- (load_store m (wit s) r) at 2. apply load_ext. intros x _ Hx. apply Fr. lia.
        -- destruct (Rd q p Iq) as (Q1 & Q2 & Q3). split; [lia|]. split; [lia|exact Q3].
      * intros i j q p q' k Hij Gi Gj. rewrite (get_cons_S _ _ j) in Gj by lia.
        destruct (N.eqb_spec i 0) as [->|Hi].
        -- rewrite get_cons_0 in Gi. injection Gi as <- <-.
           assert (Ij : In (q', Some k) log) by (unfold get in Gj; now apply nth_error_In in Gj).
           apply (Rd q' k Ij).
        -- rewrite get_cons_S in Gi by lia. apply (Or (i - 1) (j - 1) q p q' k); auto. lia.
      * intros q [Q|Iq]; [discriminate|]. now apply Rf.
      * intros Fo. inversion_clear Fo as [|? ? _ Fo2]. cbn [map fst concat]. rewrite len_app, (Al Fo2). lia.
    + destruct R as [-> R]. apply sect_write_none in E; auto.
      destruct (IH _ _ _ _ K F2 R) as (A & B & C & D & Fr & Rd & Or & Rf & Al).
      split; [exact A|]. split; [exact B|]. split; [exact C|]. split; [lia|]. split; [exact Fr|]. split; [|split; [|split]].
      * intros q p [Q|Iq]; [discriminate|]. now apply Rd.
      * intros i j q p q' k Hij Gi Gj. rewrite (get_cons_S _ _ j) in Gj by lia.
        destruct (N.eqb_spec i 0) as [->|Hi]; [rewrite get_cons_0 in Gi; discriminate|].
        rewrite get_cons_S in Gi by lia. apply (Or (i - 1) (j - 1) q p q' k); auto. lia.
      * intros q [Q|Iq]; [injection Q as <-; lia|now apply Rf].
      * intros Fo. inversion_clear Fo as [|? ? F3 _]. now cbn in F3.
Qed.
