(** Proofs about the records of threads. *)
From Coq Require Import NArith ZArith List Bool Lia.
From Verif Require Import M_Base M_DfsanThread S_DfsanThread P_Base.
Import ListNotations.
Open Scope N_scope.

Lemma put_same {A} (f : N -> A) i x : put f i x i = x.
Proof. unfold put. now rewrite N.eqb_refl. Qed.
Lemma put_other {A} (f : N -> A) i x k : k <> i -> put f i x k = f k.
Proof. unfold put. intros H. destruct (N.eqb_spec k i); [contradiction|reflexivity]. Qed.

Definition has_record (st : state) (w : world) (t iters sig : N) : Prop :=
  exists r, mem_ st t = Some r /\ destructor_iterations r = iters /\ in_signal_handler r = sig.
Definition ok_thread (st : state) (w : world) (j : N) : Prop :=
  match phase_of w j with
  | Unborn | Gone => current st j = None /\ tsd st j = None /\ depth w j = 0
  | Created t => current st j = None /\ tsd st j = None /\ has_record st w t libc_passes 0
  | Alive t => current st j = Some t /\ tsd st j = Some t /\ has_record st w t libc_passes (depth w j)
  | Leaving t n => if n <? libc_passes then current st j = Some t /\ tsd st j = Some t /\ has_record st w t (libc_passes - n) (depth w j)
                   else n = libc_passes /\ current st j = None /\ tsd st j = None
  end.

Record inv (es : list event) (st : state) (w : world) : Prop := mkInv {
  i_thr : forall j, ok_thread st w j;
  i_depth : forall j, depth w j < 2 ^ 32;
  i_one : forall j k t, record_of w j = Some t -> record_of w k = Some t -> j = k;
  i_mapped : forall t, mem_ st t <> None <-> (exists j, record_of w j = Some t) \/ failed_at es t;
  i_failed : forall j t, record_of w j = Some t -> failed_at es t -> False;
  i_born : forall j r a, created_with es j r a -> phase_of w j <> Unborn;
  i_rec : forall j r a t, created_with es j r a -> record_of w j = Some t -> exists rc, mem_ st t = Some rc /\ start_routine rc = r /\ arg rc = a;
  i_early : forall j, ~ begun w j -> called st j = [];
  i_calls : forall j r a, created_with es j r a -> begun w j -> called st j = if r =? 0 then [] else [(j, r, a, 0)] }.

Lemma failed_snoc es e t : failed_at (es ++ [e]) t <-> failed_at es t \/ exists r a l, e = EFail t r a l.
Proof.
  unfold failed_at. split.
  - intros (r & a & l & H). apply in_app_or in H as [H|[H|[]]]; eauto 6.
  - intros [(r & a & l & H)|(r & a & l & H)]; exists r, a, l; apply in_or_app; [left; exact H|right; left; exact H].
Qed.
Lemma created_snoc es e j r a : created_with (es ++ [e]) j r a <-> created_with es j r a \/ exists t l, e = ECreate j t r a l.
Proof.
  unfold created_with. split.
  - intros (t & l & H). apply in_app_or in H as [H|[H|[]]]; eauto 6.
  - intros [(t & l & H)|(t & l & H)]; exists t, l; apply in_or_app; [left; exact H|right; left; exact H].
Qed.

Lemma keep st st' w w' k : phase_of w' k = phase_of w k -> depth w' k = depth w k -> current st' k = current st k -> tsd st' k = tsd st k ->
  (forall t, record_of w k = Some t -> mem_ st' t = mem_ st t) -> ok_thread st w k -> ok_thread st' w' k.
Proof.
  unfold ok_thread, record_of, has_record. intros -> -> -> -> M. destruct (phase_of w k) as [|t|t|t n|]; auto.
  - rewrite (M t eq_refl). auto.
  - rewrite (M t eq_refl). auto.
  - destruct (n <? libc_passes); [|auto]. rewrite (M t eq_refl). auto.
Qed.

(** A record of a thread is mapped. *)
Lemma rec_mapped es st w j t : inv es st w -> record_of w j = Some t -> mem_ st t <> None.
Proof. intros I H. apply (i_mapped _ _ _ I). eauto. Qed.

Lemma record_alike w w' : (forall k, phase_of w' k = phase_of w k) -> forall k, record_of w' k = record_of w k.
Proof. intros H k. unfold record_of. now rewrite H. Qed.

(** Steps that change neither phases nor what is mapped, and only counters of one record. *)
Lemma inv_touch es st w e j st' w' : inv es st w ->
  (forall t r a l, e <> EFail t r a l) -> (forall j t r a l, e <> ECreate j t r a l) ->
  (forall k, phase_of w' k = phase_of w k) -> (forall k, k <> j -> depth w' k = depth w k) -> depth w' j < 2 ^ 32 ->
  (forall k, current st' k = current st k) -> (forall k, tsd st' k = tsd st k) -> calls st' = calls st ->
  (forall t, record_of w j <> Some t -> mem_ st' t = mem_ st t) ->
  (forall t r, mem_ st t = Some r -> exists r', mem_ st' t = Some r' /\ start_routine r' = start_routine r /\ arg r' = arg r) ->
  ok_thread st' w' j -> inv (es ++ [e]) st' w'.
Proof.
  intros I NF NC Ph Dp Dj Cu Ts Ca Mm Mk Ok.
  assert (Ra := record_alike w w' Ph).
  assert (Be : forall k, begun w' k <-> begun w k) by (intros k; unfold begun; now rewrite Ph).
  assert (Cw : forall k r a, created_with (es ++ [e]) k r a <-> created_with es k r a).
  { intros k r a. rewrite created_snoc. split; [intros [H|(t & l & H)]; [exact H|exfalso; exact (NC _ _ _ _ _ H)]|auto]. }
  assert (Fw : forall t, failed_at (es ++ [e]) t <-> failed_at es t).
  { intros t. rewrite failed_snoc. split; [intros [H|(r & a & l & H)]; [exact H|exfalso; exact (NF _ _ _ _ H)]|auto]. }
  constructor.
  - intros k. destruct (N.eq_dec k j) as [->|N]; [exact Ok|]. apply (keep st st' w w' k); auto; [|apply (i_thr _ _ _ I)].
    intros t R. apply Mm. intros R'. exact (N (i_one _ _ _ I _ _ _ R R')).
  - intros k. destruct (N.eq_dec k j) as [->|N]; [exact Dj|]. rewrite Dp by exact N. apply (i_depth _ _ _ I).
  - intros k l t. rewrite !Ra. apply (i_one _ _ _ I).
  - intros t. rewrite Fw. setoid_rewrite Ra. rewrite <- (i_mapped _ _ _ I t).
    destruct (mem_ st t) as [r|] eqn:M.
    + destruct (Mk t r M) as (r' & -> & _). split; congruence.
    + rewrite Mm; [rewrite M; tauto|]. intros R. exact (rec_mapped _ _ _ _ _ I R M).
  - intros k t. rewrite Ra, Fw. apply (i_failed _ _ _ I).
  - intros k r a. rewrite Cw, Ph. apply (i_born _ _ _ I).
  - intros k r a t. rewrite Cw, Ra. intros C R. destruct (i_rec _ _ _ I k r a t C R) as (rc & M & E1 & E2).
    destruct (Mk t rc M) as (r' & M' & E1' & E2'). exists r'. rewrite M', E1', E2'. auto.
  - intros k. rewrite Be. unfold called. rewrite Ca. apply (i_early _ _ _ I).
  - intros k r a. rewrite Be, Cw. unfold called. rewrite Ca. apply (i_calls _ _ _ I).
Qed.

Lemma add_one n : n + 1 < 2 ^ 32 -> add32 n 1 = n + 1.
Proof. intros H. unfold add32, two32. change (2 ^ 32) with 4294967296 in H. apply N.mod_small. lia. Qed.
Lemma sub_one n : 0 < n -> n < 2 ^ 32 -> add32 n (two32 - 1) = n - 1.
Proof.
  intros P H. unfold add32, two32. change (2 ^ 32) with 4294967296 in H.
  replace (n + (4294967296 - 1)) with (n - 1 + 1 * 4294967296) by lia. rewrite N.mod_add by lia. apply N.mod_small. lia.
Qed.

(** [counted]: a step that only sets the counter of active handlers in the record of [j]. *)
Lemma count_step es st w e j d : inv es st w -> d < 2 ^ 32 -> phase_of w j <> Unborn -> phase_of w j <> Gone ->
  (forall t r a l, e <> EFail t r a l) -> (forall j t r a l, e <> ECreate j t r a l) ->
  (forall t r, current st j = Some t -> mem_ st t = Some r ->
     inv (es ++ [e]) (store st t (mkRec (destructor_iterations r) (start_routine r) (arg r) d)) (mkWorld (phase_of w) (put (depth w) j d))) /\
  (current st j = None -> inv (es ++ [e]) st (mkWorld (phase_of w) (put (depth w) j d))).
Proof.
  intros I D Nu Ng NF NC. assert (T := i_thr _ _ _ I j). split.
  - intros t r Cu M. assert (R : record_of w j = Some t).
    { unfold ok_thread in T. unfold record_of. destruct (phase_of w j) as [|u|u|u n|]; try (destruct T; congruence). 
      destruct (n <? libc_passes); [destruct T; congruence|destruct T as (_ & T & _); congruence]. }
    apply (inv_touch es st w e j); auto; cbn [store mem_ current tsd calls phase_of depth].
    + intros k N. now apply put_other.
    + now rewrite put_same.
    + intros u Nt. apply put_other. congruence.
    + intros u r0 M0. destruct (N.eq_dec u t) as [->|N]; [rewrite put_same; eexists; split; [reflexivity|]; split; cbn; congruence|].
      rewrite put_other by exact N. eauto.
    + unfold ok_thread in *. cbn [phase_of depth store current tsd]. unfold has_record. cbn [mem_ store]. rewrite put_same.
      unfold record_of in R. destruct (phase_of w j) as [|u|u|u n|]; try congruence; try (destruct T; congruence).
      * injection R as ->. destruct T as (T1 & T2 & r0 & M0 & E1 & E2). rewrite put_same. split; [exact T1|]. split; [exact T2|].
        eexists. split; [reflexivity|]. cbn [destructor_iterations in_signal_handler start_routine arg]. split; congruence.
      * destruct (n <? libc_passes); [|congruence]. injection R as ->. destruct T as (T1 & T2 & r0 & M0 & E1 & E2). rewrite put_same. split; [exact T1|]. split; [exact T2|].
        eexists. split; [reflexivity|]. cbn [destructor_iterations in_signal_handler start_routine arg]. split; congruence.
  - intros Cu. apply (inv_touch es st w e j); auto; cbn [phase_of depth].
    + intros k N. now apply put_other.
    + now rewrite put_same.
    + eauto.
    + unfold ok_thread in *. cbn [phase_of depth]. destruct (phase_of w j) as [|u|u|u n|]; try congruence; auto; try (destruct T; congruence).
      destruct (n <? libc_passes); [destruct T; congruence|exact T].
Qed.

(** ** Creation *)
Lemma create_step es st w j t r a l0 : inv es st w -> phase_of w j = Unborn -> mem_ st t = None ->
  inv (es ++ [ECreate j t r a l0]) (create st t r a) (happens w (ECreate j t r a l0)).
Proof.
  intros I U M. assert (T := i_thr _ _ _ I j). unfold ok_thread in T. rewrite U in T. destruct T as (T1 & T2 & T3).
  assert (Ro : forall k, record_of (happens w (ECreate j t r a l0)) k = if k =? j then Some t else record_of w k).
  { intros k. unfold record_of. cbn [happens phase_of]. unfold put. destruct (k =? j); reflexivity. }
  assert (Nt : forall k, record_of w k <> Some t) by (intros k R; exact (rec_mapped _ _ _ _ _ I R M)).
  assert (Fw : forall u, failed_at (es ++ [ECreate j t r a l0]) u <-> failed_at es u).
  { intros u. rewrite failed_snoc. split; [intros [H|(r0 & a0 & l1 & H)]; [exact H|discriminate]|auto]. }
  assert (Nf : ~ failed_at es t).
  { intros F. apply (proj2 (i_mapped _ _ _ I t) (or_intror F)). exact M. }
  constructor.
  - intros k. destruct (N.eq_dec k j) as [->|N].
    + unfold ok_thread. cbn [happens phase_of]. rewrite put_same. cbn [create store current tsd]. split; [exact T1|]. split; [exact T2|].
      unfold has_record. cbn [mem_ create store]. rewrite put_same. eexists. split; [reflexivity|]. split; reflexivity.
    + apply (keep st _ w _ k); cbn [happens phase_of depth create store current tsd mem_]; auto; [now apply put_other| |apply (i_thr _ _ _ I)].
      intros u R. apply put_other. intros ->. exact (Nt k R).
  - apply (i_depth _ _ _ I).
  - intros k l u. rewrite !Ro. destruct (N.eqb_spec k j) as [->|], (N.eqb_spec l j) as [->|]; auto.
    + intros H1 H2. injection H1 as ->. exfalso. exact (Nt l H2).
    + intros H1 H2. injection H2 as ->. exfalso. exact (Nt k H1).
    + apply (i_one _ _ _ I).
  - intros u. rewrite Fw. cbn [create store mem_]. destruct (N.eq_dec u t) as [->|N].
    + rewrite put_same. split; [|congruence]. intros _. left. exists j. rewrite Ro, N.eqb_refl. reflexivity.
    + rewrite put_other by exact N. rewrite (i_mapped _ _ _ I u). split; intros [(k & H)|H]; auto; left; exists k; rewrite Ro in *.
      * destruct (N.eqb_spec k j) as [->|]; [|exact H]. unfold record_of in H. rewrite U in H. discriminate.
      * destruct (k =? j); [congruence|exact H].
  - intros k u. rewrite Ro, Fw. destruct (k =? j); [intros H; injection H as <-; auto|apply (i_failed _ _ _ I)].
  - intros k r0 a0 C. apply created_snoc in C as [C|(u & l1 & C)]; cbn [happens phase_of].
    + destruct (N.eq_dec k j) as [->|N]; [rewrite put_same; discriminate|]. rewrite put_other by exact N. exact (i_born _ _ _ I _ _ _ C).
    + injection C as -> -> -> -> ->. rewrite put_same. discriminate.
  - intros k r0 a0 u C. rewrite Ro. cbn [create store mem_]. apply created_snoc in C as [C|(v & l1 & C)].
    + destruct (N.eqb_spec k j) as [->|N]; [exfalso; exact (i_born _ _ _ I _ _ _ C U)|]. intros R. rewrite put_other; [exact (i_rec _ _ _ I _ _ _ _ C R)|].
      intros ->. exact (Nt k R).
    + injection C as -> -> -> -> ->. rewrite N.eqb_refl. intros H. injection H as <-. rewrite put_same. eauto.
  - intros k B. assert (B' : ~ begun w k).
    { unfold begun in *. cbn [happens phase_of] in B. destruct (N.eq_dec k j) as [->|N]; [now rewrite U|]. now rewrite put_other in B by exact N. }
    exact (i_early _ _ _ I k B').
  - intros k r0 a0 C B. assert (N : k <> j). { intros ->. unfold begun in B. cbn [happens phase_of] in B. now rewrite put_same in B. }
    unfold begun in B. cbn [happens phase_of] in B. rewrite put_other in B by exact N.
    apply created_snoc in C as [C|(v & l1 & C)]; [exact (i_calls _ _ _ I _ _ _ C B)|]. injection C as ->. congruence.
Qed.

Lemma fail_step es st w t r a l0 : inv es st w -> mem_ st t = None -> inv (es ++ [EFail t r a l0]) (create st t r a) w.
Proof.
  intros I M. assert (Nt : forall k, record_of w k <> Some t) by (intros k R; exact (rec_mapped _ _ _ _ _ I R M)).
  assert (Cw : forall k r0 a0, created_with (es ++ [EFail t r a l0]) k r0 a0 <-> created_with es k r0 a0).
  { intros k r0 a0. rewrite created_snoc. split; [intros [H|(u & l1 & H)]; [exact H|discriminate]|auto]. }
  constructor.
  - intros k. apply (keep st _ w _ k); auto; [|apply (i_thr _ _ _ I)]. intros u R. cbn. apply put_other. intros ->. exact (Nt k R).
  - apply (i_depth _ _ _ I).
  - apply (i_one _ _ _ I).
  - intros u. rewrite failed_snoc. cbn [create store mem_]. destruct (N.eq_dec u t) as [->|N].
    + rewrite put_same. split; [|congruence]. intros _. right. right. eauto.
    + rewrite put_other by exact N. rewrite (i_mapped _ _ _ I u). split; [tauto|]. intros [H|[H|(r0 & a0 & l1 & H)]]; auto. injection H as <-. congruence.
  - intros k u R. rewrite failed_snoc. intros [F|(r0 & a0 & l1 & H)]; [exact (i_failed _ _ _ I _ _ R F)|]. injection H as <-. exact (Nt k R).
  - intros k r0 a0. rewrite Cw. apply (i_born _ _ _ I).
  - intros k r0 a0 u. rewrite Cw. intros C R. cbn [create store mem_]. rewrite put_other; [exact (i_rec _ _ _ I _ _ _ _ C R)|]. intros ->. exact (Nt k R).
  - apply (i_early _ _ _ I).
  - intros k r0 a0. rewrite Cw. apply (i_calls _ _ _ I).
Qed.

(** Steps of [j] after which the same records belong to the same threads, except that [j]
    may have given up its own. *)
Lemma start_step es st w j t : inv es st w -> phase_of w j = Created t -> depth w j = 0 ->
  exists st', start_func st j t = Ok st' /\ inv (es ++ [EStart j]) st' (happens w (EStart j)).
Proof.
  intros I P D. assert (T := i_thr _ _ _ I j). unfold ok_thread in T. rewrite P in T. destruct T as (T1 & T2 & rc & M & E1 & E2).
  assert (Rj : record_of w j = Some t) by (unfold record_of; now rewrite P).
  unfold start_func, set_current. rewrite T1. cbn [bind]. unfold thread_start, deref. cbn [mem_]. rewrite M. cbn [bind].
  eexists. split; [instantiate (1 := if start_routine rc =? 0 then _ else _); destruct (start_routine rc =? 0); reflexivity|].
  cbn [happens]. rewrite P.
  set (st' := if start_routine rc =? 0 then _ else _).
  assert (Mm : mem_ st' = mem_ st) by (unfold st'; now destruct (start_routine rc =? 0)).
  assert (Cu : current st' = put (current st) j (Some t)) by (unfold st'; now destruct (start_routine rc =? 0)).
  assert (Ts : tsd st' = put (tsd st) j (Some t)) by (unfold st'; now destruct (start_routine rc =? 0)).
  assert (Ca : calls st' = calls st ++ (if start_routine rc =? 0 then [] else [(j, start_routine rc, arg rc, 0)])).
  { unfold st'. destruct (start_routine rc =? 0); cbn [calls]; [now rewrite app_nil_r|reflexivity]. }
  clearbody st'.
  assert (Ro : forall k, record_of (mkWorld (put (phase_of w) j (Alive t)) (depth w)) k = record_of w k).
  { intros k. unfold record_of. cbn [phase_of]. destruct (N.eq_dec k j) as [->|N]; [rewrite put_same, P; reflexivity|now rewrite put_other by exact N]. }
  assert (Cw : forall k r0 a0, created_with (es ++ [EStart j]) k r0 a0 <-> created_with es k r0 a0).
  { intros k r0 a0. rewrite created_snoc. split; [intros [H|(u & l1 & H)]; [exact H|discriminate]|auto]. }
  assert (Fw : forall u, failed_at (es ++ [EStart j]) u <-> failed_at es u).
  { intros u. rewrite failed_snoc. split; [intros [H|(r0 & a0 & l1 & H)]; [exact H|discriminate]|auto]. }
  assert (Co : forall k, k <> j -> called st' k = called st k).
  { intros k N. unfold called. rewrite Ca, filter_app. destruct (start_routine rc =? 0); cbn [filter fst]; [now rewrite app_nil_r|].
    destruct (N.eqb_spec j k); [congruence|now rewrite app_nil_r]. }
  constructor.
  - intros k. destruct (N.eq_dec k j) as [->|N].
    + unfold ok_thread. cbn [phase_of depth]. rewrite put_same, Cu, Ts, !put_same. split; [reflexivity|]. split; [reflexivity|].
      exists rc. rewrite Mm, D. auto.
    + apply (keep st _ w _ k); cbn [phase_of depth]; auto; try (rewrite ?Cu, ?Ts; now apply put_other); [|apply (i_thr _ _ _ I)].
      intros u _. now rewrite Mm.
  - apply (i_depth _ _ _ I).
  - intros k l u. rewrite !Ro. apply (i_one _ _ _ I).
  - intros u. rewrite Fw, Mm. setoid_rewrite Ro. apply (i_mapped _ _ _ I).
  - intros k u. rewrite Ro, Fw. apply (i_failed _ _ _ I).
  - intros k r0 a0. rewrite Cw. intros C. cbn [phase_of]. destruct (N.eq_dec k j) as [->|N]; [rewrite put_same; discriminate|].
    rewrite put_other by exact N. exact (i_born _ _ _ I _ _ _ C).
  - intros k r0 a0 u. rewrite Cw, Ro, Mm. apply (i_rec _ _ _ I).
  - intros k. unfold begun. cbn [phase_of]. destruct (N.eq_dec k j) as [->|N]; [rewrite put_same; tauto|]. rewrite put_other by exact N.
    intros B. rewrite Co by exact N. exact (i_early _ _ _ I k B).
  - intros k r0 a0. rewrite Cw. unfold begun. cbn [phase_of]. destruct (N.eq_dec k j) as [->|N].
    + intros C _. destruct (i_rec _ _ _ I j r0 a0 t C Rj) as (rc' & M' & <- & <-). assert (rc' = rc) as -> by congruence.
      assert (E := i_early _ _ _ I j). unfold begun in E. rewrite P in E. specialize (E ltac:(tauto)). unfold called in *. rewrite Ca, filter_app, E.
      destruct (start_routine rc =? 0); [reflexivity|]. cbn [filter fst app]. now rewrite N.eqb_refl.
    + rewrite put_other by exact N. rewrite Co by exact N. intros C B. exact (i_calls _ _ _ I _ _ _ C B).
Qed.

(** Steps of [j] that begin or continue its end. *)
Lemma phase_step es st w e j st' p : inv es st w ->
  (forall t r a l, e <> EFail t r a l) -> (forall j t r a l, e <> ECreate j t r a l) ->
  begun w j -> (match p with Unborn | Created _ => False | _ => True end) ->
  (forall k, k <> j -> current st' k = current st k /\ tsd st' k = tsd st k) -> calls st' = calls st ->
  (forall k u, k <> j -> record_of w k = Some u -> mem_ st' u = mem_ st u) ->
  (forall t, record_of (mkWorld (put (phase_of w) j p) (depth w)) j = Some t -> record_of w j = Some t /\
     forall r, mem_ st t = Some r -> exists r', mem_ st' t = Some r' /\ start_routine r' = start_routine r /\ arg r' = arg r) ->
  (forall u, mem_ st' u <> None <-> mem_ st u <> None /\ (record_of w j = Some u -> record_of (mkWorld (put (phase_of w) j p) (depth w)) j = Some u)) ->
  ok_thread st' (mkWorld (put (phase_of w) j p) (depth w)) j ->
  inv (es ++ [e]) st' (mkWorld (put (phase_of w) j p) (depth w)).
Proof.
  intros I NF NC Bj Bp Ct Ca Mo Mj Mp Ok.
  set (w' := mkWorld (put (phase_of w) j p) (depth w)) in *.
  assert (Ro : forall k, k <> j -> record_of w' k = record_of w k).
  { intros k N. unfold record_of, w'. cbn [phase_of]. now rewrite put_other by exact N. }
  assert (Sub : forall k t, record_of w' k = Some t -> record_of w k = Some t).
  { intros k t R. destruct (N.eq_dec k j) as [->|N]; [apply (Mj t R)|now rewrite Ro in R by exact N]. }
  assert (Cw : forall k r a, created_with (es ++ [e]) k r a <-> created_with es k r a).
  { intros k r a. rewrite created_snoc. split; [intros [H|(t & l & H)]; [exact H|exfalso; exact (NC _ _ _ _ _ H)]|auto]. }
  assert (Fw : forall t, failed_at (es ++ [e]) t <-> failed_at es t).
  { intros t. rewrite failed_snoc. split; [intros [H|(r & a & l & H)]; [exact H|exfalso; exact (NF _ _ _ _ H)]|auto]. }
  assert (Be : forall k, begun w' k <-> begun w k).
  { intros k. unfold begun at 1, w'. cbn [phase_of]. destruct (N.eq_dec k j) as [->|N]; [rewrite put_same; tauto|].
    rewrite put_other by exact N. reflexivity. }
  constructor.
  - intros k. destruct (N.eq_dec k j) as [->|N]; [exact Ok|]. destruct (Ct k N) as (C1 & C2). apply (keep st st' w w' k); auto; [|intros u; apply Mo; exact N|apply (i_thr _ _ _ I)].
    unfold w'. cbn [phase_of]. now apply put_other.
  - apply (i_depth _ _ _ I).
  - intros k l t R1 R2. exact (i_one _ _ _ I _ _ _ (Sub _ _ R1) (Sub _ _ R2)).
  - intros t. rewrite Fw, Mp, (i_mapped _ _ _ I t). split.
    + intros [[(k & R)|F] H]; [|right; exact F]. left. destruct (N.eq_dec k j) as [->|N]; [exists j; auto|exists k; now rewrite Ro by exact N].
    + intros [(k & R)|F].
      * split; [left; exists k; auto|]. intros Rj. assert (k = j) as -> by exact (i_one _ _ _ I _ _ _ (Sub _ _ R) Rj). exact R.
      * split; [right; exact F|]. intros Rj. exfalso. exact (i_failed _ _ _ I _ _ Rj F).
  - intros k t R. rewrite Fw. exact (i_failed _ _ _ I _ _ (Sub _ _ R)).
  - intros k r a. rewrite Cw. intros C U. assert (X := i_born _ _ _ I _ _ _ C). unfold w' in U. cbn [phase_of] in U.
    destruct (N.eq_dec k j) as [->|N]; [rewrite put_same in U; now subst p|rewrite put_other in U by exact N; contradiction].
  - intros k r a t. rewrite Cw. intros C R. destruct (i_rec _ _ _ I k r a t C (Sub _ _ R)) as (rc & M & E1 & E2).
    destruct (N.eq_dec k j) as [->|N].
    + destruct (Mj t R) as (_ & H). destruct (H rc M) as (r' & M' & E1' & E2'). exists r'. rewrite M', E1', E2'. auto.
    + exists rc. rewrite (Mo k t N); auto.
  - intros k B. unfold called. rewrite Ca. apply (i_early _ _ _ I k). now rewrite <- Be.
  - intros k r a. rewrite Cw, Be. unfold called. rewrite Ca. apply (i_calls _ _ _ I).
Qed.

Lemma exit_step es st w j t : inv es st w -> phase_of w j = Alive t ->
  inv (es ++ [EExit j]) st (mkWorld (put (phase_of w) j (Leaving t 0)) (depth w)).
Proof.
  intros I P. assert (T := i_thr _ _ _ I j). unfold ok_thread in T. rewrite P in T.
  assert (Rj : record_of w j = Some t) by (unfold record_of; now rewrite P).
  assert (Rj' : record_of (mkWorld (put (phase_of w) j (Leaving t 0)) (depth w)) j = Some t) by (unfold record_of; cbn [phase_of]; now rewrite put_same).
  apply (phase_step es st); auto; try discriminate.
  - unfold begun. now rewrite P.
  - rewrite Rj'. intros u H. injection H as <-. split; [exact Rj|eauto].
  - intros u. rewrite Rj, Rj'. tauto.
  - unfold ok_thread. cbn [phase_of depth]. rewrite put_same. exact T.
Qed.

Lemma end_step es st w j t n : inv es st w -> phase_of w j = Leaving t n -> n = libc_passes \/ tsd st j = None -> depth w j = 0 ->
  inv (es ++ [EEnd j]) st (mkWorld (put (phase_of w) j Gone) (depth w)).
Proof.
  intros I P O D. assert (T := i_thr _ _ _ I j). unfold ok_thread in T. rewrite P in T.
  assert (Ge : (n <? libc_passes) = false /\ current st j = None /\ tsd st j = None).
  { destruct (N.ltb_spec n libc_passes) as [L|L]; [|tauto]. destruct O as [->|O]; [lia|]. destruct T as (_ & T & _). congruence. }
  destruct Ge as (G & C & S).
  assert (Rj : record_of w j = None) by (unfold record_of; now rewrite P, G).
  assert (Rj' : record_of (mkWorld (put (phase_of w) j Gone) (depth w)) j = None) by (unfold record_of; cbn [phase_of]; now rewrite put_same).
  apply (phase_step es st); auto; try discriminate.
  - unfold begun. now rewrite P.
  - rewrite Rj'. discriminate.
  - intros u. rewrite Rj, Rj'. tauto.
  - unfold ok_thread. cbn [phase_of depth]. rewrite put_same. auto.
Qed.

Lemma round_step es st w j t n : inv es st w -> phase_of w j = Leaving t n -> n < libc_passes ->
  exists st', libc_round st j = Ok st' /\ inv (es ++ [ERound j]) st' (mkWorld (put (phase_of w) j (Leaving t (n + 1))) (depth w)).
Proof.
  intros I P L. assert (T := i_thr _ _ _ I j). unfold ok_thread in T. rewrite P in T.
  destruct (N.ltb_spec n libc_passes) as [_|]; [|lia]. destruct T as (T1 & T2 & rc & M & E1 & E2).
  assert (Rj : record_of w j = Some t) by (unfold record_of; rewrite P; destruct (N.ltb_spec n libc_passes); [reflexivity|lia]).
  assert (Rj' : record_of (mkWorld (put (phase_of w) j (Leaving t (n + 1))) (depth w)) j = if n + 1 <? libc_passes then Some t else None).
  { unfold record_of. cbn [phase_of]. now rewrite put_same. }
  assert (Oth : forall k u, k <> j -> record_of w k = Some u -> u <> t).
  { intros k u N R ->. exact (N (i_one _ _ _ I _ _ _ R Rj)). }
  unfold libc_round. rewrite T2. unfold tsd_dtor, deref. cbn [mem_]. rewrite M. cbn [bind]. rewrite E1.
  destruct (N.ltb_spec 1 (libc_passes - n)) as [G|G].
  - eexists. split; [reflexivity|]. assert (L' : (n + 1 <? libc_passes) = true) by (apply N.ltb_lt; lia). rewrite L' in Rj'.
    apply (phase_step es st); auto; try discriminate; cbn [store current tsd calls mem_].
    + unfold begun. now rewrite P.
    + intros k N. now rewrite !put_other by exact N.
    + intros k u N R. apply put_other. exact (Oth k u N R).
    + rewrite Rj'. intros u H. injection H as <-. split; [exact Rj|]. intros r M0. rewrite put_same. eexists. split; [reflexivity|]. cbn [destructor_iterations in_signal_handler start_routine arg]. split; congruence.
    + intros u. rewrite Rj, Rj'. destruct (N.eq_dec u t) as [->|N]; [rewrite put_same; split; [|congruence]; intros _; split; [congruence|auto]|].
      rewrite put_other by exact N. tauto.
    + unfold ok_thread. cbn [phase_of depth current tsd]. rewrite !put_same, L'. split; [exact T1|]. split; [reflexivity|].
      unfold has_record. cbn [mem_ store]. rewrite put_same. eexists. split; [reflexivity|]. cbn [destructor_iterations in_signal_handler start_routine arg]. split; [lia|exact E2].
  - unfold destroy. cbn [mem_]. rewrite M. eexists. split; [reflexivity|]. assert (L' : (n + 1 <? libc_passes) = false) by (apply N.ltb_ge; lia). rewrite L' in Rj'.
    apply (phase_step es st); auto; try discriminate; cbn [store current tsd calls mem_].
    + unfold begun. now rewrite P.
    + intros k N. now rewrite !put_other by exact N.
    + intros k u N R. apply put_other. exact (Oth k u N R).
    + rewrite Rj'. discriminate.
    + intros u. rewrite Rj, Rj'. destruct (N.eq_dec u t) as [->|N]; [rewrite put_same; split; [congruence|]; intros (_ & H); discriminate (H eq_refl)|].
      rewrite put_other by exact N. split; [|tauto]. intros H. split; [exact H|]. intros X. congruence.
    + unfold ok_thread. cbn [phase_of depth current tsd]. rewrite !put_same, L'. split; [lia|]. auto.
Qed.

(** ** Histories *)
Lemma step_inv es st w e : inv es st w -> possible st w e -> exists st', perform st w e = Ok st' /\ inv (es ++ [e]) st' (happens w e).
Proof.
  intros I P. destruct e as [j t r a l|t r a l|j|j|j|j|j|j]; cbn [perform possible] in *.
  - destruct P as (P1 & P2). eexists. split; [reflexivity|]. now apply create_step.
  - eexists. split; [reflexivity|]. now apply fail_step.
  - destruct P as ((t & P) & D). rewrite P. now apply (start_step es st w j t).
  - destruct P as (P1 & P2 & P3). assert (S := count_step es st w (EEnter j) j (depth w j + 1) I P3 P1 P2 ltac:(discriminate) ltac:(discriminate)).
    destruct S as (S1 & S2). unfold enter_signal. cbn [happens]. assert (T := i_thr _ _ _ I j). destruct (current st j) as [t|] eqn:C; [|eauto].
    assert (M : exists r, mem_ st t = Some r /\ in_signal_handler r = depth w j).
    { unfold ok_thread in T. destruct (phase_of w j) as [|u|u|u n|]; try (destruct T; congruence).
      - destruct T as (T1 & T2 & r & M & E1 & E2). exists r. split; congruence.
      - destruct (n <? libc_passes); [|destruct T as (_ & T & _); congruence]. destruct T as (T1 & T2 & r & M & E1 & E2). exists r. split; congruence. }
    destruct M as (r & M & E). unfold deref. rewrite M. cbn [bind]. eexists. split; [reflexivity|]. rewrite E, add_one by exact P3. now apply S1.
  - assert (D := i_depth _ _ _ I j). assert (T := i_thr _ _ _ I j).
    assert (P1 : phase_of w j <> Unborn) by (intros U; unfold ok_thread in T; rewrite U in T; destruct T as (_ & _ & T); lia).
    assert (P2 : phase_of w j <> Gone) by (intros U; unfold ok_thread in T; rewrite U in T; destruct T as (_ & _ & T); lia).
    assert (S := count_step es st w (ELeave j) j (depth w j - 1) I ltac:(lia) P1 P2 ltac:(discriminate) ltac:(discriminate)).
    destruct S as (S1 & S2). unfold leave_signal. cbn [happens]. destruct (current st j) as [t|] eqn:C; [|eauto].
    assert (M : exists r, mem_ st t = Some r /\ in_signal_handler r = depth w j).
    { unfold ok_thread in T. destruct (phase_of w j) as [|u|u|u n|]; try (destruct T; congruence).
      - destruct T as (T1 & T2 & r & M & E1 & E2). exists r. split; congruence.
      - destruct (n <? libc_passes); [|destruct T as (_ & T & _); congruence]. destruct T as (T1 & T2 & r & M & E1 & E2). exists r. split; congruence. }
    destruct M as (r & M & E). unfold deref. rewrite M. cbn [bind]. eexists. split; [reflexivity|]. rewrite E, sub_one by assumption. now apply S1.
  - destruct P as ((t & P) & D). cbn [happens]. rewrite P. eexists. split; [reflexivity|]. now apply exit_step.
  - destruct P as ((t & n & P & L) & D). cbn [happens]. rewrite P. now apply round_step.
  - destruct P as ((t & n & P & O) & D). cbn [happens]. eexists. split; [reflexivity|]. now apply (end_step es st w j t n).
Qed.

Lemma inv_start : inv [] start nobody.
Proof.
  constructor; cbn.
  - intros j. unfold ok_thread. cbn. auto.
  - reflexivity.
  - discriminate.
  - intros t. split; [congruence|]. intros [(j & H)|(r & a & l & [])]. discriminate.
  - discriminate.
  - intros j r a (t & l & []).
  - discriminate.
  - reflexivity.
  - intros j r a (t & l & []).
Qed.

Lemma history_inv es st w : history es st w -> inv es st w.
Proof.
  induction 1 as [|es st w e st' H IH P E]; [exact inv_start|]. destruct (step_inv es st w e IH P) as (st2 & E2 & I2).
  assert (st2 = st') as -> by congruence. exact I2.
Qed.
