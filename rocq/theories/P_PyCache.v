(** Proofs about the caches and ordered sets of polytracker/cache.py. *)
From Coq Require Import NArith List Bool Lia Sorted.
From Verif Require Import M_Base M_PyCache S_Cache.
Import ListNotations.
Open Scope N_scope.

Lemma filter_all {A} (f : A -> bool) l : (forall x, In x l -> f x = true) -> filter f l = l.
Proof.
  induction l as [|x l IH]; intro H; cbn; [reflexivity|]. rewrite H by (cbn; auto). f_equal. apply IH. intros; apply H; cbn; auto.
Qed.
Lemma filter_le {A} (f : A -> bool) l : (length (filter f l) <= length l)%nat.
Proof. induction l as [|x l IH]; cbn; [lia|]. destruct (f x); cbn; lia. Qed.

(** ** Ordered dictionaries *)
Section OD.
  Context {V : Type}.
  Implicit Types (l : odict V).
  Definition keys l : list N := map fst l.

  Lemma od_get_none l k : od_get l k = None <-> ~ In k (keys l).
  Proof.
    induction l as [|[x v] r IH]; cbn; [tauto|].
    destruct (N.eqb_spec x k) as [->|Q].
    - split; [discriminate|tauto].
    - rewrite IH; intuition.
  Qed.
  Lemma od_get_some_in l k : (exists v, od_get l k = Some v) <-> In k (keys l).
  Proof.
    destruct (od_get l k) eqn:E; split; intro H.
    - destruct (in_dec N.eq_dec k (keys l)) as [I|I]; [exact I|].
      apply od_get_none in I; congruence.
    - eauto.
    - destruct H; discriminate.
    - apply od_get_none in E; tauto.
  Qed.
  Lemma put_get l k v j : od_get (od_put l k v) j = if k =? j then Some v else od_get l j.
  Proof.
    induction l as [|[x w] r IH]; cbn; [reflexivity|].
    destruct (N.eqb_spec x k) as [->|Q]; cbn.
    - destruct (k =? j); reflexivity.
    - rewrite IH. destruct (N.eqb_spec x j) as [->|R]; [|reflexivity].
      destruct (N.eqb_spec k j); congruence.
  Qed.
  Lemma put_keys_in l k v : In k (keys l) -> keys (od_put l k v) = keys l.
  Proof.
    induction l as [|[x w] r IH]; cbn; [tauto|].
    destruct (N.eqb_spec x k) as [->|Q]; cbn; [reflexivity|].
    intros [H|H]; [congruence|]. f_equal. apply IH, H.
  Qed.
  Lemma put_keys_out l k v : ~ In k (keys l) -> keys (od_put l k v) = keys l ++ [k].
  Proof.
    induction l as [|[x w] r IH]; cbn; [reflexivity|].
    destruct (N.eqb_spec x k) as [->|Q]; cbn; [tauto|].
    intro H. f_equal. apply IH. tauto.
  Qed.
  Lemma del_keys l k : keys (od_del l k) = filter (fun x => negb (x =? k)) (keys l).
  Proof.
    induction l as [|[x w] r IH]; cbn; [reflexivity|].
    destruct (x =? k); cbn; [exact IH|f_equal; exact IH].
  Qed.
  Lemma del_get l k j : od_get (od_del l k) j = if k =? j then None else od_get l j.
  Proof.
    induction l as [|[x w] r IH]; cbn; [destruct (k =? j); reflexivity|].
    fold (od_del r k). destruct (N.eqb_spec x k) as [->|Q]; cbn.
    - rewrite IH. destruct (k =? j); reflexivity.
    - fold (od_del r k). rewrite IH. destruct (N.eqb_spec x j) as [->|R]; [|reflexivity].
      destruct (N.eqb_spec k j); congruence.
  Qed.
  Lemma get_app l m j : od_get (l ++ m) j = match od_get l j with Some v => Some v | None => od_get m j end.
  Proof.
    induction l as [|[x w] r IH]; cbn; [reflexivity|].
    destruct (x =? j); [reflexivity|exact IH].
  Qed.
  Lemma move_get l k j : od_get (od_move_to_end l k) j = od_get l j.
  Proof.
    unfold od_move_to_end. destruct (od_get l k) eqn:E; [|reflexivity].
    rewrite get_app, del_get. cbn. destruct (N.eqb_spec k j) as [<-|Q]; [congruence|].
    destruct (od_get l j); reflexivity.
  Qed.
  Lemma move_keys l k : In k (keys l) -> keys (od_move_to_end l k) = filter (fun x => negb (x =? k)) (keys l) ++ [k].
  Proof.
    intro H. apply od_get_some_in in H. destruct H as [v E]. unfold od_move_to_end. rewrite E.
    unfold keys at 1. rewrite map_app. f_equal. apply del_keys.
  Qed.
End OD.

Lemma evict_suffix m l : exists d, l = d ++ evict m l.
Proof.
  induction l as [|q r [d IH]]; [exists []; reflexivity|]. cbn [evict].
  destruct (m <? len (q :: r)); [|exists []; reflexivity].
  exists (q :: d). cbn. f_equal. exact IH.
Qed.
Lemma evict_le m l : len (evict m l) <= m.
Proof.
  induction l as [|q r IH]; [cbn; lia|]. cbn [evict].
  destruct (N.ltb_spec m (len (q :: r))) as [H|H]; [exact IH|exact H].
Qed.
Lemma evict_id m l : len l <= m -> evict m l = l.
Proof.
  destruct l as [|q r]; [reflexivity|]. intro H. cbn [evict].
  destruct (N.ltb_spec m (len (q :: r))); [lia|reflexivity].
Qed.
Lemma evict_len m l : len (evict m l) = N.min m (len l).
Proof.
  induction l as [|q r IH]; [cbn; lia|]. cbn [evict].
  destruct (N.ltb_spec m (len (q :: r))) as [H|H]; [|lia].
  rewrite IH. unfold len in *. cbn [length] in *. lia.
Qed.

(** ** Sorted lists of keys *)
Lemma sorted_app {A} (R : A -> A -> Prop) a b :
  StronglySorted R (a ++ b) <-> StronglySorted R a /\ StronglySorted R b /\ (forall x y, In x a -> In y b -> R x y).
Proof.
  induction a as [|x a IH]; cbn.
  - split; [|tauto]. intro H. split; [constructor|]. split; [exact H|]. intros ? ? [].
  - split.
    + intro H. inversion H as [|? ? H1 H2]; subst. apply IH in H1. destruct H1 as (S1 & S2 & S3).
      rewrite Forall_forall in H2. split.
      * constructor; [exact S1|]. apply Forall_forall. intros y Y. apply H2, in_or_app; auto.
      * split; [exact S2|]. intros y z [<-|Y] Z; [apply H2, in_or_app; auto|apply S3; auto].
    + intros (S1 & S2 & S3). inversion S1 as [|? ? H1 H2]; subst. constructor.
      * apply IH. split; [exact H1|]. split; [exact S2|]. intros; apply S3; auto.
      * apply Forall_app. split; [exact H2|]. apply Forall_forall. intros; apply S3; auto.
Qed.
Lemma sorted_filter {A} (R : A -> A -> Prop) f l : StronglySorted R l -> StronglySorted R (filter f l).
Proof.
  induction 1 as [|x r S IH F]; cbn; [constructor|]. destruct (f x); [|exact IH].
  constructor; [exact IH|]. rewrite Forall_forall in *. intros y Y. apply F. apply filter_In in Y. tauto.
Qed.
Lemma sorted_ext {A} (R Q : A -> A -> Prop) l :
  (forall x y, In x l -> In y l -> R x y -> Q x y) -> StronglySorted R l -> StronglySorted Q l.
Proof.
  intros H S. induction S as [|x r S IH F]; [constructor|]. constructor.
  - apply IH. intros a b A1 B1. apply H; cbn; auto.
  - rewrite Forall_forall in *. intros y Y. apply H; cbn; auto.
Qed.
Lemma sorted_nodup l (f : N -> nat) : StronglySorted (fun x y => (f x < f y)%nat) l -> NoDup l.
Proof.
  induction 1 as [|x r S IH F]; [constructor|]. constructor; [|exact IH].
  intro I. rewrite Forall_forall in F. apply F in I. lia.
Qed.

(** ** The cache *)
Section Lru.
  Variable m : option N.
  Notation here := (in_cache m).
  Definition items h := l_items (lru_run m h).
  Notation lu := (last_use here).

  Lemma run_max h : l_max (lru_run m h) = m.
  Proof.
    induction h as [|o h IH]; [reflexivity|]. cbn [lru_run fold_right].
    fold (lru_run m h). destruct o; cbn.
    - unfold lru_get. destruct (od_get _ _); exact IH.
    - exact IH.
    - unfold lru_del. destruct (od_get _ _); exact IH.
  Qed.
  Lemma here_in h k : here h k = true <-> In k (keys (items h)).
  Proof.
    rewrite <- od_get_some_in. unfold in_cache, lru_get, items. destruct (od_get _ _); split; intro H; eauto; try discriminate.
    destruct H; discriminate.
  Qed.
  Lemma here_out h k : here h k = false <-> ~ In k (keys (items h)).
  Proof. rewrite <- here_in. destruct (here h k); intuition congruence. Qed.
  Lemma lu_le h k : (lu h k <= length h)%nat.
  Proof.
    induction h as [|o h IH]; [cbn; lia|]. cbn [last_use length]. destruct (match o with LGet _ => _ | LSet _ _ => _ | LDel _ => _ end); lia.
  Qed.
  Definition R h (x y : N) := (lu h x < lu h y)%nat.

  Lemma items_cons o h : items (o :: h) = l_items (lru_step (lru_run m h) o).
  Proof. reflexivity. Qed.

  Theorem run_sorted h : StronglySorted (R h) (keys (items h)).
  Proof.
    induction h as [|o h IH]; [constructor|]. rewrite items_cons. destruct o as [k|k v|k]; cbn [lru_step].
    - unfold lru_get. fold (items h). destruct (od_get (items h) k) as [w|] eqn:E.
      + assert (I : In k (keys (items h))) by (apply od_get_some_in; eauto).
        assert (HK : here h k = true) by (apply here_in; exact I).
        cbn [snd l_items]. rewrite move_keys by exact I. apply sorted_app. split.
        * apply sorted_ext with (R := R h); [|apply sorted_filter, IH].
          intros x y X Y H. apply filter_In in X. apply filter_In in Y. unfold R in *. cbn [last_use].
          destruct X as [_ X], Y as [_ Y].
          rewrite (N.eqb_sym k x), (N.eqb_sym k y). destruct (x =? k); [discriminate|]. destruct (y =? k); [discriminate|]. exact H.
        * split; [repeat constructor|]. intros x y X [<-|[]]. apply filter_In in X. destruct X as [_ X].
          unfold R. cbn [last_use]. rewrite (N.eqb_sym k x). destruct (x =? k); [discriminate|]. cbn [andb].
          rewrite N.eqb_refl, HK. cbn [andb length]. pose proof (lu_le h x). lia.
      + cbn [snd]. apply sorted_ext with (R := R h); [|exact IH].
        intros x y X Y H. unfold R in *. cbn [last_use].
        assert (NK : forall z, In z (keys (items h)) -> (k =? z) = false).
        { intros z Z. apply N.eqb_neq. intros ->. apply od_get_none in E. tauto. }
        rewrite (NK x X), (NK y Y). exact H.
    - unfold lru_set. fold (items h). cbn [l_items].
      assert (P : StronglySorted (R (LSet k v :: h)) (keys (od_put (items h) k v))).
      { destruct (in_dec N.eq_dec k (keys (items h))) as [I|I].
        - rewrite put_keys_in by exact I. apply sorted_ext with (R := R h); [|exact IH].
          intros x y X Y H. unfold R in *. cbn [last_use].
          apply here_in in X, Y. rewrite X, Y, !andb_false_r. exact H.
        - rewrite put_keys_out by exact I. apply sorted_app. split.
          + apply sorted_ext with (R := R h); [|exact IH].
            intros x y X Y H. unfold R in *. cbn [last_use].
            apply here_in in X, Y. rewrite X, Y, !andb_false_r. exact H.
          + split; [repeat constructor|]. intros x y X [<-|[]]. unfold R. cbn [last_use].
            apply here_in in X. apply here_out in I. rewrite X, I, andb_false_r, N.eqb_refl. cbn [andb negb length].
            pose proof (lu_le h x). lia. }
      rewrite run_max. destruct m as [mm|]; [|exact P].
      destruct (evict_suffix mm (od_put (items h) k v)) as [d D].
      rewrite D in P. unfold keys in P. rewrite map_app in P. apply sorted_app in P. tauto.
    - unfold lru_del. fold (items h). destruct (od_get (items h) k) as [w|] eqn:E; cbn [snd l_items].
      + rewrite del_keys. exact (sorted_filter _ _ _ IH).
      + exact IH.
  Qed.

  Lemma run_nodup h : NoDup (keys (items h)).
  Proof. apply (sorted_nodup _ (lu h)). exact (run_sorted h). Qed.

  Lemma get_suffix (d l : odict N) k : NoDup (keys (d ++ l)) -> forall v, od_get l k = Some v -> od_get (d ++ l) k = Some v.
  Proof.
    intros ND v E. rewrite get_app. destruct (od_get d k) eqn:F; [|exact E].
    exfalso. unfold keys in ND. rewrite map_app in ND.
    assert (I1 : In k (keys d)) by (apply od_get_some_in; eauto).
    assert (I2 : In k (keys l)) by (apply od_get_some_in; eauto).
    revert ND I1 I2. clear. unfold keys. induction d as [|q d IH]; cbn; [tauto|].
    intros ND [Q|I] I2; inversion ND as [|? ? A B]; subst.
    - apply A, in_or_app; auto.
    - exact (IH B I I2).
  Qed.
  Lemma put_nodup (l : odict N) k v : NoDup (keys l) -> NoDup (keys (od_put l k v)).
  Proof.
    intro ND. destruct (in_dec N.eq_dec k (keys l)) as [I|I].
    - rewrite put_keys_in by exact I. exact ND.
    - rewrite put_keys_out by exact I. apply NoDup_rev in ND. rewrite <- (rev_involutive (keys l ++ [k])).
      apply NoDup_rev. rewrite rev_app_distr. cbn. constructor; [rewrite <- in_rev; exact I|exact ND].
  Qed.

  Lemma run_stored h k v : od_get (items h) k = Some v -> stored h k = Some v.
  Proof.
    revert v. induction h as [|o h IH]; intro v; [discriminate|]. rewrite items_cons.
    destruct o as [x|x w|x]; cbn [lru_step stored].
    - unfold lru_get. fold (items h). destruct (od_get (items h) x) eqn:E; cbn [snd l_items]; [rewrite move_get|]; apply IH.
    - unfold lru_set. fold (items h). cbn [l_items]. rewrite run_max. intro H.
      assert (H1 : od_get (od_put (items h) x w) k = Some v).
      { destruct m as [mm|]; [|exact H]. destruct (evict_suffix mm (od_put (items h) x w)) as [d D].
        rewrite D. apply get_suffix; [|exact H]. rewrite <- D. apply put_nodup, run_nodup. }
      rewrite put_get in H1. destruct (x =? k); [exact H1|apply IH, H1].
    - unfold lru_del. fold (items h). destruct (od_get (items h) x) eqn:E; cbn [snd l_items]; intro H.
      + rewrite del_get in H. destruct (x =? k); [discriminate|apply IH, H].
      + destruct (N.eqb_spec x k) as [->|Q]; [unfold items in *; congruence|apply IH, H].
  Qed.

  Lemma run_bounded h : match m with Some mm => lru_len (lru_run m h) <= mm | None => True end.
  Proof.
    destruct m as [mm|] eqn:EM; [|exact I]. rewrite <- EM. unfold lru_len.
    induction h as [|o h IH]; [cbn; lia|]. fold (items h) in IH. fold (items (o :: h)). rewrite items_cons.
    destruct o as [x|x w|x]; cbn [lru_step].
    - unfold lru_get. fold (items h). destruct (od_get (items h) x) eqn:E; cbn [snd l_items]; [|exact IH].
      assert (L : len (od_move_to_end (items h) x) = len (items h)).
      { pose proof (run_nodup h) as ND. revert ND.
        assert (I : In x (keys (items h))) by (apply od_get_some_in; eauto).
        unfold len. intro ND. f_equal.
        transitivity (length (keys (od_move_to_end (items h) x))); [unfold keys; rewrite map_length; reflexivity|].
        rewrite move_keys by exact I. rewrite app_length. cbn.
        transitivity (length (keys (items h))); [|unfold keys; rewrite map_length; reflexivity].
        revert ND I. generalize (keys (items h)). clear. induction l as [|y l IH]; cbn; [tauto|].
        intros ND [->|I]; inversion ND as [|? ? A B]; subst.
        - rewrite N.eqb_refl. cbn. rewrite PeanoNat.Nat.add_1_r. f_equal.
          rewrite filter_all; [reflexivity|]. intros z Z. destruct (N.eqb_spec z x); [congruence|reflexivity].
        - destruct (N.eqb_spec y x) as [->|Q]; [tauto|]. cbn. f_equal. exact (IH B I). }
      lia.
    - unfold lru_set. cbn [l_items]. rewrite run_max, EM. apply evict_le.
    - unfold lru_del. fold (items h). destruct (od_get (items h) x) eqn:E; cbn [snd l_items]; [|exact IH].
      unfold od_del, len in *. pose proof (filter_le (fun q : N * N => negb (fst q =? x)) (items h)). lia.
  Qed.
  (** *** Nothing is lost while the keys fit *)
  Lemma run_keys_stored h : incl (keys (items h)) (keys_stored h).
  Proof.
    intros k I. apply od_get_some_in in I. destruct I as [v E]. apply run_stored in E.
    unfold keys_stored. apply nodup_In. clear - E. induction h as [|o h IH]; [discriminate|].
    cbn [flat_map]. apply in_or_app. destruct o as [x|x w|x]; cbn [stored] in E.
    - right; auto.
    - destruct (N.eqb_spec x k) as [->|Q]; [left; cbn; auto|right; auto].
    - destruct (x =? k); [discriminate|right; auto].
  Qed.
  Lemma keys_stored_mono o h : (length (keys_stored h) <= length (keys_stored (o :: h)))%nat.
  Proof.
    apply NoDup_incl_length; [apply NoDup_nodup|]. intros k I. unfold keys_stored in *.
    apply nodup_In in I. apply nodup_In. cbn [flat_map]. apply in_or_app; auto.
  Qed.
  Lemma run_all h k : (match m with Some mm => len (keys_stored h) <= mm | None => True end) ->
    od_get (items h) k = stored h k.
  Proof.
    revert k. induction h as [|o h IH]; intros k B; [reflexivity|].
    assert (IH' : forall j, od_get (items h) j = stored h j).
    { intro j. apply IH. destruct m as [mm|]; [|exact I]. pose proof (keys_stored_mono o h). unfold len in *. lia. }
    clear IH. rewrite items_cons. destruct o as [x|x w|x]; cbn [lru_step stored].
    - unfold lru_get. fold (items h). destruct (od_get (items h) x) eqn:E; cbn [snd l_items]; [rewrite move_get|]; apply IH'.
    - unfold lru_set. fold (items h). cbn [l_items]. rewrite run_max.
      assert (P : od_get (od_put (items h) x w) k = (if x =? k then Some w else stored h k)).
      { rewrite put_get. rewrite IH'. reflexivity. }
      destruct m as [mm|] eqn:EM; [|exact P]. rewrite evict_id; [exact P|].
      assert (L : (length (od_put (items h) x w) <= length (keys_stored (LSet x w :: h)))%nat).
      { transitivity (length (keys (od_put (items h) x w))); [unfold keys; rewrite map_length; lia|].
        apply NoDup_incl_length; [apply put_nodup, run_nodup|]. intros j J.
        apply od_get_some_in in J. destruct J as [u J]. rewrite put_get in J. unfold keys_stored. apply nodup_In.
        cbn [flat_map app]. destruct (N.eqb_spec x j) as [->|Q]; [left; reflexivity|]. right.
        assert (K : In j (keys (items h))) by (apply od_get_some_in; eauto).
        apply run_keys_stored in K. unfold keys_stored in K. apply nodup_In in K. exact K. }
      unfold len in *. lia.
    - unfold lru_del. fold (items h). destruct (od_get (items h) x) eqn:E; cbn [snd l_items].
      + rewrite del_get. rewrite IH'. reflexivity.
      + fold (items h). destruct (N.eqb_spec x k) as [->|Q]; [exact E|apply IH'].
  Qed.

  (** *** What is evicted *)
  Lemma set_here h k v j : here (LSet k v :: h) j = true -> j <> k -> here h j = true.
  Proof.
    intros H Q. apply here_in in H. rewrite items_cons in H. cbn [lru_step] in H. unfold lru_set in H. cbn [l_items] in H.
    rewrite run_max in H. fold (items h) in H.
    assert (H1 : In j (keys (od_put (items h) k v))).
    { destruct m as [mm|]; [|exact H]. destruct (evict_suffix mm (od_put (items h) k v)) as [d D].
      rewrite D. unfold keys. rewrite map_app. apply in_or_app. right. exact H. }
    apply here_in. apply od_get_some_in in H1. destruct H1 as [u U]. rewrite put_get in U.
    apply od_get_some_in. destruct (N.eqb_spec k j); [congruence|]. eauto.
  Qed.
  Lemma run_evicts h k v k0 k1 : here h k0 = true -> here (LSet k v :: h) k0 = false -> k1 <> k ->
    here (LSet k v :: h) k1 = true -> (lu h k0 < lu h k1)%nat.
  Proof.
    intros H0 G0 Q1 G1. pose proof (set_here _ _ _ _ G1 Q1) as H1.
    apply here_in in H0, G1, H1. apply here_out in G0. rewrite items_cons in G0, G1. cbn [lru_step] in G0, G1.
    unfold lru_set in *. cbn [l_items] in *. rewrite run_max in *. fold (items h) in *.
    assert (P : StronglySorted (R (LSet k v :: h)) (keys (od_put (items h) k v))).
    { pose proof (run_sorted h) as IH. destruct (in_dec N.eq_dec k (keys (items h))) as [I|I].
      - rewrite put_keys_in by exact I. apply sorted_ext with (R := R h); [|exact IH].
        intros x y X Y H. unfold R in *. cbn [last_use].
        apply here_in in X, Y. rewrite X, Y, !andb_false_r. exact H.
      - rewrite put_keys_out by exact I. apply sorted_app. split.
        + apply sorted_ext with (R := R h); [|exact IH].
          intros x y X Y H. unfold R in *. cbn [last_use].
          apply here_in in X, Y. rewrite X, Y, !andb_false_r. exact H.
        + split; [repeat constructor|]. intros x y X [<-|[]]. unfold R. cbn [last_use].
          apply here_in in X. apply here_out in I. rewrite X, I, andb_false_r, N.eqb_refl. cbn [andb negb length].
          pose proof (lu_le h x). lia. }
    assert (I0 : In k0 (keys (od_put (items h) k v))).
    { apply od_get_some_in. rewrite put_get. destruct (k =? k0); [eauto|]. apply od_get_some_in in H0. exact H0. }
    destruct m as [mm|] eqn:EM; [|tauto].
    destruct (evict_suffix mm (od_put (items h) k v)) as [d D].
    rewrite D in P, I0. unfold keys in P, I0. rewrite map_app in P, I0. apply sorted_app in P. destruct P as (_ & _ & P).
    apply in_app_or in I0. destruct I0 as [I0|I0]; [|unfold keys in G0; tauto].
    specialize (P k0 k1 I0 G1). unfold R in P. cbn [last_use] in P.
    rewrite <- EM. apply here_in in H0, H1. rewrite H0, H1, !andb_false_r in P. exact P.
  Qed.
  Lemma run_set_len h k v : here h k = false ->
    lru_len (lru_run m (LSet k v :: h)) =
    match m with Some mm => N.min mm (lru_len (lru_run m h) + 1) | None => lru_len (lru_run m h) + 1 end.
  Proof.
    intro H. apply here_out in H. unfold lru_len. fold (items (LSet k v :: h)). fold (items h). rewrite items_cons.
    cbn [lru_step]. unfold lru_set. cbn [l_items]. rewrite run_max. fold (items h).
    assert (L : len (od_put (items h) k v) = len (items h) + 1).
    { pose proof (put_keys_out (items h) k v H) as E. apply (f_equal (@length N)) in E. unfold keys in E.
      rewrite app_length, !map_length in E. cbn in E. unfold len. lia. }
    destruct m as [mm|]; [|exact L]. rewrite evict_len, L. reflexivity.
  Qed.
  Lemma run_set_here h k v : m <> Some 0 -> here h k = false -> here (LSet k v :: h) k = true.
  Proof.
    intros Z H. apply here_out in H. apply here_in. rewrite items_cons. cbn [lru_step]. unfold lru_set. cbn [l_items].
    rewrite run_max. fold (items h).
    pose proof (put_keys_out (items h) k v H) as E.
    destruct m as [mm|] eqn:EM; [|rewrite E; apply in_or_app; cbn; auto].
    destruct (evict_suffix mm (od_put (items h) k v)) as [d D].
    pose proof (evict_len mm (od_put (items h) k v)) as L.
    destruct (evict mm (od_put (items h) k v)) as [|q r] eqn:EV.
    - exfalso. apply (f_equal (@length N)) in E. unfold keys in E. rewrite app_length, !map_length in E. cbn in E.
      unfold len in L. rewrite E in L. cbn in L. assert (mm <> 0) by congruence. lia.
    - rewrite D in E. unfold keys in E. rewrite map_app in E. fold (keys (q :: r)) in E.
      assert (X : exists r' z, keys (q :: r) = r' ++ [z]).
      { destruct (exists_last (l := keys (q :: r))) as (r' & z & Q); [discriminate|]. eauto. }
      destruct X as (r' & z & X). rewrite X in E |- *. rewrite app_assoc in E. apply app_inj_tail in E.
      destruct E as [_ ->]. apply in_or_app; cbn; auto.
  Qed.
End Lru.

(** ** Iteration *)
Lemma move_front (k v : N) (r : odict N) : ~ In k (keys r) -> od_move_to_end ((k, v) :: r) k = r ++ [(k, v)].
Proof.
  intro H. unfold od_move_to_end. cbn. rewrite !N.eqb_refl. cbn. f_equal.
  apply filter_all. intros q Q. destruct (N.eqb_spec (fst q) k) as [E|E]; [|reflexivity].
  exfalso. apply H. rewrite <- E. apply in_map, Q.
Qed.
Lemma find_first (y : list N) (r d : odict N) : (forall k, In k y <-> In k (keys d)) -> NoDup (keys (r ++ d)) ->
  find (fun q => negb (existsb (N.eqb (fst q)) y)) (r ++ d) = hd_error r.
Proof.
  intros Y ND. destruct r as [|q r]; cbn.
  - destruct (find _ d) as [q|] eqn:F; [|reflexivity]. exfalso. apply find_some in F. destruct F as [I F].
    apply negb_true_iff in F. assert (T : existsb (N.eqb (fst q)) y = true); [|congruence].
    apply existsb_exists. exists (fst q). split; [apply Y, in_map, I|apply N.eqb_refl].
  - destruct (existsb (N.eqb (fst q)) y) eqn:E; [|reflexivity]. exfalso. apply existsb_exists in E.
    destruct E as (z & Z & E). apply N.eqb_eq in E. subst z. apply Y in Z.
    unfold keys in ND. cbn in ND. inversion ND as [|? ? A B]; subst. apply A. rewrite map_app. apply in_or_app. right. exact Z.
Qed.
Lemma iter_spec mx : forall (r d : odict N) y fuel, (forall k, In k y <-> In k (keys d)) -> NoDup (keys (r ++ d)) ->
  (length r < fuel)%nat -> lru_iter fuel (mkLru (r ++ d) mx) y = Ok (keys r, mkLru (d ++ r) mx).
Proof.
  induction r as [|[k v] r IH]; intros d y fuel Y ND F; (destruct fuel as [|fuel]; [cbn in F; lia|]); cbn [lru_iter l_items l_max].
  - rewrite (find_first y [] d Y ND). cbn. rewrite app_nil_r. reflexivity.
  - rewrite (find_first y ((k, v) :: r) d Y ND). cbn [hd_error app].
    unfold keys in ND. cbn in ND. inversion ND as [|? ? A B]; subst.
    rewrite move_front by exact A. rewrite <- app_assoc.
    rewrite (IH (d ++ [(k, v)]) (k :: y) fuel).
    + cbn. rewrite <- app_assoc. reflexivity.
    + intro j. cbn. unfold keys. rewrite map_app, in_app_iff. cbn. rewrite Y. unfold keys. tauto.
    + rewrite app_assoc. unfold keys. rewrite map_app. cbn.
      rewrite <- (rev_involutive (map fst (r ++ d) ++ [k])). apply NoDup_rev. rewrite rev_app_distr. cbn.
      constructor; [rewrite <- in_rev; exact A|apply NoDup_rev, B].
    + cbn in F. lia.
Qed.
Lemma run_iter m h fuel : (length (items m h) < fuel)%nat ->
  lru_iter fuel (lru_run m h) [] = Ok (keys (items m h), lru_run m h).
Proof.
  intro F. pose proof (run_nodup m h) as ND.
  pose proof (iter_spec m (items m h) [] [] fuel) as I. rewrite app_nil_r in I. cbn [app] in I.
  replace (lru_run m h) with (mkLru (items m h) m).
  - apply I; [cbn; tauto|exact ND|exact F].
  - unfold items. rewrite <- (run_max m h) at 2. destruct (lru_run m h); reflexivity.
Qed.

(** ** Ordered sets *)
Lemma self_keys s : map fst (map (fun y : N => (y, y)) s) = s.
Proof. rewrite map_map. apply map_id. Qed.
Lemma oset_add_in s x : In x s -> oset_add s x = s.
Proof. intro I. unfold oset_add. change (map fst) with (@keys N). rewrite put_keys_in; unfold keys; rewrite self_keys; auto. Qed.
Lemma oset_add_out s x : ~ In x s -> oset_add s x = s ++ [x].
Proof. intro I. unfold oset_add. change (map fst) with (@keys N). rewrite put_keys_out; unfold keys; rewrite self_keys; auto. Qed.
Lemma oset_contains_in s x : oset_contains s x = true <-> In x s.
Proof.
  unfold oset_contains. rewrite <- (self_keys s) at 2. fold (keys (map (fun y : N => (y, y)) s)). rewrite <- od_get_some_in.
  destruct (od_get _ _); split; intro H; eauto; try discriminate. destruct H; discriminate.
Qed.
Lemma oset_discard_eq s x : oset_discard s x = filter (fun y => negb (y =? x)) s.
Proof.
  unfold oset_discard. destruct (existsb (N.eqb x) s) eqn:E.
  - change (map fst) with (@keys N). rewrite del_keys. unfold keys. rewrite self_keys. reflexivity.
  - symmetry. apply filter_all. intros y Y. destruct (N.eqb_spec y x) as [->|Q]; [|reflexivity].
    assert (T : existsb (N.eqb x) s = true); [|congruence]. apply existsb_exists. exists x. split; [exact Y|apply N.eqb_refl].
Qed.
Lemma came_in_le h x : (came_in h x <= length h)%nat.
Proof. induction h as [|[y|y] h IH]; cbn; [lia| |lia]. destruct ((y =? x) && negb (is_member h x)); lia. Qed.
Lemma oset_run_in h x : In x (oset_run h) <-> is_member h x = true.
Proof.
  induction h as [|[y|y] h IH]; cbn [oset_run fold_right oset_step is_member]; try fold (oset_run h).
  - split; [intros []|discriminate].
  - destruct (in_dec N.eq_dec y (oset_run h)) as [I|I].
    + rewrite oset_add_in by exact I. rewrite IH. destruct (N.eqb_spec y x) as [->|Q]; [|tauto].
      apply IH in I. tauto.
    + rewrite oset_add_out by exact I. rewrite in_app_iff, IH. cbn. destruct (N.eqb_spec y x) as [->|Q]; [tauto|]. tauto.
  - rewrite oset_discard_eq, filter_In, IH. rewrite (N.eqb_sym y x). destruct (x =? y); cbn; intuition congruence.
Qed.
Lemma oset_run_sorted h : StronglySorted (fun x y => (came_in h x < came_in h y)%nat) (oset_run h).
Proof.
  induction h as [|[z|z] h IH]; cbn [oset_run fold_right oset_step]; try fold (oset_run h).
  - constructor.
  - assert (P : StronglySorted (fun x y => (came_in (SAdd z :: h) x < came_in (SAdd z :: h) y)%nat) (oset_run h)).
    { apply (fun H => sorted_ext _ _ _ H IH). intros x y X Y L. apply oset_run_in in X, Y. cbn [came_in].
      rewrite X, Y, !andb_false_r. exact L. }
    destruct (in_dec N.eq_dec z (oset_run h)) as [I|I].
    + rewrite oset_add_in by exact I. exact P.
    + rewrite oset_add_out by exact I. apply sorted_app. split; [exact P|]. split; [repeat constructor|].
      intros x y X [<-|[]]. apply oset_run_in in X. cbn [came_in]. rewrite X, andb_false_r, N.eqb_refl.
      destruct (is_member h z) eqn:E; [apply oset_run_in in E; tauto|]. cbn [andb negb length]. pose proof (came_in_le h x). lia.
  - rewrite oset_discard_eq. exact (sorted_filter _ _ _ IH).
Qed.
Lemma oset_ior_run h other : oset_ior (oset_run h) other = oset_run (rev (map SAdd other) ++ h).
Proof.
  revert h. induction other as [|x r IH]; intro h; [reflexivity|]. cbn [oset_ior fold_left].
  change (oset_add (oset_run h) x) with (oset_run (SAdd x :: h)). unfold oset_ior in IH. rewrite IH.
  cbn [map rev]. rewrite <- app_assoc. reflexivity.
Qed.

Lemma run_get m h k : fst (lru_get (lru_run m h) k) = od_get (items m h) k.
Proof. unfold lru_get, items. destruct (od_get _ _); reflexivity. Qed.
Lemma run_iter_ok m h fuel ks c : lru_iter fuel (lru_run m h) [] = Ok (ks, c) -> (length (items m h) < fuel)%nat ->
  ks = keys (items m h) /\ c = lru_run m h.
Proof. intros E F. rewrite run_iter in E by exact F. inversion E. auto. Qed.

Lemma discard_foreign s it : ~ In it s -> oset_iand s it = s.
Proof.
  intro H. unfold oset_iand, oset_operator, oset_new. cbn [fold_left].
  rewrite oset_add_out by (intros []). cbn. rewrite oset_discard_eq. apply filter_all. intros x X.
  destruct (N.eqb_spec x it); [congruence|reflexivity].
Qed.
