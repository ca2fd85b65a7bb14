From Coq Require Import NArith List Bool Lia.
From Verif Require Import M_Base M_Memory P_Base.
Import ListNotations.
Open Scope N_scope.

Lemma len_load m a n : len (load m a n) = n.
Proof. unfold load, len. rewrite map_length, nseq_length. lia. Qed.

Lemma load_ext m m' a n : (forall x, a <= x -> x < a + n -> m x = m' x) -> load m a n = load m' a n.
Proof.
  intros H. unfold load. apply map_ext_in. intros x Hx. apply in_nseq in Hx. apply H; lia.
Qed.

Lemma load_0 m a : load m a 0 = [].
Proof. reflexivity. Qed.

Lemma load_app m a n k : load m a (n + k) = load m a n ++ load m (a + n) k.
Proof.
  unfold load. rewrite N2Nat.inj_add, nseq_app, map_app. rewrite N2Nat.id. reflexivity.
Qed.

Lemma get_load m a n i : i < n -> get (load m a n) i = Some (m (a + i)).
Proof.
  intros H. unfold load, get. rewrite nth_error_map.
  change (nth_error (nseq a (N.to_nat n)) (N.to_nat i)) with (get (nseq a (N.to_nat n)) i).
  rewrite get_nseq by lia. reflexivity.
Qed.

Lemma store_other m a bs x : x < a \/ a + len bs <= x -> store m a bs x = m x.
Proof.
  intros H. unfold store. destruct (N.leb_spec a x), (N.ltb_spec x (a + len bs)); cbn; auto; lia.
Qed.

Lemma store_same m a bs i v : get bs i = Some v -> store m a bs (a + i) = v.
Proof.
  intros H. assert (L : i < len bs) by (now apply get_some in H).
  unfold store. destruct (N.leb_spec a (a + i)), (N.ltb_spec (a + i) (a + len bs)); cbn; try lia.
  replace (a + i - a) with i by lia. unfold get in H. now apply nth_error_nth.
Qed.

Lemma load_store m a bs : load (store m a bs) a (len bs) = bs.
Proof.
  apply list_ext. intros i. destruct (get bs i) as [v|] eqn:E.
  - assert (L := get_some _ _ _ E). rewrite get_load by assumption. now rewrite (store_same _ _ _ _ _ E).
  - apply get_none. rewrite len_load. now apply get_none.
Qed.

Lemma load_store_other m a bs b n : b + n <= a \/ a + len bs <= b -> load (store m a bs) b n = load m b n.
Proof. intros H. apply load_ext. intros x X1 X2. apply store_other. lia. Qed.

Lemma load_int_ext m m' a k : (forall x, a <= x -> x < a + N.of_nat k -> m x = m' x) ->
  load_int m a k = load_int m' a k.
Proof. intros H. unfold load_int. f_equal. now apply load_ext. Qed.

Lemma len_le_bytes k v : len (le_bytes k v) = N.of_nat k.
Proof. unfold len. now rewrite le_bytes_length. Qed.

Lemma load_int_store m a k v : v < two8 ^ N.of_nat k -> load_int (store_int m a k v) a k = v.
Proof.
  intros H. unfold load_int, store_int. rewrite <- (len_le_bytes k v), load_store. now apply le_round.
Qed.

(** Loading a part of a region whose content is known. *)
Lemma load_sub m a n o k : o + k <= n ->
  load m (a + o) k = firstn (N.to_nat k) (skipn (N.to_nat o) (load m a n)).
Proof.
  intros H. replace n with (o + (k + (n - o - k))) by lia. rewrite !load_app.
  rewrite skipn_app. rewrite skipn_all2.
  2: { assert (L := len_load m a o). unfold len in L. lia. }
  cbn [app]. replace (N.to_nat o - length (load m a o))%nat with O.
  2: { assert (L := len_load m a o). unfold len in L. lia. }
  cbn [skipn]. rewrite firstn_app.
  assert (L := len_load m (a + o) k). unfold len in L.
  replace (N.to_nat k - length (load m (a + o) k))%nat with O by lia.
  cbn [firstn]. rewrite app_nil_r. symmetry. apply firstn_all2. lia.
Qed.
