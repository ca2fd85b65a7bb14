(** C79: what a bounded cache forgets.  C80: ordered sets. *)
From Coq Require Import NArith List Bool Sorted.
From Verif Require Import M_Base M_PyCache S_Cache P_PyCache.
Import ListNotations.
Open Scope N_scope.

(** After every history of reads, stores and deletions, [m] being the capacity (None: unlimited):
    the capacity is not exceeded, and what is read is what was stored last. *)
Theorem C79_values : forall (m : option N) (h : list lru_op),
  match m with Some n => lru_len (lru_run m h) <= n | None => True end /\
  (forall k v, fst (lru_get (lru_run m h) k) = Some v -> stored h k = Some v).
Proof.
  intros m h. split; [exact (run_bounded m h)|]. intros k v E. rewrite run_get in E. exact (run_stored m h k v E).
Qed.
Print Assumptions C79_values.

(** As long as no more keys than the capacity were ever stored, the cache forgets nothing. *)
Theorem C79_complete : forall (m : option N) (h : list lru_op),
  match m with Some n => len (keys_stored h) <= n | None => True end ->
  forall k, fst (lru_get (lru_run m h) k) = stored h k.
Proof. intros m h B k. rewrite run_get. exact (run_all m h k B). Qed.
Print Assumptions C79_complete.

(** When a new key is stored, it is there afterwards (unless the capacity is 0), only one key makes
    room for it, and only if the cache was full; every other key that stays was used more recently
    than the one that goes. *)
Theorem C79_evicts : forall (m : option N) (h : list lru_op) (k v : N),
  in_cache m h k = false ->
  (m <> Some 0 -> in_cache m (LSet k v :: h) k = true) /\
  lru_len (lru_run m (LSet k v :: h)) =
    match m with Some n => N.min n (lru_len (lru_run m h) + 1) | None => lru_len (lru_run m h) + 1 end /\
  (forall gone stays,
     in_cache m h gone = true -> in_cache m (LSet k v :: h) gone = false ->
     stays <> k -> in_cache m (LSet k v :: h) stays = true ->
     (last_use (in_cache m) h gone < last_use (in_cache m) h stays)%nat).
Proof.
  intros m h k v H. split; [intro Z; exact (run_set_here m h k v Z H)|]. split; [exact (run_set_len m h k v H)|].
  intros a b A A' B B'. exact (run_evicts m h k v a b A A' B B').
Qed.
Print Assumptions C79_evicts.

Definition a_history : list lru_op := [LGet 1; LSet 2 20; LSet 1 10].
Example C79_case :
  map (in_cache (Some 2) a_history) [1; 2; 3] = [true; true; false] /\
  map (in_cache (Some 2) (LSet 3 30 :: a_history)) [1; 2; 3] = [true; false; true] /\
  map (last_use (in_cache (Some 2)) a_history) [1; 2] = [3; 2]%nat /\
  keys_stored a_history = [2; 1].
Proof. vm_compute. auto. Qed.

(** The full statement counts every store as a use of its key.  It is false: a store to a key that
    is there already does not count, so the key stored last can go first. *)
Theorem C79_update_refuted : ~ (forall (n : N) (h : list lru_op) (k v j w : N),
  1 < n -> k <> j -> in_cache (Some n) (LSet j w :: h) j = true ->
  in_cache (Some n) (LSet k v :: LSet j w :: h) j = true).
Proof.
  intro H. specialize (H 2 [LSet 2 20; LSet 1 10] 3 30 1 11 eq_refl ltac:(discriminate) eq_refl).
  vm_compute in H. discriminate H.
Qed.
Print Assumptions C79_update_refuted.

(** A loop over the cache yields every key once, from the least to the most recently used, and
    leaves the cache as it was. *)
Theorem C79_iteration : forall (m : option N) (h : list lru_op),
  exists ks enough,
    (forall k, In k ks <-> in_cache m h k = true) /\ NoDup ks /\
    StronglySorted (fun a b => (last_use (in_cache m) h a < last_use (in_cache m) h b)%nat) ks /\
    forall fuel, (enough < fuel)%nat -> lru_iter fuel (lru_run m h) [] = Ok (ks, lru_run m h).
Proof.
  intros m h. exists (keys (items m h)), (length (items m h)).
  split; [intro k; symmetry; apply here_in|]. split; [apply run_nodup|]. split; [exact (run_sorted m h)|].
  exact (run_iter m h).
Qed.
Print Assumptions C79_iteration.

(** ** C80 *)
(** After every history of additions and removals: the members are the items added and not removed
    since, and a loop yields each once, in the order in which they came in. *)
Theorem C80_members : forall h : list oset_op,
  (forall x, oset_contains (oset_run h) x = is_member h x) /\
  NoDup (oset_run h) /\
  (forall x, In x (oset_run h) <-> is_member h x = true) /\
  StronglySorted (fun x y => (came_in h x < came_in h y)%nat) (oset_run h).
Proof.
  intro h. split.
  - intro x. pose proof (oset_contains_in (oset_run h) x) as A. pose proof (oset_run_in h x) as B.
    destruct (oset_contains (oset_run h) x), (is_member h x); intuition congruence.
  - split; [exact (sorted_nodup _ _ (oset_run_sorted h))|]. split; [exact (oset_run_in h)|exact (oset_run_sorted h)].
Qed.
Print Assumptions C80_members.

(** [s |= other] adds the members of [other]. *)
Theorem C80_union_in_place : forall (h : list oset_op) (other : list N) (x : N),
  In x (oset_ior (oset_run h) other) <-> In x (oset_run h) \/ In x other.
Proof.
  intros h other x. rewrite oset_ior_run, !oset_run_in. induction other as [|y r IH] using rev_ind; [cbn; tauto|].
  rewrite map_app, rev_app_distr. cbn [rev map app is_member]. rewrite in_app_iff. cbn [In].
  destruct (N.eqb_spec y x) as [->|Q]; [tauto|]. rewrite IH. tauto.
Qed.
Print Assumptions C80_union_in_place.

(** [s |= t] is right, but [s & t], [s | t] and [s - t] are the same set, of one item that is in
    neither operand, whatever the operands; and [s &= t] does nothing. *)
Theorem C80_operators_refuted : forall (s : oset) (it : N), ~ In it s ->
  oset_operator it = [it] /\ oset_iand s it = s.
Proof. intros s it H. split; [reflexivity|exact (discard_foreign s it H)]. Qed.
Print Assumptions C80_operators_refuted.

Example C80_case :
  oset_run [SAdd 5; SAdd 7; SDiscard 5; SAdd 7; SAdd 5] = [7; 5] /\ oset_ior [7; 5] [5; 6] = [7; 5; 6] /\
  oset_iand [7; 5] 99 = [7; 5] /\ oset_operator 99 = [99].
Proof. vm_compute. auto. Qed.
