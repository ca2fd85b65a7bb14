From Coq Require Import Arith NArith List Bool Lia Sorted.
From Verif Require Import M_Base M_Memory M_Section M_Sources M_PySections M_Bitmap S_Section S_Bitmap
  P_Base P_Memory P_Section P_PyBase.
Import ListNotations.
Open Scope N_scope.

(** ** Words *)
Lemma le_val_bound bs : Forall (fun b => b < two8) bs -> le_val bs < two8 ^ len bs.
Proof.
  induction 1 as [|b bs B _ IH]; [reflexivity|]. cbn [le_val]. rewrite len_cons, N.pow_add_r, N.pow_1_r.
  unfold two8 in *. nia.
Qed.

Definition all_bytes (m : mem) : Prop := forall a, m a < two8.
Lemma all_bytes_load m a n : all_bytes m -> Forall (fun b => b < two8) (load m a n).
Proof. intros H. apply Forall_forall. intros b I. apply in_map_iff in I as (x & <- & _). apply H. Qed.
Lemma all_bytes_store m a bs : all_bytes m -> Forall (fun b => b < two8) bs -> all_bytes (store m a bs).
Proof.
  intros H B x. unfold store. destruct ((a <=? x) && (x <? a + len bs)) eqn:E; [|apply H].
  apply andb_prop in E as [E1 E2]. apply N.leb_le in E1. apply N.ltb_lt in E2.
  rewrite Forall_forall in B. apply B. apply nth_In. unfold len in E2. lia.
Qed.
Lemma all_bytes_store_int m a k v : all_bytes m -> all_bytes (store_int m a k v).
Proof. intros H. apply all_bytes_store; auto. apply le_bytes_byte. Qed.

Lemma load_int_bound m a k : all_bytes m -> load_int m a k < two8 ^ N.of_nat k.
Proof.
  intros H. unfold load_int. eapply N.lt_le_trans; [apply le_val_bound; now apply all_bytes_load|].
  rewrite len_load. lia.
Qed.

Lemma bucket_store m s i j v : v < two64 ->
  bucket_value (store_int m (bucket_addr s i) 8 v) s j = if i =? j then v else bucket_value m s j.
Proof.
  intros V. unfold bucket_value. destruct (N.eqb_spec i j) as [->|E].
  - apply load_int_store. exact V.
  - apply load_int_ext. intros x X1 X2. unfold store_int. apply store_other. rewrite len_le_bytes.
    unfold bucket_addr in *. lia.
Qed.

Lemma bucket_bound m s i : all_bytes m -> bucket_value m s i < two64.
Proof. intros H. unfold bucket_value. pose proof (load_int_bound m (bucket_addr s i) 8 H). exact H0. Qed.

Definition mbit (m : mem) (s : bitmap) (i : N) : bool := N.testbit (bucket_value m s (i / 64)) (i mod 64).

Definition in_range (lo hi i : N) : bool := (lo <=? i) && (i <? hi).

(** A memory update that sets exactly the bits of an interval and writes only buckets
    [k0, k1). *)
Definition sets (m m' : mem) (s : bitmap) (lo hi k0 k1 : N) : Prop :=
  all_bytes m' /\ (forall i, mbit m' s i = mbit m s i || in_range lo hi i) /\
  (forall a, a < bucket_addr s k0 \/ bucket_addr s k1 <= a -> m' a = m a).

Lemma lor_land_same a b : N.land a b = b -> N.lor a b = a.
Proof.
  intros H. apply N.bits_inj. intros i. rewrite N.lor_spec. apply (f_equal (fun x => N.testbit x i)) in H.
  rewrite N.land_spec in H. destruct (N.testbit a i), (N.testbit b i); auto.
Qed.

Lemma lor_bound a b : a < two64 -> b < two64 -> N.lor a b < two64.
Proof.
  intros A B. destruct (N.eqb_spec (N.lor a b) 0) as [->|E]; [reflexivity|].
  change two64 with (2 ^ 64). apply N.log2_lt_pow2; [lia|]. rewrite N.log2_lor.
  apply N.max_lub_lt.
  - destruct (N.eqb_spec a 0) as [->|Ea]; [reflexivity|]. apply N.log2_lt_pow2; [lia|exact A].
  - destruct (N.eqb_spec b 0) as [->|Eb]; [reflexivity|]. apply N.log2_lt_pow2; [lia|exact B].
Qed.

Lemma set_bits_spec m s k mask lo hi : all_bytes m -> mask < two64 ->
  (forall j, j < 64 -> N.testbit mask j = in_range lo hi (64 * k + j)) ->
  64 * k <= lo -> hi <= 64 * (k + 1) ->
  sets m (snd (set_bits m s k mask)) s lo hi k (k + 1) /\
  (fst (set_bits m s k mask) = true <-> (forall i, lo <= i -> i < hi -> mbit m s i = true)).
Proof.
  intros B M T L H. unfold set_bits. set (old := bucket_value m s k).
  assert (OB : old < two64) by now apply bucket_bound.
  assert (Dm : forall i, i = 64 * (i / 64) + i mod 64 /\ i mod 64 < 64).
  { intros i. split; [apply N.div_mod; lia|apply N.mod_lt; lia]. }
  assert (Out : forall i, i / 64 <> k -> in_range lo hi i = false).
  { intros i Hi. unfold in_range. destruct (Dm i). destruct (N.leb_spec lo i), (N.ltb_spec i hi); cbn; auto.
    exfalso. apply Hi. assert (i / 64 = k) by (symmetry; apply N.div_unique with (i - 64 * k); lia). auto. }
  destruct (N.eqb_spec (N.land old mask) mask) as [E|E]; cbn [fst snd].
  - split.
    + split; [exact B|]. split; [|auto]. intros i. unfold mbit.
      destruct (N.eqb_spec (i / 64) k) as [Ek|Ek].
      * destruct (Dm i) as [D1 D2].
        assert (HT : in_range lo hi i = N.testbit mask (i mod 64)).
        { rewrite T by assumption. f_equal. lia. }
        rewrite HT, Ek. fold old. rewrite <- N.lor_spec. now rewrite (lor_land_same _ _ E).
      * rewrite (Out i Ek). now rewrite orb_false_r.
    + split; [|auto]. intros _ i I1 I2. destruct (Dm i) as [D1 D2].
      assert (Ek : i / 64 = k) by (symmetry; apply N.div_unique with (i - 64 * k); lia).
      unfold mbit. rewrite Ek. fold old. apply (f_equal (fun x => N.testbit x (i mod 64))) in E.
      rewrite N.land_spec in E. rewrite (T _ D2) in E. rewrite <- Ek, <- D1 in E.
      unfold in_range in E. replace (lo <=? i) with true in E by (symmetry; apply N.leb_le; lia).
      replace (i <? hi) with true in E by (symmetry; apply N.ltb_lt; lia). cbn in E.
      now rewrite andb_true_r in E.
  - assert (LB : N.lor old mask < two64) by now apply lor_bound. split.
    + split; [now apply all_bytes_store_int|]. split.
      * intros i. unfold mbit. rewrite bucket_store by assumption.
        destruct (N.eqb_spec k (i / 64)) as [Ek|Ek].
        -- destruct (Dm i) as [D1 D2]. rewrite N.lor_spec, (T _ D2). rewrite Ek, <- D1.
           unfold old. rewrite Ek. reflexivity.
        -- rewrite Out by auto. now rewrite orb_false_r.
      * intros a A. unfold store_int. apply store_other. rewrite len_le_bytes. unfold bucket_addr in *. lia.
    + split; [discriminate|]. intros A. exfalso. apply E. apply N.bits_inj. intros j. rewrite N.land_spec.
      destruct (N.ltb_spec j 64) as [J|J].
      * rewrite (T j J). unfold in_range. destruct (N.leb_spec lo (64 * k + j)), (N.ltb_spec (64 * k + j) hi); cbn;
          try apply andb_false_r. rewrite andb_true_r.
        specialize (A (64 * k + j) ltac:(lia) ltac:(lia)). unfold mbit in A.
        replace ((64 * k + j) / 64) with k in A by (apply N.div_unique with j; lia).
        replace ((64 * k + j) mod 64) with j in A by (apply N.mod_unique with k; lia).
        exact A.
      * replace (N.testbit mask j) with false; [apply andb_false_r|].
        symmetry. destruct (N.eqb_spec mask 0) as [->|Nz]; [apply N.bits_0|].
        apply N.bits_above_log2. apply N.log2_lt_pow2; [lia|].
        eapply N.lt_le_trans; [exact M|]. change two64 with (2 ^ 64). apply N.pow_le_mono_r; lia.
Qed.

Lemma sets_trans m m' m'' s lo mid hi k0 k1 k2 : lo <= mid -> mid <= hi -> k0 <= k1 -> k1 <= k2 ->
  sets m m' s lo mid k0 k1 -> sets m' m'' s mid hi k1 k2 -> sets m m'' s lo hi k0 k2.
Proof.
  intros L1 L2 L3 L4 (_ & A & F) (B & C & G). split; [exact B|]. split.
  - intros i. rewrite C, A. rewrite <- orb_assoc. f_equal. unfold in_range.
    destruct (N.leb_spec lo i), (N.ltb_spec i mid), (N.leb_spec mid i), (N.ltb_spec i hi); cbn; auto; lia.
  - intros a H. rewrite G, F; auto; unfold bucket_addr in *; lia.
Qed.

Lemma sets_refl m s lo k : all_bytes m -> sets m m s lo lo k k.
Proof.
  intros B. split; [exact B|]. split; [|auto]. intros i. unfold in_range.
  destruct (N.leb_spec lo i), (N.ltb_spec i lo); cbn; try lia; now rewrite orb_false_r.
Qed.

Lemma sets_weaken m m' s lo hi k0 k1 j0 j1 : j0 <= k0 -> k1 <= j1 ->
  sets m m' s lo hi k0 k1 -> sets m m' s lo hi j0 j1.
Proof.
  intros L1 L2 (A & B & C). split; [exact A|]. split; [exact B|]. intros a H. apply C.
  unfold bucket_addr in *. lia.
Qed.

Lemma fill_spec s n : forall m k, all_bytes m ->
  sets m (fill_buckets m s k n) s (64 * k) (64 * (k + N.of_nat n)) k (k + N.of_nat n).
Proof.
  induction n as [|n IH]; intros m k B.
  - cbn [fill_buckets]. change (N.of_nat 0) with 0. rewrite N.add_0_r. now apply sets_refl.
  - cbn [fill_buckets]. set (m1 := store_int m (bucket_addr s k) 8 all_bits_set).
    assert (S1 : sets m m1 s (64 * k) (64 * (k + 1)) k (k + 1)).
    { split; [now apply all_bytes_store_int|]. split.
      - intros i. unfold mbit, m1. rewrite bucket_store by reflexivity.
        pose proof (N.div_mod i 64 ltac:(lia)). pose proof (N.mod_lt i 64 ltac:(lia)).
        unfold in_range. destruct (N.eqb_spec k (i / 64)) as [->|E].
        + change all_bits_set with (N.ones 64). rewrite N.ones_spec_low by assumption.
          destruct (N.leb_spec (64 * (i / 64)) i), (N.ltb_spec i (64 * (i / 64 + 1))); try lia; now rewrite orb_true_r.
        + destruct (N.leb_spec (64 * k) i), (N.ltb_spec i (64 * (k + 1))); cbn; try now rewrite orb_false_r.
          exfalso. apply E. apply N.div_unique with (i - 64 * k); lia.
      - intros a H. unfold m1, store_int. apply store_other. rewrite len_le_bytes. unfold bucket_addr in *. lia. }
    replace (k + N.of_nat (S n)) with (k + 1 + N.of_nat n) by lia.
    eapply (sets_trans m m1 _ s _ (64 * (k + 1)) _ k (k + 1)); try lia; [exact S1|].
    apply IH. apply S1.
Qed.

(** Masks. *)
Lemma mask_pre_bits a b j : a < 64 -> b <= 64 -> 1 <= b -> j < 64 ->
  N.testbit (N.land (shl64 all_bits_set a) (N.shiftr all_bits_set (64 - b))) j = in_range a b j.
Proof.
  intros A B B1 J. rewrite N.land_spec. unfold shl64, in_range. change two64 with (2 ^ 64).
  rewrite N.mod_pow2_bits_low by assumption. change all_bits_set with (N.ones 64).
  rewrite N.shiftr_spec by lia. f_equal.
  - destruct (N.leb_spec a j).
    + rewrite N.shiftl_spec_high' by assumption. apply N.ones_spec_low. lia.
    + now apply N.shiftl_spec_low.
  - destruct (N.ltb_spec j b).
    + apply N.ones_spec_low. lia.
    + apply N.ones_spec_high. lia.
Qed.
Lemma mask_bound x b : N.land x (N.shiftr all_bits_set b) < two64.
Proof.
  assert (H : N.shiftr all_bits_set b < two64).
  { rewrite N.shiftr_div_pow2. eapply N.le_lt_trans; [apply N.div_le_upper_bound with (q := all_bits_set)|reflexivity].
    - apply N.pow_nonzero. lia.
    - rewrite <- (N.mul_1_l all_bits_set) at 1. apply N.mul_le_mono_r. change 1 with (N.succ 0). apply N.le_succ_l.
      apply N.neq_0_lt_0. apply N.pow_nonzero. lia. }
  eapply N.le_lt_trans; [|exact H]. apply N.ldiff_le. apply N.bits_inj. intros i. rewrite N.ldiff_spec, N.land_spec, N.bits_0.
  destruct (N.testbit x i), (N.testbit (N.shiftr all_bits_set b) i); reflexivity.
Qed.
Lemma mask_post_bits b j : b <= 64 -> j < 64 -> N.testbit (N.shiftr all_bits_set (64 - b)) j = in_range 0 b j.
Proof.
  intros B J. rewrite N.shiftr_spec by lia. unfold in_range. change all_bits_set with (N.ones 64).
  replace (0 <=? j) with true by (symmetry; apply N.leb_le; lia). cbn [andb].
  destruct (N.ltb_spec j b).
  - apply N.ones_spec_low. lia.
  - apply N.ones_spec_high. lia.
Qed.

Lemma in_range_shift k a b j : in_range a b j = in_range (64 * k + a) (64 * k + b) (64 * k + j).
Proof.
  unfold in_range. f_equal.
  - destruct (N.leb_spec a j), (N.leb_spec (64 * k + a) (64 * k + j)); auto; lia.
  - destruct (N.ltb_spec j b), (N.ltb_spec (64 * k + j) (64 * k + b)); auto; lia.
Qed.

(** ** Operations *)
Definition used_after (used last : N) : N := N.max used (last + 1).

Lemma update_used_spec s k : k + 1 < two64 ->
  update_buckets_used s k = mkBm (bm_beg s) (bm_len s) (bm_cap s) (used_after (bm_used s) k).
Proof.
  intros H. unfold update_buckets_used, add64, used_after. rewrite N.mod_small by assumption.
  destruct (N.ltb_spec (k + 1) (bm_used s)).
  - rewrite N.max_l by lia. now destruct s.
  - now rewrite N.max_r by lia.
Qed.

Lemma sets_buckets m m' s t lo hi k0 k1 : bm_beg s = bm_beg t -> sets m m' s lo hi k0 k1 -> sets m m' t lo hi k0 k1.
Proof.
  unfold sets, mbit, bucket_value, bucket_addr. intros ->. auto.
Qed.

(** Bucket bounds of a range inside the capacity. *)
Lemma bucket_count_ge cap i : i < cap -> i / 64 < bucket_count cap.
Proof.
  intros H. unfold bucket_count, bits_per_bucket.
  pose proof (N.div_mod i 64 ltac:(lia)). pose proof (N.mod_lt i 64 ltac:(lia)).
  pose proof (N.div_mod (cap + 64 - 1) 64 ltac:(lia)). pose proof (N.mod_lt (cap + 64 - 1) 64 ltac:(lia)). lia.
Qed.

Lemma bm_set_spec m s k : all_bytes m -> k < bm_cap s -> bm_cap s < two64 ->
  exists old m' s', bm_set m s k = Ok (old, m', s') /\
    sets m m' s k (k + 1) (k / 64) (k / 64 + 1) /\
    s' = mkBm (bm_beg s) (bm_len s) (bm_cap s) (used_after (bm_used s) (k / 64)) /\
    old = mbit m s k.
Proof.
  intros B K C. unfold bm_set. destruct (N.leb_spec (bm_cap s) k); [lia|].
  pose proof (N.div_mod k 64 ltac:(lia)) as D1. pose proof (N.mod_lt k 64 ltac:(lia)) as D2.
  assert (M : N.shiftl 1 (k mod 64) < two64).
  { rewrite N.shiftl_1_l. change two64 with (2 ^ 64). apply N.pow_lt_mono_r; lia. }
  destruct (set_bits_spec m s (k / 64) (N.shiftl 1 (k mod 64)) k (k + 1) B M) as [S1 S2]; try lia.
  { intros j J. rewrite N.shiftl_1_l, N.pow2_bits_eqb. unfold in_range.
    destruct (N.eqb_spec (k mod 64) j), (N.leb_spec k (64 * (k / 64) + j)), (N.ltb_spec (64 * (k / 64) + j) (k + 1)); cbn; auto; lia. }
  unfold bits_per_bucket in *. destruct (set_bits m s (k / 64) (N.shiftl 1 (k mod 64))) as [ret m'] eqn:E.
  cbn [fst snd] in *. exists ret, m', (update_buckets_used s (k / 64)). split; [reflexivity|]. split; [exact S1|].
  split; [apply update_used_spec; unfold two64 in *; lia|].
  destruct (mbit m s k) eqn:Q.
  - apply S2. intros i I1 I2. replace i with k by lia. exact Q.
  - destruct ret; auto. assert (T : true = true) by reflexivity. apply S2 with (i := k) in T; try lia. congruence.
Qed.

(** The bucket index reported by set_range: one past the last bucket touched when the
    range starts and ends in the same bucket without starting at its first bit. *)
Definition range_last (first n : N) : N :=
  if negb (first mod 64 =? 0) && (first + n <=? 64 * (first / 64 + 1)) then first / 64 + 1
  else (first + n) / 64.

Lemma bm_set_range_spec m s first n : all_bytes m -> 0 < n -> first + n <= bm_cap s -> bm_cap s < two64 ->
  8 * bucket_count (bm_cap s) <= bm_len s -> 
  exists m' s', bm_set_range m s first n = Ok (m', s') /\
    sets m m' s first (first + n) (first / 64) (bucket_count (bm_cap s)) /\
    s' = mkBm (bm_beg s) (bm_len s) (bm_cap s) (used_after (bm_used s) (range_last first n)).
Proof.
  intros B N0 L C BL. unfold bm_set_range. destruct (N.eqb_spec n 0); [lia|].
  destruct (N.leb_spec (bm_cap s) first); [lia|].
  unfold add64 at 1. rewrite N.mod_small by lia. destruct (N.ltb_spec (bm_cap s) (first + n)); [lia|].
  unfold bits_per_bucket.
  pose proof (N.div_mod first 64 ltac:(lia)) as D1. pose proof (N.mod_lt first 64 ltac:(lia)) as D2.
  set (cur := first / 64) in *. set (st := first mod 64) in *.
  assert (CB : bm_cap s <= 64 * bucket_count (bm_cap s)).
  { pose proof (N.div_mod (bm_cap s + 64 - 1) 64 ltac:(lia)). pose proof (N.mod_lt (bm_cap s + 64 - 1) 64 ltac:(lia)).
    unfold bucket_count, bits_per_bucket. lia. }
  set (bc := bucket_count (bm_cap s)) in *.
  (* first phase *)
  assert (P1 : exists m1 n1 cur1,
    (if negb (st =? 0) then
        let bit_end := N.min (add64 st n) 64 in
        let mask := N.land (shl64 all_bits_set st) (N.shiftr all_bits_set (64 - bit_end)) in
        (snd (set_bits m s cur mask), n - (bit_end - st), cur + 1)
      else (m, n, cur)) = (m1, n1, cur1) /\
    sets m m1 s first (first + n - n1) cur cur1 /\ n1 <= n /\ cur <= cur1 /\ cur1 <= bc /\
    (n1 = 0 \/ first + n - n1 = 64 * cur1) /\ (n1 = 0 -> cur1 = cur + 1 /\ first + n <= 64 * (cur + 1) /\ st <> 0) /\
    (st = 0 \/ cur1 = cur + 1)).
  { destruct (N.eqb_spec st 0) as [Z|Z]; cbn [negb].
    - exists m, n, cur. split; [reflexivity|]. replace (first + n - n) with first by lia. split; [now apply sets_refl|]. lia.
    - cbv zeta. unfold add64. rewrite N.mod_small by lia.
      set (be := N.min (st + n) 64). assert (BE : st < be /\ be <= 64 /\ be <= st + n) by (unfold be; lia).
      eexists _, _, _. split; [reflexivity|].
      destruct (set_bits_spec m s cur (N.land (shl64 all_bits_set st) (N.shiftr all_bits_set (64 - be))) first (64 * cur + be) B) as [S1 _].
      + apply mask_bound.
      + intros j J. rewrite mask_pre_bits by lia. rewrite (in_range_shift cur). f_equal. lia.
      + lia.
      + lia.
      + replace (first + n - (n - (be - st))) with (64 * cur + be) by lia. split; [exact S1|].
        assert (be = 64 \/ be = st + n) by (unfold be; lia). lia. }
  destruct P1 as (m1 & n1 & cur1 & E0 & S1 & Q1 & Q2 & Q3 & Q4 & Q5 & Q7).
  cbv zeta in E0. cbv zeta. rewrite E0. cbv iota beta zeta.
  pose proof (N.div_mod n1 64 ltac:(lia)) as E1. pose proof (N.mod_lt n1 64 ltac:(lia)) as E2.
  assert (Q6 : 64 * cur1 + n1 <= 64 * bc \/ n1 = 0) by lia.
  replace ((n1 + 64 - 1) / 64) with (n1 / 64 + (if n1 mod 64 =? 0 then 0 else 1)).
  2:{ destruct (N.eqb_spec (n1 mod 64) 0) as [Z|Z].
      - apply N.div_unique with 63; lia.
      - apply N.div_unique with (n1 mod 64 - 1); lia. }
  match goal with |- context [bm_len s <? ?x] => destruct (N.ltb_spec (bm_len s) x) as [X|X] end.
  { exfalso. revert X. destruct (N.eqb_spec (n1 mod 64) 0); intros X; lia. }
  set (nf := n1 / 64) in *.
  assert (S2 := fill_spec s (N.to_nat nf) m1 cur1 ltac:(apply S1)). rewrite N2Nat.id in S2.
  set (m2 := fill_buckets m1 s cur1 (N.to_nat nf)) in *.
  assert (S12 : sets m m2 s first (first + n - n1 + 64 * nf) cur (cur1 + nf)).
  { destruct Q4 as [Q4|Q4].
    - assert (NF : nf = 0) by (unfold nf; rewrite Q4; reflexivity).
      replace (first + n - n1 + 64 * nf) with (first + n - n1) by lia.
      replace (cur1 + nf) with cur1 in * by lia.
      destruct S2 as (A1 & A2 & A3). destruct S1 as (B1 & B2 & B3). split; [exact A1|]. split.
      + intros i. rewrite A2, B2. unfold in_range.
        replace ((64 * cur1 <=? i) && (i <? 64 * cur1)) with false; [now rewrite orb_false_r|].
        destruct (N.leb_spec (64 * cur1) i), (N.ltb_spec i (64 * cur1)); cbn; auto; lia.
      + intros a H9. rewrite A3, B3; auto; unfold bucket_addr in *; lia.
    - eapply (sets_trans m m1 m2 s first (64 * cur1) _ cur cur1); try lia.
      + rewrite <- Q4. exact S1.
      + replace (first + n - n1 + 64 * nf) with (64 * (cur1 + nf)) by lia. exact S2. }
  assert (U : cur1 + nf = range_last first n).
  { unfold range_last. fold cur st. destruct (N.eqb_spec n1 0) as [Z|Z].
    - destruct (Q5 Z) as (U1 & U2 & U3). subst n1. assert (nf = 0) by reflexivity.
      destruct (N.eqb_spec st 0); [lia|]. cbn [negb andb].
      destruct (N.leb_spec (first + n) (64 * (cur + 1))); lia.
    - destruct Q4 as [Q4|Q4]; [lia|].
      assert (V : (negb (st =? 0) && (first + n <=? 64 * (cur + 1))) = false).
      { destruct (N.eqb_spec st 0); [reflexivity|]. cbn [negb andb]. apply N.leb_gt.
        destruct Q7 as [Q7|Q7]; lia. }
      rewrite V. apply N.div_unique with (n1 mod 64); lia. }
  assert (R2 : n1 - nf * 64 = n1 mod 64) by lia. rewrite R2.
  assert (Fin : exists m3, (if 0 <? n1 mod 64
     then snd (set_bits m2 s (cur1 + nf) (N.shiftr all_bits_set (64 - n1 mod 64))) else m2) = m3 /\
     sets m m3 s first (first + n) cur bc).
  { destruct (N.ltb_spec 0 (n1 mod 64)) as [R|R].
    - eexists. split; [reflexivity|].
      destruct Q4 as [Q4|Q4]; [subst n1; change (0 mod 64) with 0 in R; lia|].
      destruct (set_bits_spec m2 s (cur1 + nf) (N.shiftr all_bits_set (64 - n1 mod 64)) (64 * (cur1 + nf)) (64 * (cur1 + nf) + n1 mod 64)) as [S3 _]; try lia.
      + apply S12.
      + rewrite <- (N.land_ones (N.shiftr _ _) 64) || idtac.
        pose proof (mask_bound (N.shiftr all_bits_set (64 - n1 mod 64)) (64 - n1 mod 64)) as MB.
        rewrite N.land_diag in MB. exact MB.
      + intros j J. rewrite mask_post_bits by lia. rewrite (in_range_shift (cur1 + nf)). f_equal. lia.
      + apply (sets_weaken _ _ _ _ _ cur (cur1 + nf + 1)); [lia|lia|].
        eapply (sets_trans m m2 _ s first (64 * (cur1 + nf)) _ cur (cur1 + nf)); try lia.
        * replace (64 * (cur1 + nf)) with (first + n - n1 + 64 * nf) by lia. exact S12.
        * replace (first + n) with (64 * (cur1 + nf) + n1 mod 64) by lia. exact S3.
    - exists m2. split; [reflexivity|]. apply (sets_weaken _ _ _ _ _ cur (cur1 + nf)); [lia|lia|].
      replace (first + n) with (first + n - n1 + 64 * nf) by lia. exact S12. }
  destruct Fin as (m3 & -> & S3). eexists _, _. split; [reflexivity|]. split; [exact S3|].
  rewrite <- U. apply update_used_spec. unfold two64 in *. lia.
Qed.

(** ** Python enumeration *)
Lemma land_shiftr_1 b i : (N.land (N.shiftr b i) 1 =? 0) = negb (N.testbit b i).
Proof.
  change 1 with (N.ones 1). rewrite N.land_ones. change (2 ^ 1) with 2. rewrite <- N.bit0_mod, N.shiftr_spec by lia.
  rewrite N.add_0_l. now destruct (N.testbit b i).
Qed.

Lemma py_bucket_bits_spec b n : forall idx i,
  py_bucket_bits b idx i n = filter (fun x => N.testbit b (x - idx + i)) (nseq idx n).
Proof.
  induction n as [|n IH]; intros idx i; [reflexivity|]. cbn [py_bucket_bits nseq filter].
  rewrite land_shiftr_1. replace (idx - idx + i) with i by lia. rewrite IH.
  assert (E : filter (fun x => N.testbit b (x - (idx + 1) + (i + 1))) (nseq (idx + 1) n) =
              filter (fun x => N.testbit b (x - idx + i)) (nseq (idx + 1) n)).
  { apply filter_ext_in. intros x Hx. apply in_nseq in Hx. f_equal. lia. }
  rewrite E. destruct (N.testbit b i); reflexivity.
Qed.

Lemma filter_false {A} (f : A -> bool) l : (forall x, In x l -> f x = false) -> filter f l = [].
Proof.
  induction l as [|x l IH]; intros H; [reflexivity|]. cbn. rewrite (H x) by now left. apply IH. intros y Hy. apply H. now right.
Qed.

Lemma py_buckets_spec m s n : forall k, py_buckets (64 * k) (map (bucket_value m s) (nseq k n)) =
  filter (mbit m s) (nseq (64 * k) (64 * n)).
Proof.
  induction n as [|n IH]; intros k; [reflexivity|]. cbn [nseq map py_buckets].
  replace (64 * k + 64) with (64 * (k + 1)) by lia. rewrite IH.
  replace (64 * S n)%nat with (64 + 64 * n)%nat by lia. rewrite nseq_app, filter_app. f_equal.
  2:{ f_equal. f_equal. lia. }
  assert (E : filter (mbit m s) (nseq (64 * k) 64) =
              filter (fun x => N.testbit (bucket_value m s k) (x - 64 * k + 0)) (nseq (64 * k) 64)).
  { apply filter_ext_in. intros x Hx. apply in_nseq in Hx. unfold mbit.
    change (N.of_nat 64) with 64 in Hx.
    replace (x / 64) with k by (apply N.div_unique with (x - 64 * k); lia).
    replace (x mod 64) with (x - 64 * k) by (apply N.mod_unique with k; lia). f_equal. lia. }
  rewrite E. destruct (N.eqb_spec (bucket_value m s k) 0) as [Z|Z].
  - rewrite Z. rewrite filter_false; [reflexivity|]. intros x _. apply N.bits_0.
  - apply py_bucket_bits_spec.
Qed.

Lemma load_buckets m s n : forall k,
  load m (bucket_addr s k) (8 * N.of_nat n) = concat (map (fun i => load m (bucket_addr s i) 8) (nseq k n)).
Proof.
  induction n as [|n IH]; intros k; [reflexivity|]. cbn [nseq map concat].
  replace (8 * N.of_nat (S n)) with (8 + 8 * N.of_nat n) by lia. rewrite load_app. f_equal.
  rewrite <- IH. f_equal. unfold bucket_addr. lia.
Qed.

Lemma py_set_bits_spec m s n : 
  py_set_bits (load m (bm_beg s) (8 * n)) = Ok (filter (mbit m s) (nseq 0 (N.to_nat (64 * n)))).
Proof.
  unfold py_set_bits. rewrite len_load. rewrite (N.mul_comm 8), N.mod_mul by lia. cbn [N.eqb negb].
  assert (E : load m (bm_beg s) (n * 8) = concat (map (fun i => load m (bucket_addr s i) 8) (nseq 0 (N.to_nat n)))).
  { rewrite <- load_buckets. rewrite N2Nat.id. f_equal; [unfold bucket_addr; lia|lia]. }
  rewrite E, py_enumerate_concat; [|lia|].
  2:{ apply Forall_forall. intros r Hr. apply in_map_iff in Hr as (x & <- & _). apply len_load. }
  cbn [bind]. f_equal. rewrite map_map.
  pose proof (py_buckets_spec m s (N.to_nat n) 0) as P. rewrite N.mul_0_r in P.
  replace (N.to_nat (64 * n)) with (64 * N.to_nat n)%nat by lia. rewrite <- P. reflexivity.
Qed.

Lemma nseq_sorted n : forall a, StronglySorted N.lt (nseq a n).
Proof.
  induction n as [|n IH]; intros a; cbn [nseq]; constructor; auto.
  apply Forall_forall. intros x H. apply in_nseq in H. lia.
Qed.
Lemma filter_sorted (f : N -> bool) l : StronglySorted N.lt l -> StronglySorted N.lt (filter f l).
Proof.
  induction 1 as [|x l S IH F]; [constructor|]. cbn. destruct (f x); auto. constructor; auto.
  rewrite Forall_forall in *. intros y Hy. apply filter_In in Hy as [Hy _]. auto.
Qed.

(** ** Runs *)
Definition asked (ops : list bop) (i : N) : Prop := exists o, In o ops /\ asks o i.

Record binv (b l cap : N) (m0 m : mem) (s : bitmap) (ops : list bop) : Prop := {
  bi_fields : bm_beg s = b /\ bm_len s = l /\ bm_cap s = cap;
  bi_bytes : all_bytes m;
  bi_bits : forall i, 8 * (i / 64) + 8 <= l -> (mbit m s i = true <-> asked ops i);
  bi_used : forall i, asked ops i -> i / 64 < bm_used s;
  bi_small : bm_used s <= bucket_count cap + 1;
  bi_fits : (forall o, In o ops -> ~ range_in_last_bucket cap o) -> bm_used s <= bucket_count cap;
  bi_frame : forall a, a < b \/ b + 8 * bucket_count cap <= a -> m a = m0 a
}.

Lemma asked_snoc ops o i : asked (ops ++ [o]) i <-> asked ops i \/ asks o i.
Proof.
  unfold asked. split.
  - intros (p & I & A). apply in_app_iff in I as [I|[->|[]]]; eauto.
  - intros [(p & I & A)|A].
    + exists p. rewrite in_app_iff. auto.
    + exists o. rewrite in_app_iff. cbn. auto.
Qed.

Lemma range_last_covers first n i : first <= i -> i < first + n -> i / 64 <= range_last first n.
Proof.
  intros A B. unfold range_last.
  pose proof (N.div_mod i 64 ltac:(lia)). pose proof (N.mod_lt i 64 ltac:(lia)).
  pose proof (N.div_mod first 64 ltac:(lia)). pose proof (N.mod_lt first 64 ltac:(lia)).
  pose proof (N.div_mod (first + n) 64 ltac:(lia)). pose proof (N.mod_lt (first + n) 64 ltac:(lia)).
  destruct (negb (first mod 64 =? 0) && (first + n <=? 64 * (first / 64 + 1))) eqn:E; [|lia].
  apply andb_prop in E as [E1 E2]. apply N.leb_le in E2. lia.
Qed.

Lemma bm_step_inv b l cap m0 m s ops o : cap < two64 -> 8 * bucket_count cap <= l ->
  binv b l cap m0 m s ops -> bop_ok cap o ->
  exists m' s', bm_step m s o = Ok (m', s') /\ binv b l cap m0 m' s' (ops ++ [o]).
Proof.
  intros C L [(F1 & F2 & F3) Hb Hbits Hu Hsm Hf Hfr] K.
  assert (CB : cap <= 64 * bucket_count cap).
  { pose proof (N.div_mod (cap + 64 - 1) 64 ltac:(lia)). pose proof (N.mod_lt (cap + 64 - 1) 64 ltac:(lia)).
    unfold bucket_count, bits_per_bucket. lia. }
  destruct o as [k|first n]; cbn [bop_ok bm_step] in *.
  - destruct (bm_set_spec m s k Hb ltac:(lia) ltac:(lia)) as (old & m' & s' & E & (B' & S' & Fr) & -> & _).
    rewrite E. cbn [bind]. exists m'. eexists. split; [reflexivity|].
    pose proof (bucket_count_ge cap k K) as BG.
    constructor; cbn [bm_beg bm_len bm_cap bm_used]; auto.
    + intros i Hi. rewrite asked_snoc, <- Hbits by assumption. change (mbit m' (mkBm (bm_beg s) (bm_len s) (bm_cap s) (used_after (bm_used s) (k / 64))) i) with (mbit m' s i).
      rewrite S'. unfold in_range. cbn [asks].
      rewrite orb_true_iff, andb_true_iff, N.leb_le, N.ltb_lt. split; intros [H|H]; auto; right; lia.
    + intros i H. apply asked_snoc in H as [H|H]; unfold used_after.
      * specialize (Hu i H). lia.
      * cbn [asks] in H. subst i. lia.
    + unfold used_after. lia.
    + intros H. unfold used_after. assert (bm_used s <= bucket_count cap).
      { apply Hf. intros o Ho. apply H. rewrite in_app_iff. auto. }
      lia.
    + intros a Ha. rewrite Fr; [apply Hfr; auto|]. unfold bucket_addr. rewrite F1. lia.
  - destruct (N.eqb_spec n 0) as [->|Nz].
    + unfold bm_set_range. cbn [N.eqb]. exists m, s. split; [reflexivity|].
      constructor; auto.
      * intros i Hi. rewrite asked_snoc, Hbits by assumption. cbn [asks]. split; [auto|]. intros [H|H]; [auto|lia].
      * intros i H. apply asked_snoc in H as [H|H]; [auto|cbn in H; lia].
      * intros H. apply Hf. intros o Ho. apply H. rewrite in_app_iff. auto.
    + destruct K as [K|K]; [lia|].
      destruct (bm_set_range_spec m s first n Hb ltac:(lia) ltac:(lia) ltac:(lia) ltac:(rewrite F2, F3; exact L))
        as (m' & s' & E & (B' & S' & Fr) & ->).
      exists m'. eexists. split; [exact E|].
      pose proof (N.div_mod first 64 ltac:(lia)). pose proof (N.mod_lt first 64 ltac:(lia)).
      pose proof (N.div_mod (first + n) 64 ltac:(lia)). pose proof (N.mod_lt (first + n) 64 ltac:(lia)).
      constructor; cbn [bm_beg bm_len bm_cap bm_used]; auto.
      * intros i Hi. rewrite asked_snoc, <- Hbits by assumption. change (mbit m' (mkBm (bm_beg s) (bm_len s) (bm_cap s) (used_after (bm_used s) (range_last first n))) i) with (mbit m' s i).
        rewrite S'. unfold in_range. cbn [asks].
        rewrite orb_true_iff, andb_true_iff, N.leb_le, N.ltb_lt. tauto.
      * intros i H'. apply asked_snoc in H' as [H'|H']; unfold used_after.
        -- specialize (Hu i H'). lia.
        -- cbn [asks] in H'. pose proof (range_last_covers first n i). lia.
      * unfold used_after, range_last. destruct (negb (first mod 64 =? 0) && (first + n <=? 64 * (first / 64 + 1))); lia.
      * intros H'. unfold used_after. assert (bm_used s <= bucket_count cap).
        { apply Hf. intros o Ho. apply H'. rewrite in_app_iff. auto. }
        assert (NL : ~ range_in_last_bucket cap (BRange first n)) by (apply H'; rewrite in_app_iff; cbn; auto).
        cbn [range_in_last_bucket] in NL.
        unfold range_last. destruct (negb (first mod 64 =? 0) && (first + n <=? 64 * (first / 64 + 1))); lia.
      * intros a Ha. rewrite Fr; [apply Hfr; auto|]. unfold bucket_addr. rewrite F1, F3. lia.
Qed.

Lemma bm_run_inv b l cap m0 ops : cap < two64 -> 8 * bucket_count cap <= l -> forall done m s,
  binv b l cap m0 m s done -> Forall (bop_ok cap) ops ->
  exists m' s', bm_run m s ops = Ok (m', s') /\ binv b l cap m0 m' s' (done ++ ops).
Proof.
  intros C L. induction ops as [|o ops IH]; intros done m s I K.
  - exists m, s. rewrite app_nil_r. auto.
  - inversion K; subst. destruct (bm_step_inv b l cap m0 m s done o C L I H1) as (m1 & s1 & E & I1).
    cbn [bm_run]. rewrite E. cbn [bind]. destruct (IH _ m1 s1 I1 H2) as (m2 & s2 & E2 & I2).
    exists m2, s2. split; [exact E2|]. rewrite <- app_assoc in I2. exact I2.
Qed.

Lemma load_zero m a n : (forall x, a <= x -> x < a + n -> m x = 0) -> load m a n = zeros n.
Proof.
  intros H. unfold load, zeros. 
  assert (G : forall k y, (forall x, y <= x -> x < y + N.of_nat k -> m x = 0) -> map m (nseq y k) = repeat 0 k).
  { induction k as [|k IH]; intros y Hy; [reflexivity|]. cbn [nseq map repeat]. rewrite Hy by lia. f_equal. apply IH.
    intros x H1 H2. apply Hy; lia. }
  apply G. intros x H1 H2. apply H; lia.
Qed.
Lemma le_val_zeros k : le_val (repeat 0 k) = 0.
Proof. induction k; cbn [repeat le_val]; lia. Qed.

Lemma binv_new b l cap m : all_bytes m -> (forall a, b <= a -> a < b + l -> m a = 0) ->
  binv b l cap m m (mkBm b l cap 0) [].
Proof.
  intros B Z. constructor; cbn [bm_beg bm_len bm_cap bm_used]; auto.
  - intros i Hi. unfold mbit, bucket_value, load_int, bucket_addr. cbn [bm_beg]. rewrite load_zero.
    + unfold zeros. rewrite le_val_zeros, N.bits_0. split; [discriminate|]. intros (o & [] & _).
    + intros x H1 H2. apply Z; lia.
  - intros i (o & [] & _).
  - lia.
  - lia.
Qed.

Lemma is_set_spec m s i : i < bm_cap s -> bm_is_set m s i = Ok (mbit m s i).
Proof.
  intros H. unfold bm_is_set. destruct (N.leb_spec (bm_cap s) i); [lia|]. f_equal. unfold mbit, bits_per_bucket.
  set (w := bucket_value m s (i / 64)). set (j := i mod 64).
  rewrite N.shiftl_1_l. destruct (N.testbit w j) eqn:E.
  - destruct (N.eqb_spec (N.land w (2 ^ j)) 0) as [Z|Z]; [|reflexivity].
    apply (f_equal (fun x => N.testbit x j)) in Z. rewrite N.land_spec, N.pow2_bits_true, E, N.bits_0 in Z. discriminate.
  - destruct (N.eqb_spec (N.land w (2 ^ j)) 0) as [Z|Z]; [reflexivity|]. exfalso. apply Z.
    apply N.bits_inj. intros q. rewrite N.land_spec, N.pow2_bits_eqb, N.bits_0.
    destruct (N.eqb_spec j q) as [<-|]; [now rewrite E|apply andb_false_r].
Qed.
