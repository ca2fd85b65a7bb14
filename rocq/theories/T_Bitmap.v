(** C20: the bitmap section. *)
From Coq Require Import NArith List Bool Lia Sorted.
From Verif Require Import M_Base M_Memory M_Bitmap M_PySections S_Bitmap P_Base P_Memory P_PyBase P_Bitmap.
Import ListNotations.
Open Scope N_scope.

(** A freshly constructed bitmap of [cap] bits on the zeroed bytes [b, e). *)
Definition fresh_bitmap (m : mem) (cap b e : N) (s : bitmap) : Prop :=
  b <= e /\ e < 2 ^ 63 /\ cap < 2 ^ 63 /\ (forall a, m a < 256) /\ (forall a, b <= a -> a < e -> m a = 0) /\
  bm_new cap b e = Ok s.

(** C20: every sequence of in-range calls succeeds; afterwards a bit is set iff some call
    asked for it; nothing outside the section changed; the reported size covers every set
    bit; and, when the reported size stays inside the section, Python enumerates exactly the
    requested bits in increasing order.  The size stays inside unless a set_range call reached
    into the last bucket. *)
Theorem C20_bitmap : forall m cap b e s ops,
  fresh_bitmap m cap b e s -> Forall (bop_ok cap) ops ->
  exists m' s', bm_run m s ops = Ok (m', s') /\
    (forall i, i < cap -> exists v, bm_is_set m' s' i = Ok v /\
        (v = true <-> exists o, In o ops /\ asks o i)) /\
    (forall a, a < b \/ e <= a -> m' a = m a) /\
    (forall i o, In o ops -> asks o i -> i < 8 * bm_size s') /\
    (bm_size s' <= e - b ->
       exists bits, py_set_bits (bm_content m' s') = Ok bits /\ StronglySorted N.lt bits /\
         forall i, In i bits <-> exists o, In o ops /\ asks o i) /\
    (Forall (fun o => ~ range_in_last_bucket cap o) ops -> bm_size s' <= e - b).
Proof.
  intros m cap b e s ops (A1 & A2 & A3 & A4 & A5 & A6) K.
  change (2 ^ 63) with 9223372036854775808 in *.
  unfold bm_new in A6. destruct (negb ((e - b) mod bm_align_of =? 0)); [discriminate|].
  destruct (N.ltb_spec (e - b) (bm_allocation_size cap)) as [|L]; [discriminate|]. assert (Hs : mkBm b (e - b) cap 0 = s) by congruence. subst s.
  unfold bm_allocation_size in L.
  assert (Hc : cap < two64) by (unfold two64; lia).
  destruct (bm_run_inv b (e - b) cap m ops Hc L [] m _ (binv_new b (e - b) cap m A4 ltac:(intros; apply A5; lia)) K)
    as (m' & s' & R & [(F1 & F2 & F3) Hb Hbits Hu Hsm Hf Hfr]).
  cbn [app] in *. exists m', s'. split; [exact R|].
  assert (SZ : bm_size s' = 8 * bm_used s').
  { unfold bm_size, mul64, two64. rewrite N.mod_small by lia. lia. }
  assert (CB : cap <= 64 * bucket_count cap).
  { pose proof (N.div_mod (cap + 64 - 1) 64 ltac:(lia)). pose proof (N.mod_lt (cap + 64 - 1) 64 ltac:(lia)).
    unfold bucket_count, bits_per_bucket. lia. }
  split; [|split; [|split; [|split]]].
  - intros i Hi. exists (mbit m' s' i). split; [apply is_set_spec; lia|]. apply Hbits.
    pose proof (bucket_count_ge cap i Hi). lia.
  - intros a Ha. apply Hfr. lia.
  - intros i o Ho Ha. rewrite SZ. assert (U : i / 64 < bm_used s') by (apply Hu; exists o; auto).
    pose proof (N.div_mod i 64 ltac:(lia)). pose proof (N.mod_lt i 64 ltac:(lia)). lia.
  - intros Hsz. unfold bm_content. rewrite SZ. eexists. split; [apply py_set_bits_spec|]. split.
    + apply filter_sorted, nseq_sorted.
    + intros i. rewrite filter_In, in_nseq. split.
      * intros [Hi Hm]. apply Hbits in Hm; [exact Hm|].
        assert (i / 64 < bm_used s') by (apply N.div_lt_upper_bound; lia). lia.
      * intros H. assert (U : i / 64 < bm_used s') by (apply Hu; exact H).
        pose proof (N.div_mod i 64 ltac:(lia)). pose proof (N.mod_lt i 64 ltac:(lia)).
        split; [lia|]. apply Hbits; [lia|exact H].
  - intros H. rewrite Forall_forall in H. specialize (Hf H). lia.
Qed.
Print Assumptions C20_bitmap.

(** Three buckets, unaligned ranges across bucket boundaries, and the bits Python reports. *)
Example C20_case :
  exists s, fresh_bitmap mem_zero 192 4096 4120 s /\
    Forall (bop_ok 192) [BSet 3; BRange 62 5; BRange 64 64; BSet 129] /\
    Forall (fun o => ~ range_in_last_bucket 192 o) [BSet 3; BRange 62 5; BRange 64 64; BSet 129].
Proof.
  eexists. split; [|split].
  - repeat (split; [first [vm_compute; congruence | reflexivity | intros; reflexivity]|]).
    vm_compute. reflexivity.
  - repeat (apply Forall_cons || apply Forall_nil); cbn [bop_ok]; lia.
  - repeat (apply Forall_cons || apply Forall_nil); unfold range_in_last_bucket; change (bucket_count 192) with 3; lia.
Qed.
Example C20_case_bits :
  exists r, bm_run mem_zero (mkBm 4096 24 192 0) [BSet 3; BRange 62 5; BSet 129] = Ok r /\
    let (m', s') := r in py_set_bits (bm_content m' s') = Ok [3; 62; 63; 64; 65; 66; 129].
Proof. apply ok_check. vm_compute. reflexivity. Qed.

(** The unconditional claim is false: a range that ends in the last bucket makes the bitmap
    report one bucket too many, and Python then reports bits nobody asked for, read from the
    bytes that follow the section. *)
Theorem C20_size_overreported_refuted :
  exists m cap b e s ops, fresh_bitmap m cap b e s /\ Forall (bop_ok cap) ops /\
    exists m' s' bits, bm_run m s ops = Ok (m', s') /\ e - b < bm_size s' /\
      py_set_bits (bm_content m' s') = Ok bits /\
      exists i, In i bits /\ ~ exists o, In o ops /\ asks o i.
Proof.
  exists (fun a => if a =? 4104 then 1 else 0), 64, 4096, 4104.
  eexists. exists [BRange 0 64]. split; [|split].
  - split; [lia|]. split; [lia|]. split; [lia|]. split.
    + intros a. destruct (a =? 4104); lia.
    + split.
      * intros a H1 H2. destruct (N.eqb_spec a 4104); lia.
      * vm_compute. reflexivity.
  - apply Forall_cons; [cbn [bop_ok]; lia|apply Forall_nil].
  - set (r := bm_run _ _ _). assert (exists x, r = Ok x /\ let (m', s') := x in
      8 < bm_size s' /\ py_set_bits (bm_content m' s') = Ok (nseq 0 65)).
    { apply ok_check. vm_compute. auto. }
    destruct H as ([m' s'] & E & H1 & H2). exists m', s', (nseq 0 65).
    split; [exact E|]. split; [exact H1|]. split; [exact H2|]. exists 64. split; [apply in_nseq; lia|].
    intros (o & [<-|[]] & H). cbn [asks] in H. lia.
Qed.
Print Assumptions C20_size_overreported_refuted.
