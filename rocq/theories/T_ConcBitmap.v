(** C21: concurrent updates of the bitmap section. *)
From Coq Require Import NArith List Bool Lia Sorted.
From Verif Require Import M_Base M_Memory M_Bitmap M_Conc M_ConcBitmap M_PySections S_Bitmap
  P_Base P_Memory P_PyBase P_Bitmap P_Conc P_ConcBitmap T_Bitmap.
Import ListNotations.
Open Scope N_scope.

(** The state of a bitmap [s] after the threads have run their programs of set / set_range
    calls under a schedule.  The schedule also says which weak compare-exchanges fail
    spuriously. *)
Definition outcome (m : mem) (s : bitmap) (progs : list (list bop)) (schedule : list (N * bool)) : bshared * list bthread :=
  run bstep (bstart m s (map (map call_of) progs)) schedule.

(** C21: for any number of threads, any programs of in-range calls, any schedule and any
    spurious failures, once all calls have returned: a bit is set iff some call asked for it,
    nothing outside of the section changed, the reported size covers every set bit, and
    Python enumerates exactly the requested bits whenever the size stays inside the section
    (it does unless a range call reached into the last bucket, as in the sequential C20). *)
Theorem C21_nothing_lost : forall m cap b e s progs schedule,
  fresh_bitmap m cap b e s -> Forall (Forall (bop_ok cap)) progs ->
  let z := outcome m s progs schedule in
  let m' := bs_mem (fst z) in
  let s' := bs_map (fst z) in
  Forall bfinished (snd z) ->
  (forall i, i < cap -> exists v, bm_is_set m' s' i = Ok v /\
      (v = true <-> exists o, In o (concat progs) /\ asks o i)) /\
  (forall a, a < b \/ e <= a -> m' a = m a) /\
  (forall i o, In o (concat progs) -> asks o i -> i < 8 * bm_size s') /\
  (bm_size s' <= e - b ->
     exists bits, py_set_bits (bm_content m' s') = Ok bits /\ StronglySorted N.lt bits /\
       forall i, In i bits <-> exists o, In o (concat progs) /\ asks o i) /\
  (Forall (fun o => ~ range_in_last_bucket cap o) (concat progs) -> bm_size s' <= e - b).
Proof.
  intros m cap b e s progs schedule (A1 & A2 & A3 & A4 & A5 & A6) K z m' s' Fin.
  change (2 ^ 63) with 9223372036854775808 in *.
  unfold bm_new in A6. destruct (negb ((e - b) mod bm_align_of =? 0)); [discriminate|].
  destruct (N.ltb_spec (e - b) (bm_allocation_size cap)) as [|L]; [discriminate|]. assert (Hs : mkBm b (e - b) cap 0 = s) by congruence. subst s.
  unfold bm_allocation_size in L.
  assert (Hc : cap < two64) by (unfold two64; lia).
  assert (Ko : Forall (bop_ok cap) (concat progs)) by now apply Forall_concat.
  assert (Inv : cbinv b (e - b) cap m (concat progs) (fst z) (snd z)).
  { unfold z, outcome, bstart. apply run_inv; [intros; eapply cbinv_step; eauto|].
    apply cbinv_start; auto. intros; apply A5; lia. }
  destruct (cbinv_done b (e - b) cap m (concat progs) Hc L Ko (fst z) (snd z) Inv Fin) as [(F1 & F2 & F3) Hb Hbits Hu Hsm Hf Hfr].
  fold m' in Hb, Hbits, Hfr. fold s' in F1, F2, F3, Hbits, Hu, Hsm, Hf.
  assert (SZ : bm_size s' = 8 * bm_used s').
  { unfold bm_size, mul64, two64. rewrite N.mod_small by lia. lia. }
  assert (CB : cap <= 64 * bucket_count cap).
  { pose proof (N.div_mod (cap + 64 - 1) 64 ltac:(lia)). pose proof (N.mod_lt (cap + 64 - 1) 64 ltac:(lia)).
    unfold bucket_count, bits_per_bucket. lia. }
  split; [|split; [|split; [|split]]].
  - intros i Hi. exists (mbit m' s' i). split; [apply is_set_spec; lia|]. apply Hbits.
    pose proof (bucket_count_ge cap i Hi). lia.
  - intros a Ha. apply Hfr. lia.
  - intros i o Ho Ha. rewrite SZ. assert (U : i / 64 < bm_used s') by (apply Hu; exists o; auto).
    pose proof (N.div_mod i 64 ltac:(lia)). pose proof (N.mod_lt i 64 ltac:(lia)). lia.
  - intros Hsz. unfold bm_content. rewrite SZ. eexists. split; [apply py_set_bits_spec|]. split.
    + apply filter_sorted, nseq_sorted.
    + intros i. rewrite filter_In, in_nseq. split.
      * intros [Hi Hm]. apply Hbits in Hm; [exact Hm|].
        assert (i / 64 < bm_used s') by (apply N.div_lt_upper_bound; lia). lia.
      * intros H. assert (U : i / 64 < bm_used s') by (apply Hu; exact H).
        pose proof (N.div_mod i 64 ltac:(lia)). pose proof (N.mod_lt i 64 ltac:(lia)).
        split; [lia|]. apply Hbits; [lia|exact H].
  - intros H. rewrite Forall_forall in H. specialize (Hf H). lia.
Qed.
Print Assumptions C21_nothing_lost.

(** C21: at no moment, finished or not, is a bit set that no call asked for. *)
Theorem C21_no_spurious_bits : forall m cap b e s progs schedule i,
  fresh_bitmap m cap b e s -> Forall (Forall (bop_ok cap)) progs -> i < cap ->
  let z := fst (outcome m s progs schedule) in
  bm_is_set (bs_mem z) (bs_map z) i = Ok true -> exists o, In o (concat progs) /\ asks o i.
Proof.
  intros m cap b e s progs schedule i (A1 & A2 & A3 & A4 & A5 & A6) K Hi z Q.
  change (2 ^ 63) with 9223372036854775808 in *.
  unfold bm_new in A6. destruct (negb ((e - b) mod bm_align_of =? 0)); [discriminate|].
  destruct (N.ltb_spec (e - b) (bm_allocation_size cap)) as [|L]; [discriminate|]. assert (Hs : mkBm b (e - b) cap 0 = s) by congruence. subst s.
  unfold bm_allocation_size in L.
  assert (Hc : cap < two64) by (unfold two64; lia).
  assert (Ko : Forall (bop_ok cap) (concat progs)) by now apply Forall_concat.
  assert (Inv : cbinv b (e - b) cap m (concat progs) (fst (outcome m (mkBm b (e - b) cap 0) progs schedule))
                  (snd (outcome m (mkBm b (e - b) cap 0) progs schedule))).
  { unfold outcome, bstart. apply run_inv; [intros; eapply cbinv_step; eauto|].
    apply cbinv_start; auto. intros; apply A5; lia. }
  fold z in Inv. destruct Inv as [(G1 & G2 & G3) By On _ _ _ _ _].
  rewrite is_set_spec in Q by (rewrite G3; exact Hi). injection Q as Q. apply On; [|exact Q].
  pose proof (bucket_count_ge cap i Hi). lia.
Qed.
Print Assumptions C21_no_spurious_bits.

(** C21: a bit once set stays set whatever runs next. *)
Theorem C21_bits_stay : forall m cap b e s progs before after i,
  fresh_bitmap m cap b e s -> Forall (Forall (bop_ok cap)) progs -> i < cap ->
  let z := fst (outcome m s progs before) in
  let z' := fst (outcome m s progs (before ++ after)) in
  bm_is_set (bs_mem z) (bs_map z) i = Ok true -> bm_is_set (bs_mem z') (bs_map z') i = Ok true.
Proof.
  intros m cap b e s progs before after i (A1 & A2 & A3 & A4 & A5 & A6) K Hi z z' Q.
  change (2 ^ 63) with 9223372036854775808 in *.
  unfold bm_new in A6. destruct (negb ((e - b) mod bm_align_of =? 0)); [discriminate|].
  destruct (N.ltb_spec (e - b) (bm_allocation_size cap)) as [|L]; [discriminate|]. assert (Hs : mkBm b (e - b) cap 0 = s) by congruence. subst s.
  unfold bm_allocation_size in L.
  assert (Hc : cap < two64) by (unfold two64; lia).
  assert (Ko : Forall (bop_ok cap) (concat progs)) by now apply Forall_concat.
  assert (Inv : cbinv b (e - b) cap m (concat progs) (fst (outcome m (mkBm b (e - b) cap 0) progs before))
                  (snd (outcome m (mkBm b (e - b) cap 0) progs before))).
  { unfold outcome, bstart. apply run_inv; [intros; eapply cbinv_step; eauto|].
    apply cbinv_start; auto. intros; apply A5; lia. }
  fold z in Inv. assert (Q' : mbit (bs_mem z) (bs_map z) i = true).
  { destruct Inv as [(G1 & G2 & G3) _ _ _ _ _ _ _]. rewrite is_set_spec in Q by (rewrite G3; exact Hi). congruence. }
  assert (Fin : cbinv b (e - b) cap m (concat progs) z' (snd (outcome m (mkBm b (e - b) cap 0) progs (before ++ after))) /\
                mbit (bs_mem z') (bs_map z') i = true).
  { unfold z', outcome. rewrite run_app. fold (outcome m (mkBm b (e - b) cap 0) progs before). unfold z in *.
    destruct (outcome m (mkBm b (e - b) cap 0) progs before) as [s1 ts1]. cbn [fst snd] in *.
    apply (run_inv bstep (fun s ts => cbinv b (e - b) cap m (concat progs) s ts /\ mbit (bs_mem s) (bs_map s) i = true)); [|auto].
    intros s ts k ch t t' s' [I1 I2] G E. split; [eapply cbinv_step; eauto|eapply bstep_mono; eauto]. }
  destruct Fin as [[(G1 & G2 & G3) _ _ _ _ _ _ _] F2]. rewrite is_set_spec by (rewrite G3; exact Hi). now rewrite F2.
Qed.
Print Assumptions C21_bits_stay.

(** C21: no call waits for another thread.  Whatever has run before, a thread that runs alone
    (without spurious failures) returns from all of its calls. *)
Theorem C21_never_blocked : forall m cap b e s progs before i,
  fresh_bitmap m cap b e s -> Forall (Forall (bop_ok cap)) progs -> i < len progs ->
  exists n t, get (snd (outcome m s progs (before ++ repeat (i, false) n))) i = Some t /\ bfinished t.
Proof.
  intros m cap b e s progs before i (A1 & A2 & A3 & A4 & A5 & A6) K Hi.
  change (2 ^ 63) with 9223372036854775808 in *.
  unfold bm_new in A6. destruct (negb ((e - b) mod bm_align_of =? 0)); [discriminate|].
  destruct (N.ltb_spec (e - b) (bm_allocation_size cap)) as [|L]; [discriminate|]. assert (Hs : mkBm b (e - b) cap 0 = s) by congruence. subst s.
  unfold bm_allocation_size in L.
  assert (Hc : cap < two64) by (unfold two64; lia).
  assert (Ko : Forall (bop_ok cap) (concat progs)) by now apply Forall_concat.
  assert (Inv : cbinv b (e - b) cap m (concat progs) (fst (outcome m (mkBm b (e - b) cap 0) progs before))
                  (snd (outcome m (mkBm b (e - b) cap 0) progs before))).
  { unfold outcome, bstart. apply run_inv; [intros; eapply cbinv_step; eauto|].
    apply cbinv_start; auto. intros; apply A5; lia. }
  assert (Ln : len (snd (outcome m (mkBm b (e - b) cap 0) progs before)) = len progs).
  { unfold outcome, bstart. rewrite run_threads. unfold len. now rewrite !map_length. }
  unfold outcome in *. destruct (run bstep (bstart m (mkBm b (e - b) cap 0) (map (map call_of) progs)) before) as [s1 ts1] eqn:R. cbn [fst snd] in *.
  destruct (get ts1 i) as [[now todo]|] eqn:G; [|apply get_none in G; lia].
  destruct Inv as [(G1 & G2 & G3) _ _ _ _ _ Th _]. destruct (Th i _ G) as [_ Td]. cbn [bt_todo] in Td.
  destruct (solo_all i cap (e - b) todo) with (now := now) (s := s1) (ts := ts1) as (n & Q & _); [| |exact G|].
  - intros c I. destruct (Td c I) as (o & I2 & ->). rewrite Forall_forall in Ko. destruct (accesses_spec cap (e - b) o Hc L (Ko o I2)) as (a & E & _). eauto.
  - unfold geo. congruence.
  - exists n, (mkBt [] []). rewrite run_app, R. split; [exact Q|]. split; reflexivity.
Qed.
Print Assumptions C21_never_blocked.

(** Two threads racing on the same bucket: both load it, one compare-exchange succeeds, the
    other fails, reloads and succeeds; a third operation fills a whole bucket. *)
Example C21_case :
  let progs := [[BSet 3; BRange 64 64]; [BRange 1 5]] in
  let schedule := [(0, false); (1, false); (0, false); (1, false); (0, true); (0, false); (1, false); (1, false);
                   (0, false); (0, false); (1, false); (1, false); (1, false); (0, false); (0, false); (0, false); (0, false)] in
  exists s, fresh_bitmap mem_zero 192 4096 4120 s /\ Forall (Forall (bop_ok 192)) progs /\
    Forall bfinished (snd (outcome mem_zero s progs schedule)) /\
    Forall (fun o => ~ range_in_last_bucket 192 o) (concat progs) /\
    py_set_bits (bm_content (bs_mem (fst (outcome mem_zero s progs schedule))) (bs_map (fst (outcome mem_zero s progs schedule)))) =
      Ok ([1; 2; 3; 4; 5] ++ nseq 64 64).
Proof.
  intros progs schedule. exists (mkBm 4096 24 192 0). split; [|split; [|split; [|split]]].
  - repeat (split; [first [vm_compute; congruence | reflexivity | intros; reflexivity]|]). vm_compute. reflexivity.
  - repeat (apply Forall_cons || apply Forall_nil); cbn [bop_ok]; lia.
  - match goal with |- Forall _ ?l => assert (E : l = [mkBt [] []; mkBt [] []]) by (vm_compute; reflexivity); rewrite E end.
    repeat (apply Forall_cons || apply Forall_nil); split; reflexivity.
  - repeat (apply Forall_cons || apply Forall_nil); unfold range_in_last_bucket; change (bucket_count 192) with 3; lia.
  - vm_compute. reflexivity.
Qed.
