(** C22: concurrent allocations in a section. *)
From Coq Require Import NArith List Bool Lia Permutation.
From Verif Require Import M_Base M_Memory M_Section M_Conc M_ConcSection S_Section S_ConcSection
  P_Base P_Memory P_Section P_Conc P_ConcSection.
Import ListNotations.
Open Scope N_scope.

(** The state reached from a section [s] with [progs] to run, under a schedule. *)
Definition reached (m : mem) (s : sect) (progs : list (list (list N))) (schedule : list (N * unit)) : sshared :=
  fst (run sstep (sstart m s progs) schedule).
Definition small (progs : list (list (list N))) : Prop := Forall (Forall (fun r => len r < 2 ^ 64)) progs.

Lemma reached_facts m s progs schedule : section_ok s -> small progs ->
  exists m1 s1, replays m s (ss_log (reached m s progs schedule)) m1 s1 /\
    Forall (fun x => len (fst x) < two64) (ss_log (reached m s progs schedule)) /\
    sbeg (ss_sect (reached m s progs schedule)) = sbeg s /\ send (ss_sect (reached m s progs schedule)) = send s /\
    (forall a, a < wit s1 \/ send s <= a -> ss_mem (reached m s progs schedule) a = m1 a) /\
    (ss_lock (reached m s progs schedule) = None ->
       ss_sect (reached m s progs schedule) = s1 /\ forall a, ss_mem (reached m s progs schedule) a = m1 a).
Proof.
  intros K F. unfold reached. destruct (sinv_run m s progs schedule) as ((m1 & s1 & R & L) & O & P).
  set (z := fst (run sstep (sstart m s progs) schedule)) in *.
  set (ts := snd (run sstep (sstart m s progs) schedule)) in *.
  assert (FP : Forall (fun r => len r < two64) (concat progs)).
  { apply Forall_concat. exact F. }
  assert (Fall : Forall (fun r => len r < two64) (map fst (ss_log z) ++ concat (map sleft ts))) by (eapply Permutation_Forall; eauto).
  apply Forall_app in Fall. destruct Fall as [FL FT].
  assert (FL' : Forall (fun x => len (fst x) < two64) (ss_log z)) by (now apply Forall_map in FL).
  exists m1, s1. split; [exact R|]. split; [exact FL'|].
  destruct (replays_spec _ _ _ _ _ K FL' R) as (A & B & C & D & _).
  destruct (ss_lock z) as [i|] eqn:El.
  - destruct L as (t & G & H).
    assert (Ft : forall r, In r (sleft t) -> len r < two64).
    { intros r Ir. rewrite Forall_forall in FT. apply FT. apply in_concat. exists (sleft t). split; [|exact Ir].
      apply in_map. unfold get in G. now apply nth_error_In in G. }
    assert (Goal1 : sbeg (ss_sect z) = sbeg s /\ send (ss_sect z) = send s /\
       (forall a, a < wit s1 \/ send s <= a -> ss_mem z a = m1 a)).
    { destruct t as [todo|r todo|r p k todo|r todo]; cbn [sholds] in H.
      - contradiction.
      - destruct H as [-> H]. auto.
      - destruct H as (H1 & H2 & H3).
        destruct (sect_write_some _ _ _ _ A (Ft r (or_introl eq_refl)) H1) as (-> & E2 & Fit & K1).
        rewrite E2. cbn [sbeg send]. split; [exact B|]. split; [exact C|]. intros a Ha. rewrite H3. apply store_other.
        assert (Lf : len (firstn (N.to_nat k) r) = k). { unfold len. rewrite firstn_length_le; unfold len in *; lia. }
        rewrite Lf. lia.
      - destruct H as (-> & H & _). auto. }
    destruct Goal1 as (G1 & G2 & G3). split; [exact G1|]. split; [exact G2|]. split; [exact G3|]. discriminate.
  - destruct L as [-> L]. auto.
Qed.

(** C22: for any number of threads, any records and any schedule, at every moment: two
    granted requests never share a byte; every granted region lies inside the section; every
    record that has been written is still there, byte for byte; no byte outside of the
    section has changed; and what was refused did not fit. *)
Theorem C22_disjoint : forall m s progs schedule,
  section_ok s -> small progs ->
  let z := reached m s progs schedule in
  (forall i j r p q k, i <> j -> get (ss_log z) i = Some (r, Some p) -> get (ss_log z) j = Some (q, Some k) ->
     p + len r <= k \/ k + len q <= p) /\
  (forall r p, In (r, Some p) (ss_log z) ->
     wit s <= p /\ p + len r <= send s /\ load (ss_mem z) p (len r) = r) /\
  (forall a, a < wit s \/ send s <= a -> ss_mem z a = m a) /\
  (forall r, In (r, None) (ss_log z) -> ss_lock z = None -> send s < wit (ss_sect z) + len r).
Proof.
  intros m s progs schedule K F z. destruct (reached_facts m s progs schedule K F) as (m1 & s1 & R & FL & B & C & M & U).
  destruct (replays_spec _ _ _ _ _ K FL R) as (A & Bs & Cs & D & Fr & Rd & Or & Rf & _).
  assert (W : wit s1 <= send s) by (rewrite <- Cs; apply A).
  split; [|split; [|split]].
  - intros i j r p q k Hne Gi Gj. destruct (N.lt_ge_cases i j) as [L|L].
    + left. eapply (Or i j); eauto.
    + right. eapply (Or j i); eauto. lia.
  - intros r p I. destruct (Rd r p I) as (R1 & R2 & R3). split; [exact R1|]. split; [lia|].
    rewrite <- R3 at 2. apply load_ext. intros x X1 X2. apply M. lia.
  - intros a Ha. rewrite M by lia. apply Fr. lia.
  - intros r I El. destruct (U El) as [E _]. fold z in E. rewrite E. now apply Rf.
Qed.
Print Assumptions C22_disjoint.

(** C22: whenever the lock is free, the state and all answers are those of making the same
    calls one after the other, in the order in which they finished. *)
Theorem C22_as_if_sequential : forall m s progs schedule,
  section_ok s -> small progs -> ss_lock (reached m s progs schedule) = None ->
  replays m s (ss_log (reached m s progs schedule))
    (ss_mem (reached m s progs schedule)) (ss_sect (reached m s progs schedule)).
Proof.
  intros m s progs schedule K F El. destruct (reached_facts m s progs schedule K F) as (m1 & s1 & R & FL & B & C & M & U).
  destruct (U El) as [-> E]. eapply replays_end_ext; [|exact R]. intros a. now rewrite E.
Qed.
Print Assumptions C22_as_if_sequential.

(** ... and once every thread has finished, every call has been answered exactly once. *)
Theorem C22_all_answered : forall m s progs schedule,
  Forall sfinished (snd (run sstep (sstart m s progs) schedule)) ->
  Permutation (map fst (ss_log (reached m s progs schedule))) (concat progs).
Proof.
  intros m s progs schedule F. destruct (sinv_run m s progs schedule) as (_ & _ & P).
  assert (E : concat (map sleft (snd (run sstep (sstart m s progs) schedule))) = []).
  { clear P. induction F as [|t l Ht F IH]; [reflexivity|]. cbn [map concat]. rewrite Ht. exact IH. }
  rewrite E, app_nil_r in P. symmetry. exact P.
Qed.
Print Assumptions C22_all_answered.

(** C22: records of one size get pairwise different indices, every index up to the number of
    granted records is used, and the record can be found under its index. *)
Theorem C22_indices : forall m b e es progs schedule,
  b <= e -> e < 2 ^ 64 -> 1 <= es -> es < 2 ^ 64 -> Forall (Forall (fun r => len r = es)) progs ->
  let z := reached m (sect_new b e) progs schedule in
  (forall r p, In (r, Some p) (ss_log z) ->
     exists i, sect_index (ss_sect z) es p = Ok i /\ entry (ss_mem z) (ss_sect z) es i = r) /\
  (forall i j r p q k x, i <> j -> get (ss_log z) i = Some (r, Some p) -> get (ss_log z) j = Some (q, Some k) ->
     sect_index (ss_sect z) es p = Ok x -> sect_index (ss_sect z) es k <> Ok x).
Proof.
  intros m b e es progs schedule Hb He E1 E2 F z.
  assert (K : section_ok (sect_new b e)) by (repeat split; cbn; unfold two64; lia).
  assert (Fs : small progs).
  { unfold small. eapply Forall_impl; [|exact F]. intros l. apply Forall_impl. intros a ->. exact E2. }
  destruct (reached_facts m _ progs schedule K Fs) as (m1 & s1 & R & FL & B & C & M & U).
  destruct (C22_disjoint m _ progs schedule K Fs) as (_ & In2 & _).
  assert (Fes : Forall (fun x => len (fst x) = es) (ss_log z)).
  { destruct (sinv_run m (sect_new b e) progs schedule) as (_ & _ & P).
    assert (FP : Forall (fun r => len r = es) (concat progs)) by (now apply Forall_concat).
    assert (Fall := Permutation_Forall P FP). apply Forall_app in Fall. destruct Fall as [Fall _].
    now apply Forall_map in Fall. }
  fold z in B, C, M, U, R, FL. cbn [sbeg send sect_new] in *.
  (* every granted address is a multiple of the record size away from the start *)
  assert (Mult : forall log mm s mm' s' k, section_ok s -> Forall (fun x => len (fst x) = es) log ->
     wit s = sbeg s + es * k -> replays mm s log mm' s' -> forall r p, In (r, Some p) log -> exists i, p = sbeg s + es * i).
  { intros log. induction log as [|[r0 a] log IH]; intros mm s mm' s' k Ks Fl W Rp r p Ir; [contradiction|].
    inversion_clear Fl as [|? ? F1 F2]. cbn [fst] in F1. cbn [replays] in Rp. unfold construct in Rp.
    assert (L64 : len r0 < two64) by (rewrite F1; exact E2).
    destruct (sect_write s (len r0)) as [[q s2]|] eqn:Ew; destruct Rp as [Ea Rp].
    - destruct (sect_write_some _ _ _ _ Ks L64 Ew) as (-> & -> & Fit & K1).
      destruct Ir as [Q|Ir].
      + exists k. assert (p = wit s) by congruence. lia.
      + apply (IH _ _ _ _ (k + 1) K1 F2) with (r := r) (p := p) in Rp; [exact Rp| |exact Ir].
        cbn [wit sbeg]. rewrite W, F1. lia.
    - destruct Ir as [Q|Ir]; [congruence|]. eapply (IH _ _ _ _ k Ks F2 W Rp); eauto. }
  assert (Idx : forall r p, In (r, Some p) (ss_log z) -> exists i, p = b + es * i /\ sect_index (ss_sect z) es p = Ok i).
  { intros r p Ir. destruct (Mult _ _ _ _ _ 0 K Fes ltac:(cbn; lia) R r p Ir) as (i & Hi). cbn in Hi. exists i. split; [exact Hi|].
    destruct (In2 r p Ir) as (_ & X2 & _).
    assert (Lr : len r = es) by (rewrite Forall_forall in Fes; apply (Fes _ Ir)).
    apply holds_index; [exact E1|congruence|]. rewrite C. lia. }
  split.
  - intros r p Ir. destruct (Idx r p Ir) as (i & Hi & Si). exists i. split; [exact Si|].
    unfold entry. rewrite B, <- Hi. destruct (In2 r p Ir) as (_ & _ & X3).
    assert (Lr : len r = es) by (rewrite Forall_forall in Fes; apply (Fes _ Ir)).
    rewrite <- Lr. exact X3.
  - intros i j r p q k x Hne Gi Gj Sp Sk.
    assert (Ii : In (r, Some p) (ss_log z)) by (unfold get in Gi; now apply nth_error_In in Gi).
    assert (Ij : In (q, Some k) (ss_log z)) by (unfold get in Gj; now apply nth_error_In in Gj).
    destruct (C22_disjoint m (sect_new b e) progs schedule K Fs) as (Dj & _ & _).
    specialize (Dj i j r p q k Hne Gi Gj).
    destruct (Idx r p Ii) as (i1 & H1 & S1). destruct (Idx q k Ij) as (i2 & H2 & S2).
    assert (i1 = x) by congruence. assert (i2 = x) by congruence. subst i1 i2.
    assert (Lr : len r = es) by (rewrite Forall_forall in Fes; apply (Fes _ Ii)).
    assert (Lq : len q = es) by (rewrite Forall_forall in Fes; apply (Fes _ Ij)). lia.
Qed.
Print Assumptions C22_indices.

(** Three threads, two-byte records, a section with room for three of four: thread 1 is
    blocked while thread 0 is in the middle of its record. *)
Example C22_case :
  let progs := [[[1; 2]; [3; 4]]; [[5; 6]]; [[7; 8]]] in
  let schedule := [(0, tt); (0, tt); (0, tt); (1, tt); (0, tt); (0, tt); (1, tt); (1, tt); (0, tt); (1, tt); (1, tt); (1, tt);
                   (2, tt); (2, tt); (2, tt); (2, tt); (2, tt); (0, tt); (0, tt); (0, tt)] in
  section_ok (sect_new 4096 4102) /\ small progs /\ Forall (Forall (fun r => len r = 2)) progs /\
  ss_log (reached mem_zero (sect_new 4096 4102) progs schedule) =
    [([1; 2], Some 4096); ([5; 6], Some 4098); ([7; 8], Some 4100); ([3; 4], None)] /\
  Forall sfinished (snd (run sstep (sstart mem_zero (sect_new 4096 4102) progs) schedule)).
Proof.
  split; [repeat split; vm_compute; congruence|].
  split; [repeat (apply Forall_cons || apply Forall_nil); vm_compute; reflexivity|].
  split; [repeat (apply Forall_cons || apply Forall_nil); vm_compute; reflexivity|].
  split; [vm_compute; reflexivity|].
  match goal with |- Forall _ ?l => assert (E : l = [SIdle []; SIdle []; SIdle []]) by (vm_compute; reflexivity); rewrite E end.
  repeat (apply Forall_cons || apply Forall_nil); reflexivity.
Qed.
