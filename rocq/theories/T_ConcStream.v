(** C24: offsets of concurrent writes to streams. *)
From Coq Require Import NArith List Bool Lia.
From Verif Require Import M_Base M_Sources M_Conc M_ConcStream S_Section P_Base P_Section P_Conc.
Import ListNotations.
Open Scope N_scope.

(** The intervals (offset, length) handed out for output [idx], in the order in which the
    calls finished. *)
Fixpoint intervals (idx : N) (l : list wrote) : list (N * N) :=
  match l with
  | [] => []
  | w :: r => if w_idx w =? idx then (w_off w, w_len w) :: intervals idx r else intervals idx r
  end.
(** The number of bytes written to output [idx]. *)
Fixpoint total (idx : N) (l : list wrote) : N :=
  match l with
  | [] => 0
  | w :: r => (if w_idx w =? idx then w_len w else 0) + total idx r
  end.

Lemma intervals_app idx a b : intervals idx (a ++ b) = intervals idx a ++ intervals idx b.
Proof. induction a as [|w a IH]; [reflexivity|]. cbn [app intervals]. destruct (w_idx w =? idx); cbn [app]; now rewrite IH. Qed.
Lemma total_app idx a b : total idx (a ++ b) = total idx a + total idx b.
Proof. induction a as [|w a IH]; [reflexivity|]. cbn [app total]. rewrite IH. lia. Qed.
Lemma tiles_snoc a b l n : tiles a b l -> tiles a (b + n) (l ++ [(b, n)]).
Proof. revert a. induction l as [|[p k] l IH]; intros a T; cbn in *; [subst; auto|]. destruct T as [E T]. split; [exact E|]. now apply IH. Qed.

Lemma stream_inv progs schedule :
  let s := fst (run wstep (wstart progs) schedule) in
  forall idx, total idx (ws_log s) < two64 ->
    tiles 0 (total idx (ws_log s)) (intervals idx (ws_log s)) /\ ws_off s idx = total idx (ws_log s).
Proof.
  cbv zeta. unfold wstart.
  refine (run_inv wstep (fun s _ => forall idx, total idx (ws_log s) < two64 ->
    tiles 0 (total idx (ws_log s)) (intervals idx (ws_log s)) /\ ws_off s idx = total idx (ws_log s)) _ _ _ _ _).
  - intros s ts i ch t t' s' H G E idx. unfold wstep in E.
    destruct (wt_mid t) as [[[j n] p]|].
    + unfold stream_increase in E. destruct (stream_count <=? j); [discriminate|].
      injection E as <- <-. cbn [ws_log ws_off]. rewrite total_app, intervals_app. cbn [total w_idx w_len intervals w_off].
      rewrite (N.eqb_sym j idx).
      destruct (N.eqb_spec idx j) as [->|Hne].
      * rewrite N.add_0_r. intros L. destruct (H j) as [H1 H2]; [lia|]. split.
        -- rewrite H2. now apply tiles_snoc.
        -- rewrite H2. unfold add64. now apply N.mod_small.
      * rewrite app_nil_r. replace (total idx (ws_log s) + (0 + 0)) with (total idx (ws_log s)) by lia. apply H.
    + destruct (wt_todo t) as [|[j n] rest]; [discriminate|]. injection E as <- <-. apply H.
  - intros idx _. cbn. auto.
Qed.

(** C24: for any number of threads, any programs and any schedule, the intervals handed out
    for one output, in the order in which the calls finished, lie end to end from zero up to
    the number of bytes written. *)
Theorem C24_stream_offsets : forall progs schedule idx,
  let log := ws_log (fst (run wstep (wstart progs) schedule)) in
  total idx log < 2 ^ 64 -> tiles 0 (total idx log) (intervals idx log).
Proof. intros progs schedule idx log L. apply stream_inv. exact L. Qed.
Print Assumptions C24_stream_offsets.

(** In particular two different calls never share a position, and every position below the
    total belongs to some call. *)
Theorem C24_disjoint : forall progs schedule idx i j o n p k,
  let log := ws_log (fst (run wstep (wstart progs) schedule)) in
  total idx log < 2 ^ 64 -> i < j ->
  get (intervals idx log) i = Some (o, n) -> get (intervals idx log) j = Some (p, k) -> o + n <= p.
Proof.
  intros progs schedule idx i j o n p k log L Hij Gi Gj.
  assert (T : tiles 0 (total idx log) (intervals idx log)) by (apply stream_inv; exact L).
  revert T i j Gi Gj Hij. generalize (total idx log) 0. induction (intervals idx log) as [|[p0 n0] g IH]; intros e a T i j Gi Gj Hij.
  - rewrite get_nil in Gi; discriminate.
  - cbn in T. destruct T as [-> T]. rewrite get_cons_S in Gj by lia.
    destruct (N.eqb_spec i 0) as [->|Hi].
    + cbn in Gi. injection Gi as <- <-. apply (tiles_lower _ _ _ T p k).
      unfold get in Gj. now apply nth_error_In in Gj.
    + rewrite get_cons_S in Gi by lia. apply (IH e _ T (i - 1) (j - 1)); auto. lia.
Qed.
Print Assumptions C24_disjoint.

Theorem C24_gapless : forall progs schedule idx x,
  let log := ws_log (fst (run wstep (wstart progs) schedule)) in
  total idx log < 2 ^ 64 -> x < total idx log ->
  exists o n, In (o, n) (intervals idx log) /\ o <= x /\ x < o + n.
Proof.
  intros progs schedule idx x log L.
  assert (T : tiles 0 (total idx log) (intervals idx log)) by (apply stream_inv; exact L).
  revert T. assert (Hx : 0 <= x) by lia. revert Hx. generalize (total idx log) 0.
  induction (intervals idx log) as [|[p0 n0] g IH]; intros e a Ha T Hx; cbn in T; [lia|].
  destruct T as [-> T]. destruct (N.lt_ge_cases x (a + n0)) as [C|C].
  - exists a, n0. split; [now left|]. lia.
  - destruct (IH e (a + n0) C T Hx) as (o & n & I & B). exists o, n. split; [now right|exact B].
Qed.
Print Assumptions C24_gapless.

(** Two threads on two outputs, interleaved. *)
Example C24_case :
  let log := ws_log (fst (run wstep (wstart [[(3, 10); (4, 1)]; [(3, 7)]])
                       [(0, tt); (1, tt); (1, tt); (0, tt); (0, tt); (0, tt)])) in
  intervals 3 log = [(0, 7); (7, 10)] /\ intervals 4 log = [(0, 1)] /\ total 3 log = 17 /\ total 3 log < 2 ^ 64.
Proof. vm_compute. auto. Qed.

(** When one thread only writes to an output, the offset recorded for each of its writes is
    the position at which the kernel put the bytes ... *)
Definition only_writer (progs : list (list (N * N))) (idx k : N) : Prop :=
  forall j prog n, get progs j = Some prog -> In (idx, n) prog -> j = k.

Lemma sole_inv progs schedule idx k : only_writer progs idx k ->
  let s := fst (run wstep (wstart progs) schedule) in
  let ts := snd (run wstep (wstart progs) schedule) in
  (forall j t, get ts j = Some t -> forall n, In (idx, n) (wt_todo t) -> j = k) /\
  (forall j t n p, get ts j = Some t -> wt_mid t = Some (idx, n, p) ->
     j = k /\ (ws_pos s idx < two64 -> p = ws_off s idx /\ ws_pos s idx = p + n)) /\
  ((forall t, get ts k = Some t -> forall n p, wt_mid t <> Some (idx, n, p)) ->
     ws_pos s idx < two64 -> ws_pos s idx = ws_off s idx) /\
  (ws_pos s idx < two64 -> forall w, In w (ws_log s) -> w_idx w = idx -> w_off w = w_pos w).
Proof.
  intros O. cbv zeta. unfold wstart.
  set (I := fun (s : wshared) (ts : list wthread) =>
  (forall j t, get ts j = Some t -> forall n, In (idx, n) (wt_todo t) -> j = k) /\
  (forall j t n p, get ts j = Some t -> wt_mid t = Some (idx, n, p) ->
     j = k /\ (ws_pos s idx < two64 -> p = ws_off s idx /\ ws_pos s idx = p + n)) /\
  ((forall t, get ts k = Some t -> forall n p, wt_mid t <> Some (idx, n, p)) ->
     ws_pos s idx < two64 -> ws_pos s idx = ws_off s idx) /\
  (ws_pos s idx < two64 -> forall w, In w (ws_log s) -> w_idx w = idx -> w_off w = w_pos w)).
  change (I (fst (run wstep (mkWs (fun _ => 0) (fun _ => 0) [], map (mkWt None) progs) schedule))
            (snd (run wstep (mkWs (fun _ => 0) (fun _ => 0) [], map (mkWt None) progs) schedule))).
  apply run_inv.
  - intros s ts i ch t t' s' (H1 & H2 & H3 & H4) G E. unfold wstep in E.
    assert (Li : i < len ts) by (eapply get_some; eauto).
    destruct (wt_mid t) as [[[j n] p]|] eqn:Em.
    + unfold stream_increase in E. destruct (stream_count <=? j); [discriminate|].
      injection E as <- <-. unfold I. cbn [ws_pos ws_off ws_log].
      split; [|split; [|split]].
      * intros a b Ga. destruct (N.eq_dec a i) as [->|Ha].
        -- rewrite get_upd_eq in Ga by auto. injection Ga as <-. apply (H1 i t G).
        -- rewrite get_upd_neq in Ga by auto. eapply H1; eauto.
      * intros a b n' p' Ga Mb. destruct (N.eq_dec a i) as [->|Ha].
        -- rewrite get_upd_eq in Ga by auto. injection Ga as <-. discriminate Mb.
        -- rewrite get_upd_neq in Ga by auto. destruct (H2 a b n' p' Ga Mb) as [-> H2b]. split; [reflexivity|].
           destruct (N.eqb_spec idx j) as [->|Hne]; [|exact H2b].
           destruct (H2 i t n p G Em) as [-> _]. congruence.
      * intros Hno Hp. destruct (N.eqb_spec idx j) as [->|Hne].
        -- destruct (H2 i t n p G Em) as [-> H2b]. destruct (H2b Hp) as [Q1 Q2]. rewrite <- Q1, Q2.
           unfold add64. rewrite N.mod_small; [reflexivity|]. lia.
        -- apply H3; [|exact Hp]. intros b Gb n' p' Mb. destruct (N.eq_dec k i) as [->|Hk].
           ++ rewrite G in Gb. injection Gb as <-. congruence.
           ++ apply (Hno b) with (n := n') (p := p'); [|exact Mb]. rewrite get_upd_neq by auto. exact Gb.
      * intros Hp w Iw Hw. apply in_app_or in Iw. destruct Iw as [Iw|[<-|[]]]; [now apply H4|].
        cbn [w_idx w_off w_pos] in *. subst j. destruct (H2 i t n p G Em) as [_ H2b]. destruct (H2b Hp) as [Q _]. congruence.
    + destruct (wt_todo t) as [|[j n] rest] eqn:Et; [discriminate|]. injection E as <- <-.
      unfold I. cbn [ws_pos ws_off ws_log].
      split; [|split; [|split]].
      * intros a b Ga m Im. destruct (N.eq_dec a i) as [->|Ha].
        -- rewrite get_upd_eq in Ga by auto. injection Ga as <-. apply (H1 i t G m). rewrite Et. now right.
        -- rewrite get_upd_neq in Ga by auto. eapply H1; eauto.
      * intros a b n' p' Ga Mb. destruct (N.eq_dec a i) as [->|Ha].
        -- rewrite get_upd_eq in Ga by auto. injection Ga as <-. cbn [wt_mid] in Mb. injection Mb as -> -> <-.
           assert (i = k) as -> by (apply (H1 i t G n'); rewrite Et; now left).
           split; [reflexivity|]. rewrite N.eqb_refl. intros Hp. split; [|reflexivity].
           apply H3; [|lia]. intros b Gb n p Mb. rewrite G in Gb. injection Gb as <-. congruence.
        -- rewrite get_upd_neq in Ga by auto. destruct (H2 a b n' p' Ga Mb) as [-> H2b]. split; [reflexivity|].
           destruct (N.eqb_spec idx j) as [->|Hne]; [|exact H2b].
           exfalso. apply Ha. symmetry. apply (H1 i t G n). rewrite Et. now left.
      * intros Hno Hp. destruct (N.eqb_spec idx j) as [->|Hne].
        -- exfalso. assert (i = k) as -> by (apply (H1 i t G n); rewrite Et; now left).
           apply (Hno _ (get_upd_eq _ _ _ Li) n (ws_pos s j)). reflexivity.
        -- apply H3; [|exact Hp]. intros b Gb n' p' Mb. destruct (N.eq_dec k i) as [->|Hk].
           ++ rewrite G in Gb. injection Gb as <-. congruence.
           ++ apply (Hno b) with (n := n') (p := p'); [|exact Mb]. rewrite get_upd_neq by auto. exact Gb.
      * intros Hp. apply H4. destruct (N.eqb_spec idx j) as [->|]; lia.
  - unfold I. cbn [ws_pos ws_off ws_log].
    assert (GM : forall j t, get (map (mkWt None) progs) j = Some t -> exists prog, get progs j = Some prog /\ t = mkWt None prog).
    { intros j t Gt. unfold get in *. rewrite nth_error_map in Gt. destruct (nth_error progs (N.to_nat j)) eqn:Ep; [|discriminate].
      cbn in Gt. injection Gt as <-. eauto. }
    split; [|split; [|split]].
    + intros j t Gt n It. destruct (GM j t Gt) as (prog & Gp & ->). eapply O; eauto.
    + intros j t n p Gt Mt. destruct (GM j t Gt) as (prog & Gp & ->). discriminate Mt.
    + reflexivity.
    + intros _ w [].
Qed.

Theorem C24_single_writer_positions : forall progs schedule idx k,
  only_writer progs idx k ->
  let s := fst (run wstep (wstart progs) schedule) in
  ws_pos s idx < 2 ^ 64 -> forall w, In w (ws_log s) -> w_idx w = idx -> w_off w = w_pos w.
Proof. intros progs schedule idx k O. apply (sole_inv progs schedule idx k O). Qed.
Print Assumptions C24_single_writer_positions.

(** Thread 0 alone writes to output 3 although another thread writes elsewhere. *)
Example C24_case_single : only_writer [[(3, 10); (3, 2); (4, 1)]; [(4, 7)]] 3 0 /\
  map w_off (ws_log (fst (run wstep (wstart [[(3, 10); (3, 2); (4, 1)]; [(4, 7)]])
     [(0, tt); (1, tt); (1, tt); (0, tt); (0, tt); (0, tt)]))) = [0; 0; 10].
Proof.
  split; [|vm_compute; reflexivity]. intros j prog n Gj Ij.
  destruct (N.eqb_spec j 0) as [->|H0]; [reflexivity|]. rewrite get_cons_S in Gj by lia.
  destruct (N.eqb_spec (j - 1) 0) as [E1|H1].
  - rewrite E1 in Gj. cbn in Gj. injection Gj as <-. destruct Ij as [Q|[]]; discriminate Q.
  - rewrite get_cons_S in Gj by lia. rewrite get_nil in Gj. discriminate.
Qed.

(** ... but with two writers of the same stream the bytes can be recorded at each other's
    positions: the offset is taken after the system call, not together with it. *)
Theorem C24_positions_refuted : exists progs schedule w,
  let s := fst (run wstep (wstart progs) schedule) in
  In w (ws_log s) /\ w_len w > 0 /\ w_off w <> w_pos w.
Proof.
  exists [[(3, 10)]; [(3, 7)]], [(0, tt); (1, tt); (1, tt); (0, tt)], (mkWrote 3 7 0 10).
  split; [vm_compute; auto|]. split; [reflexivity|discriminate].
Qed.
Print Assumptions C24_positions_refuted.
