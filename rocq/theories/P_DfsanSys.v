(** Lemmas about system functions that fill in objects. *)
From Coq Require Import NArith ZArith List Bool Lia.
From Verif Require Import M_Base M_Memory M_Labels M_Dfsan M_DfsanStr M_DfsanSys S_Dfsan S_DfsanSys
  P_Base P_Memory P_Dfsan P_DfsanStr P_DfsanFormat.
Import ListNotations.
Open Scope N_scope.

(** [m'] is [m] with the labels of [rs] cleared. *)
Definition cleared (m m' : mem) (rs : list (N * N)) : Prop :=
  same_app m m' /\
  (forall q, app_byte q -> covered rs q -> label_at m' q = 0) /\
  (forall q, app_byte q -> ~ covered rs q -> label_at m' q = label_at m q).

Lemma cleared_nil m : cleared m m [].
Proof. split; [intros x _; reflexivity|]. split; [intros q _ (p & n & [] & _)|reflexivity]. Qed.

Lemma covered_app rs rs' q : covered (rs ++ rs') q <-> covered rs q \/ covered rs' q.
Proof.
  split.
  - intros (p & n & I & W). apply in_app_iff in I as [I|I]; [left|right]; exists p, n; auto.
  - intros [(p & n & I & W)|(p & n & I & W)]; exists p, n; (split; [apply in_app_iff; auto|exact W]).
Qed.

Lemma covered_one p n q : covered [(p, n)] q <-> within p n q.
Proof.
  split; [intros (p' & n' & [E|[]] & W); injection E as <- <-; exact W|]. intros W. exists p, n. split; [now left|exact W].
Qed.

Lemma within_dec p n q : within p n q \/ ~ within p n q.
Proof. unfold within. lia. Qed.

Lemma covered_dec rs q : covered rs q \/ ~ covered rs q.
Proof.
  induction rs as [|[p n] rs IH]; [right; intros (p & n & [] & _)|].
  change ((p, n) :: rs) with ([(p, n)] ++ rs). rewrite covered_app, covered_one.
  destruct (within_dec p n q), IH; tauto.
Qed.

Lemma cleared_app m m1 m2 rs rs' : cleared m m1 rs -> cleared m1 m2 rs' -> cleared m m2 (rs ++ rs').
Proof.
  intros [A [B C]] [A' [B' C']]. split; [intros x X; now rewrite A', A|]. split.
  - intros q Q. rewrite covered_app. intros H. destruct (covered_dec rs' q) as [D|D]; [now apply B'|].
    rewrite C' by assumption. apply B; tauto.
  - intros q Q. rewrite covered_app. intros H. rewrite C' by tauto. apply C; tauto.
Qed.

Lemma clear_ok m p n : object (p, n) -> exists m', clear m p n = Ok m' /\ cleared m m' [(p, n)].
Proof.
  unfold object, clear. cbn [fst snd]. intros [->|[A B]].
  - exists m. split; [apply set_any_none|]. split; [intros x _; reflexivity|].
    split; intros q Q; rewrite covered_one; unfold within; [lia|reflexivity].
  - assert (Ar : app_range p n) by (split; lia). assert (Z0 : 0 < two32) by (unfold two32; lia).
    exists (set_label m 0 p n). split; [now apply set_any_app|]. split.
    + intros x X. apply (set_label_app m 0 p n Z0 Ar); [right; exact B|exact X].
    + split; intros q Q; rewrite covered_one; intros W.
      * replace q with (p + (q - p)) by (unfold within in W; lia).
        apply (set_label_in m 0 p n (q - p) Z0 Ar); [right; exact B|unfold within in W; lia].
      * apply (set_label_out m 0 p n q Z0 Ar); [right; exact B|exact Q|exact W].
Qed.

Lemma clear_nonnull_ok m p n : Forall object (optional p n) ->
  exists m', clear_nonnull m p n = Ok m' /\ cleared m m' (optional p n).
Proof.
  unfold clear_nonnull, optional. destruct (p =? 0); intros F; [exists m; split; [reflexivity|apply cleared_nil]|].
  apply clear_ok. now inversion F.
Qed.

Lemma clear_string_ok fuel m p k : c_string m p k -> object (p, k + 1) -> (N.to_nat k < fuel)%nat ->
  exists m', clear_string fuel m p = Ok m' /\ cleared m m' [(p, k + 1)].
Proof.
  intros C O F. unfold clear_string. rewrite (strlen_ok fuel m p k C F). cbn [bind]. now apply clear_ok.
Qed.

Lemma cleared_load m m' rs a k : cleared m m' rs -> app_range a (N.of_nat k) -> load_int m' a k = load_int m a k.
Proof. intros [A _] [B C]. apply load_int_ext. intros x X Y. apply A. split; lia. Qed.

Lemma cleared_string m m' rs p k : cleared m m' rs -> app_range p (k + 1) -> c_string m p k -> c_string m' p k.
Proof. intros [A _] [B C]. apply c_string_ext. intros x X Y. apply A. split; lia. Qed.

(** Clearing in another order, or twice, makes no difference. *)
Lemma cleared_same m m' rs rs' : cleared m m' rs -> (forall q, covered rs q <-> covered rs' q) -> cleared m m' rs'.
Proof.
  intros [A [B C]] E. split; [exact A|]. split; intros q Q H; [apply B|apply C]; auto; rewrite E; auto.
Qed.

Lemma poll_loop_ok p n : forall m, Forall object (map (fun i => (p + 8 * i + 6, 2)) (nseq 0 n)) ->
  exists m', poll_loop n m p = Ok m' /\ cleared m m' (map (fun i => (p + 8 * i + 6, 2)) (nseq 0 n)).
Proof.
  induction n as [|n IH]; intros m F; [exists m; split; [reflexivity|apply cleared_nil]|].
  replace (S n) with (n + 1)%nat in F |- * by lia. rewrite nseq_app, map_app in F |- *. apply Forall_app in F as [F1 F2].
  assert (F3 : object (p + 8 * N.of_nat n + 6, 2)).
  { rewrite Forall_forall in F2. apply F2. now left. }
  destruct (clear_ok m _ _ F3) as (m1 & E1 & C1). destruct (IH m1 F1) as (m2 & E2 & C2).
  exists m2. split.
  - replace (n + 1)%nat with (S n) by lia. cbn [poll_loop]. unfold size_pollfd. rewrite E1. exact E2.
  - apply (cleared_same m m2 ([(p + 8 * N.of_nat n + 6, 2)] ++ map (fun i => (p + 8 * i + 6, 2)) (nseq 0 n))).
    + apply (cleared_app m m1 m2); assumption.
    + intros q. change (map (fun i => (p + 8 * i + 6, 2)) (nseq (0 + N.of_nat n) 1)) with [(p + 8 * N.of_nat n + 6, 2)]. rewrite !covered_app. tauto.
Qed.

Lemma filled_zero v : forall q, ~ covered (filled 0 v) q.
Proof.
  induction v as [|[p n] v IH]; intros q; cbn [filled]; [intros (? & ? & [] & _)|].
  change ((p, N.min n 0) :: filled (0 - n) v) with ([(p, N.min n 0)] ++ filled (0 - n) v). rewrite covered_app, covered_one.
  replace (0 - n) with 0 by lia. intros [W|W]; [unfold within in W; lia|]. exact (IH q W).
Qed.

Lemma iov_loop_ok m0 k : forall m rs iov bytes, cleared m0 m rs -> app_range iov (16 * N.of_nat k) ->
  bytes <= capacity (iovecs m0 iov k) -> Forall object (filled bytes (iovecs m0 iov k)) ->
  exists m', iov_loop k m iov bytes = Ok m' /\ cleared m m' (filled bytes (iovecs m0 iov k)).
Proof.
  induction k as [|k IH]; intros m rs iov bytes C A B F.
  - cbn [iovecs capacity fold_right] in B. assert (bytes = 0) as -> by lia. exists m. split; [reflexivity|apply cleared_nil].
  - destruct (N.eq_dec bytes 0) as [->|B0].
    + exists m. split; [reflexivity|]. apply (cleared_same m m []); [apply cleared_nil|].
      intros q. split; [intros (? & ? & [] & _)|intros H; exfalso; exact (filled_zero _ _ H)].
    + cbn [iov_loop]. replace (bytes =? 0) with false by (symmetry; now apply N.eqb_neq).
      destruct A as [A1 A2].
      rewrite (cleared_load m0 m rs iov 8 C) by (split; lia). rewrite (cleared_load m0 m rs (iov + 8) 8 C) by (split; lia).
      cbn [iovecs] in B, F |- *. set (p := load_int m0 iov 8) in *. set (n := load_int m0 (iov + 8) 8) in *.
      cbn [filled] in F |- *. inversion F as [|? ? F1 F2]; subst.
      replace (if bytes <? n then bytes else n) with (N.min n bytes) by (destruct (N.ltb_spec bytes n); lia).
      destruct (clear_ok m p (N.min n bytes) F1) as (m1 & E1 & C1). rewrite E1. cbn [bind].
      assert (B' : bytes - n <= capacity (iovecs m0 (iov + 16) k)) by (cbn [capacity fold_right snd] in B; unfold capacity; lia).
      destruct (IH m1 (rs ++ [(p, N.min n bytes)]) (iov + 16) (bytes - n)) as (m2 & E2 & C2).
      * now apply (cleared_app m0 m m1).
      * split; lia.
      * exact B'.
      * exact F2.
      * exists m2. unfold size_iovec. replace (bytes - N.min n bytes) with (bytes - n) by lia. split; [exact E2|].
        apply (cleared_app m m1 m2 [(p, N.min n bytes)]); assumption.
Qed.

Lemma message_ok m0 m1 m rs msg bytes ws os : cleared m1 m rs -> message m0 m1 msg bytes ws os -> Forall object os ->
  exists m', clear_msghdr_labels m bytes msg = Ok m' /\ cleared m m' os.
Proof.
  intros C M F. destruct M as [name namelen control controllen iov iovlen E1 E2 _ E3 E4 E5 E6 A B data].
  inversion F as [|? ? F0 F']; subst. unfold data in F'. inversion F' as [|? ? F1 F'']; subst. inversion F'' as [|? ? F2 F3]; subst.
  assert (Om : 0x700000008000 <= msg /\ msg + 56 < 0x800000000000) by (destruct F0 as [F0|F0]; cbn in F0; [discriminate|exact F0]).
  unfold clear_msghdr_labels. unfold size_msghdr.
  destruct (clear_ok m msg 56 F0) as (a1 & G1 & C1). rewrite G1. cbn [bind].
  assert (D1 := cleared_app _ _ _ _ _ C C1).
  rewrite (cleared_load m1 a1 _ msg 8 D1) by (split; lia). rewrite (cleared_load m1 a1 _ (msg + 8) 4 D1) by (split; lia).
  destruct (clear_ok a1 _ _ F1) as (a2 & G2 & C2). rewrite G2. cbn [bind].
  assert (D2 := cleared_app _ _ _ _ _ D1 C2).
  rewrite (cleared_load m1 a2 _ (msg + 32) 8 D2) by (split; lia). rewrite (cleared_load m1 a2 _ (msg + 40) 8 D2) by (split; lia).
  destruct (clear_ok a2 _ _ F2) as (a3 & G3 & C3). rewrite G3. cbn [bind].
  assert (D3 := cleared_app _ _ _ _ _ D2 C3).
  rewrite (cleared_load m1 a3 _ (msg + 16) 8 D3) by (split; lia). rewrite (cleared_load m1 a3 _ (msg + 24) 8 D3) by (split; lia).
  destruct (iov_loop_ok m1 (N.to_nat (load_int m1 (msg + 24) 8)) a3 _ (load_int m1 (msg + 16) 8) bytes D3) as (a4 & G4 & C4).
  - rewrite N2Nat.id. exact A.
  - exact B.
  - exact F3.
  - exists a4. split; [exact G4|].
    apply (cleared_app m a1 a4 [(msg, 56)]); [exact C1|].
    apply (cleared_app a1 a2 a4 [(load_int m1 msg 8, load_int m1 (msg + 8) 4)]); [exact C2|].
    apply (cleared_app a2 a3 a4 [(load_int m1 (msg + 32) 8, load_int m1 (msg + 40) 8)]); [exact C3|exact C4].
Qed.

Lemma messages_ok m0 m1 k : forall m rs msgvec ws os, cleared m1 m rs -> messages m0 m1 k msgvec ws os -> Forall object os ->
  exists m', mmsg_loop k m msgvec = Ok m' /\ cleared m m' os.
Proof.
  induction k as [|k IH]; intros m rs msgvec ws os C M F; inversion M as [|? ? ws1 os1 ws2 os2 M1 M2]; subst.
  - exists m. split; [reflexivity|apply cleared_nil].
  - inversion F as [|? ? F0 F']; subst. apply Forall_app in F' as [F1 F2].
    assert (Om : 0x700000008000 <= msgvec + 56 /\ msgvec + 56 + 4 < 0x800000000000) by (destruct F0 as [F0|F0]; cbn in F0; [discriminate|exact F0]).
    cbn [mmsg_loop]. destruct (clear_ok m _ _ F0) as (a1 & G1 & C1). rewrite G1. cbn [bind].
    assert (D1 := cleared_app _ _ _ _ _ C C1).
    rewrite (cleared_load m1 a1 _ (msgvec + 56) 4 D1) by (split; lia).
    destruct (message_ok m0 m1 a1 _ msgvec _ ws1 os1 D1 M1 F1) as (a2 & G2 & C2). rewrite G2. cbn [bind].
    destruct (IH a2 _ (msgvec + 64) ws2 os2 (cleared_app _ _ _ _ _ D1 C2) M2 F2) as (a3 & G3 & C3).
    exists a3. unfold size_mmsghdr. split; [exact G3|].
    apply (cleared_app m a1 a3 [(msgvec + 56, 4)]); [exact C1|]. now apply (cleared_app a1 a2 a3).
Qed.

(** What is written is part of the objects. *)
Lemma message_part m0 m1 msg bytes ws os q : message m0 m1 msg bytes ws os -> covered ws q -> covered os q.
Proof.
  intros [name namelen control controllen iov iovlen _ _ _ _ _ _ _ _ _ data].
  change (covered ([(msg + 8, 4); (msg + 40, 8); (msg + 48, 4)] ++ data) q -> covered ([(msg, 56)] ++ data) q).
  rewrite !covered_app. intros [H|H]; [|now right]. left. rewrite covered_one.
  destruct H as (p & n & [E|[E|[E|[]]]] & W); injection E as <- <-; unfold within in *; lia.
Qed.

Lemma messages_part m0 m1 k : forall msgvec ws os q, messages m0 m1 k msgvec ws os -> covered ws q -> covered os q.
Proof.
  induction k as [|k IH]; intros msgvec ws os q M; inversion M as [|? ? ws1 os1 ws2 os2 M1 M2]; subst; [auto|].
  change (covered ([(msgvec + 56, 4)] ++ ws1 ++ ws2) q -> covered ([(msgvec + 56, 4)] ++ os1 ++ os2) q).
  rewrite !covered_app. intros [H|[H|H]]; [auto| |]; right; [left|right].
  - exact (message_part m0 m1 msgvec _ ws1 os1 q M1 H).
  - exact (IH _ _ _ q M2 H).
Qed.

Lemma stores_part m0 m1 c ret ws os q : stores m0 m1 c ret ws os -> covered ws q -> covered os q.
Proof.
  intros H. destruct H; auto.
  - eapply message_part; eassumption.
  - eapply messages_part; eassumption.
Qed.

Lemma one_object r : Forall object [r] -> object r.
Proof. intros F. now inversion F. Qed.

Lemma clear2_ok m p n q k : Forall object [(p, n); (q, k)] ->
  exists m1 m', clear m p n = Ok m1 /\ cleared m m1 [(p, n)] /\ clear m1 q k = Ok m' /\ cleared m m' [(p, n); (q, k)].
Proof.
  intros F. inversion F as [|? ? F1 F']; subst. destruct (clear_ok m p n F1) as (m1 & E1 & C1).
  destruct (clear_ok m1 q k (one_object _ F')) as (m2 & E2 & C2). exists m1, m2. repeat split; auto; try apply C1;
  now apply (cleared_app m m1 m2 [(p, n)] [(q, k)]).
Qed.

Lemma sys_ok fuel m0 m1 c ret ws os : stores m0 m1 c ret ws os -> Forall object os -> enough fuel os ->
  exists m', dfsw_sys fuel c m0 m1 ret = Ok m' /\ cleared m1 m' os.
Proof.
  intros H F En. destruct H; cbn [dfsw_sys Z.eqb Z.ltb Z.leb Z.compare]; try (apply clear_ok; now apply one_object); try (now apply clear_nonnull_ok).
  - replace (ret =? -1)%Z with false by (symmetry; now apply Z.eqb_neq). now apply clear_nonnull_ok.
  - apply Forall_app in F as [F1 F2]. destruct (clear_nonnull_ok m1 p 16 F1) as (a & E & C). unfold size_timeval. rewrite E. cbn [bind].
    destruct (clear_nonnull_ok a q 8 F2) as (b & E' & C'). exists b. split; [exact E'|]. now apply (cleared_app m1 a b).
  - destruct (clear2_ok m1 p 8 q 8 F) as (a & b & E & _ & E' & C). rewrite E. cbn [bind]. exists b. auto.
  - replace (Z.of_N p =? 0)%Z with false by (symmetry; apply Z.eqb_neq; lia). rewrite N2Z.id.
    apply clear_string_ok; [assumption|now apply one_object|]. inversion En; subst. cbn [snd] in *. lia.
  - replace (Z.of_N p =? 0)%Z with false by (symmetry; apply Z.eqb_neq; lia). rewrite N2Z.id.
    apply clear_string_ok; [assumption|now apply one_object|]. inversion En; subst. cbn [snd] in *. lia.
  - apply clear_string_ok; [assumption|now apply one_object|]. inversion En; subst. cbn [snd] in *. lia.
  - apply one_object in F. destruct (Z.ltb_spec 0 ret) as [L|L].
    + unfold size_epoll_event. replace (mul64 (Z.to_N ret) 12) with (12 * Z.to_N ret); [now apply clear_ok|].
      unfold mul64. rewrite N.mod_small; [lia|]. unfold two64. destruct F as [F|F]; cbn [fst snd] in F; lia.
    + assert (ret = 0%Z) as -> by lia. exists m1. split; [reflexivity|]. apply (cleared_same m1 m1 []); [apply cleared_nil|].
      intros q. rewrite covered_one. split; [intros (? & ? & [] & _)|unfold within; cbn; lia].
  - replace (0 <=? ret)%Z with true by (symmetry; now apply Z.leb_le). now apply poll_loop_ok.
  - unfold rs in F. apply Forall_app in F as [F1 F]. apply Forall_app in F as [F2 F]. apply Forall_app in F as [F3 F4].
    unfold size_fd_set, size_timeval.
    destruct (clear_nonnull_ok m1 r 128 F1) as (a1 & E1 & C1). rewrite E1. cbn [bind].
    destruct (clear_nonnull_ok a1 w 128 F2) as (a2 & E2 & C2). rewrite E2. cbn [bind].
    destruct (clear_nonnull_ok a2 e 128 F3) as (a3 & E3 & C3). rewrite E3. cbn [bind].
    destruct (clear_ok a3 t 16 (one_object _ F4)) as (a4 & E4 & C4). exists a4. split; [exact E4|].
    apply (cleared_app m1 a1 a4); [exact C1|]. apply (cleared_app a1 a2 a4); [exact C2|]. now apply (cleared_app a2 a3 a4).
  - exists m1. split; [reflexivity|apply cleared_nil].
  - unfold rs in F. inversion F as [|? ? F1 F']; subst. inversion F' as [|? ? F2 F3]; subst. apply one_object in F3.
    inversion En as [|? ? _ En']; subst. inversion En' as [|? ? En2 _]; subst. cbn [snd] in En2.
    unfold size_passwd. destruct (clear_ok m1 pwd 48 F1) as (a1 & E1 & C1). rewrite E1. cbn [bind].
    destruct F2 as [F2|F2]; cbn [fst snd] in F2; [lia|].
    destruct (clear_string_ok fuel a1 buf k) as (a2 & E2 & C2).
    { apply (cleared_string m1 a1 _ buf k C1); [split; lia|assumption]. }
    { right. exact F2. }
    { lia. }
    rewrite E2. cbn [bind]. destruct (clear_ok a2 result 8 F3) as (a3 & E3 & C3). exists a3. split; [exact E3|].
    apply (cleared_app m1 a1 a3 [(pwd, 48)]); [exact C1|]. now apply (cleared_app a1 a2 a3 [(buf, k + 1)]).
  - replace (ret =? 0)%Z with false by (symmetry; now apply Z.eqb_neq). cbn [bind]. apply clear_ok. now apply one_object.
  - replace (p =? 0) with false by (symmetry; now apply N.eqb_neq). replace (l =? 0) with false by (symmetry; now apply N.eqb_neq). cbn [negb andb].
    unfold rs in F. destruct (clear2_ok m1 _ _ _ _ F) as (a & b & E & Ca & E' & C). rewrite E. cbn [bind].
    rewrite (cleared_load m1 a _ l 4 Ca); [exists b; auto|]. inversion F as [|? ? F1 _]; subst. destruct F1 as [F1|F1]; cbn [fst snd] in F1; [discriminate|]. split; cbn; lia.
  - unfold clear_sockaddr. cbn [Z.eqb negb]. replace (p =? 0) with false by (symmetry; now apply N.eqb_neq). replace (l =? 0) with false by (symmetry; now apply N.eqb_neq). cbn [negb andb].
    replace (if load_int m0 l 4 <? load_int m1 l 4 then load_int m0 l 4 else load_int m1 l 4) with (N.min (load_int m0 l 4) (load_int m1 l 4))
      by (destruct (N.ltb_spec (load_int m0 l 4) (load_int m1 l 4)); lia).
    unfold rs in F. destruct (clear2_ok m1 _ _ _ _ F) as (a & b & E & Ca & E' & C). rewrite E. cbn [bind]. exists b. auto.
  - unfold clear_sockaddr. cbn [Z.eqb negb]. replace (p =? 0) with false by (symmetry; now apply N.eqb_neq). replace (l =? 0) with false by (symmetry; now apply N.eqb_neq). cbn [negb andb].
    replace (if load_int m0 l 4 <? load_int m1 l 4 then load_int m0 l 4 else load_int m1 l 4) with (N.min (load_int m0 l 4) (load_int m1 l 4))
      by (destruct (N.ltb_spec (load_int m0 l 4) (load_int m1 l 4)); lia).
    unfold rs in F. destruct (clear2_ok m1 _ _ _ _ F) as (a & b & E & Ca & E' & C). rewrite E. cbn [bind]. exists b. auto.
  - replace (0 <=? ret)%Z with true by (symmetry; now apply Z.leb_le). eapply message_ok; [apply cleared_nil|eassumption|assumption].
  - eapply messages_ok; [apply cleared_nil|eassumption|assumption].
  - destruct c; try contradiction; cbn [dfsw_sys Z.eqb Z.ltb Z.leb Z.compare negb andb]; try (exists m1; split; [reflexivity|apply cleared_nil]).
    all: unfold clear_sockaddr; cbn [Z.eqb negb andb]; try (exists m1; split; [reflexivity|apply cleared_nil]).
  - destruct H as [->| ->]; exists m1; (split; [reflexivity|apply cleared_nil]).
Qed.

Lemma iov_loop_short m0 k : forall m rs iov bytes, cleared m0 m rs -> app_range iov (16 * N.of_nat k) ->
  capacity (iovecs m0 iov k) < bytes -> Forall object (iovecs m0 iov k) -> iov_loop k m iov bytes = Exit.
Proof.
  induction k as [|k IH]; intros m rs iov bytes C A B F.
  - cbn [iov_loop]. cbn in B. replace (bytes =? 0) with false by (symmetry; apply N.eqb_neq; lia). reflexivity.
  - cbn [iov_loop]. replace (bytes =? 0) with false by (symmetry; apply N.eqb_neq; lia).
    destruct A as [A1 A2].
    rewrite (cleared_load m0 m rs iov 8 C) by (split; lia). rewrite (cleared_load m0 m rs (iov + 8) 8 C) by (split; lia).
    cbn [iovecs] in B, F. set (p := load_int m0 iov 8) in *. set (n := load_int m0 (iov + 8) 8) in *.
    cbn [capacity fold_right snd] in B. fold (capacity (iovecs m0 (iov + 16) k)) in B.
    inversion F as [|? ? F1 F2]; subst.
    replace (bytes <? n) with false by (symmetry; apply N.ltb_ge; lia).
    destruct (clear_ok m p n F1) as (m1 & E1 & C1). rewrite E1. cbn [bind]. unfold size_iovec.
    apply (IH m1 (rs ++ [(p, n)])); [now apply (cleared_app m0 m m1)|split; lia|lia|exact F2].
Qed.
