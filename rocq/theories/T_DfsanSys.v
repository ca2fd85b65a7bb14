(** C72: what system functions store into objects of the program has no stale labels. *)
From Coq Require Import NArith ZArith List Bool Lia.
From Verif Require Import M_Base M_Memory M_Labels M_Dfsan M_DfsanStr M_DfsanSys S_Labels S_Provenance S_Dfsan S_Libc S_DfsanSys
  P_Base P_Memory P_Labels P_Dfsan P_DfsanStr P_DfsanFormat P_DfsanSys.
Import ListNotations.
Open Scope N_scope.

(** Whatever bytes the system stored ([m1] differs from [m0] at most there), they have no
    label after the call, and labels of all other objects are as before. *)
Theorem C72_outputs_partial : forall fuel m0 m1 c ret ws os,
  stores m0 m1 c ret ws os -> Forall object os -> enough fuel os ->
  (forall x, ~ covered ws x -> m1 x = m0 x) ->
  exists m', dfsw_sys fuel c m0 m1 ret = Ok m' /\ same_app m1 m' /\
  (forall q, app_byte q -> covered ws q -> label_at m' q = 0) /\
  (forall q, app_byte q -> ~ covered os q -> label_at m' q = label_at m0 q).
Proof.
  intros fuel m0 m1 c ret ws os H F En W. destruct (sys_ok fuel m0 m1 c ret ws os H F En) as (m' & E & A & B & C).
  exists m'. split; [exact E|]. split; [exact A|]. split.
  - intros q Q Cw. apply B; [exact Q|]. now apply (stores_part m0 m1 c ret ws os).
  - intros q Q Cq. rewrite C by assumption. apply labels_app; [|exact Q]. intros x X. apply W. intros Cw.
    destruct (stores_part m0 m1 c ret ws os x H Cw) as (p & n & I & Wi). rewrite Forall_forall in F.
    destruct (F _ I) as [G|[G1 G2]]; cbn [fst snd] in *; unfold within in Wi; lia.
Qed.

(** poll on two descriptors: the labels of both revents fields go, the others stay. *)
Definition demo_fds : mem := set_label mem_zero 9 0x7fff00001000 16.
Example C72_case :
  (let rs := map (fun i => (0x7fff00001000 + 8 * i + 6, 2)) (nseq 0 2) in
   stores demo_fds demo_fds (Poll 0x7fff00001000 2) 1 rs rs /\ Forall object rs /\ enough 9 rs) /\
  match dfsw_sys 9 (Poll 0x7fff00001000 2) demo_fds demo_fds 1 with
  | Ok m' => map (label_at m') (nseq 0x7fff00001000 16)
  | _ => []
  end = [9; 9; 9; 9; 9; 9; 0; 0; 9; 9; 9; 9; 9; 9; 0; 0].
Proof.
  split; [split; [|split]|].
  - apply (st_poll demo_fds demo_fds 0x7fff00001000 2 1). discriminate.
  - apply Forall_forall. intros r I. apply in_map_iff in I as (i & <- & I). apply in_nseq in I. right. cbn [fst snd]. lia.
  - apply Forall_forall. intros r I. apply in_map_iff in I as (i & <- & I). cbn [snd]. lia.
  - vm_compute. reflexivity.
Qed.

(** recvmsg of five bytes into two buffers of three bytes each. *)
Definition demo_msg : mem :=
  store_int (store_int (store_int (store_int
    (store_int (store_int mem_zero 0x7fff00002010 8 0x7fff00003000) 0x7fff00002018 8 2)
    0x7fff00003000 8 0x7fff00004000) 0x7fff00003008 8 3) 0x7fff00003010 8 0x7fff00005000) 0x7fff00003018 8 3.
Example C72_message_case :
  (exists ws os, stores demo_msg demo_msg (Recvmsg 0x7fff00002000) 5 ws os /\ Forall object os /\
     In (0x7fff00004000, 3) ws /\ In (0x7fff00005000, 2) ws) /\
  match dfsw_sys 9 (Recvmsg 0x7fff00002000) demo_msg (set_label (set_label demo_msg 9 0x7fff00004000 3) 9 0x7fff00005000 3) 5 with
  | Ok m' => map (label_at m') (nseq 0x7fff00004000 3 ++ nseq 0x7fff00005000 3)
  | _ => []
  end = [0; 0; 0; 0; 0; 9].
Proof.
  split.
  - eexists. eexists. split; [apply st_recvmsg; [discriminate|]|].
    + apply (a_message demo_msg demo_msg 0x7fff00002000 5 0 0 0 0 0x7fff00003000 2); try (vm_compute; congruence).
      split; vm_compute; congruence.
    + replace (filled 5 (iovecs demo_msg 0x7fff00003000 (N.to_nat 2))) with [(0x7fff00004000, 3); (0x7fff00005000, 2)] by (vm_compute; reflexivity).
      split; [|split; cbn; auto 10].
      repeat (apply Forall_cons; [|]); [right; split; vm_compute; congruence|left; reflexivity|left; reflexivity|right; split; vm_compute; congruence|right; split; vm_compute; congruence|constructor].
  - vm_compute. reflexivity.
Qed.

(** The same for functions that convert: every byte of the result stands for exactly the
    input bytes behind the bytes that were converted. *)
Theorem C72_conversions : forall fuel m1 t c ret src n dst k m' l t',
  reachable t -> computes m1 c ret src n dst k -> app_range src n -> app_range dst k -> dst + k < 0x800000000000 ->
  (forall i, i < n -> known t (label_at m1 (src + i))) -> (N.to_nat (n + k) <= fuel)%nat ->
  dfsw_convert true fuel c m1 t ret = Ok (m', l, t') ->
  same_app m1 m' /\
  (forall i b, i < k -> (derives (view t') (label_at m' (dst + i)) b <-> read_from m1 t src n b)) /\
  (forall q, app_byte q -> ~ within dst k q -> label_at m' q = label_at m1 q) /\
  (forall y b, in_use t y -> (derives (view t') y b <-> derives (view t) y b)).
Proof.
  intros fuel m1 t c ret src n dst k m' l t' R Co As Ad Td K Fu H.
  assert (G : exists x, read_labels true m1 t src n = Ok (x, t') /\ set_label_any m1 x dst k = Ok m').
  { destruct Co as [timep buf bl k ret Rt Cs|timep result bl ret Rt|src dst k Cs|src dst k Cs]; cbn [dfsw_convert Z.eqb] in H.
    - replace (ret =? 0)%Z with false in H by (symmetry; now apply Z.eqb_neq).
      apply bind_ok in H as ([x u] & H1 & H). rewrite (strlen_ok fuel m1 buf k Cs) in H by lia. cbn [bind] in H.
      apply bind_ok in H as (m2 & H2 & H). injection H as <- _ <-. exists x. auto.
    - replace (ret =? 0)%Z with false in H by (symmetry; now apply Z.eqb_neq).
      apply bind_ok in H as ([x u] & H1 & H). apply bind_ok in H as (m2 & H2 & H). injection H as <- _ <-. exists x. auto.
    - rewrite (strlen_ok fuel m1 src k Cs) in H by lia. cbn [bind Pos.eqb] in H.
      apply bind_ok in H as ([x u] & H1 & H). apply bind_ok in H as (m2 & H2 & H). injection H as <- _ <-. exists x. auto.
    - rewrite (strlen_ok fuel m1 src k Cs) in H by lia. cbn [bind Pos.eqb] in H.
      apply bind_ok in H as ([x u] & H1 & H). apply bind_ok in H as (m2 & H2 & H). injection H as <- _ <-. exists x. auto. }
  destruct G as (x & G1 & G2). rewrite set_any_app in G2 by assumption. injection G2 as <-.
  destruct (read_ok m1 t src n x t' R As K G1) as (La & _ & Kx & D).
  assert (Lx : x < two32) by (apply (known_small t'); [apply La|exact Kx]).
  split; [intros y Y; apply (set_label_app m1 x dst k Lx Ad); [right; exact Td|exact Y]|].
  split; [|split].
  - intros i b I. rewrite (set_label_in m1 x dst k i Lx Ad); [apply D|right; exact Td|exact I].
  - intros q Q W. apply (set_label_out m1 x dst k q Lx Ad); [right; exact Td|exact Q|exact W].
  - intros y b U. apply (later_derives t t' y b R La). now right.
Qed.
Example C72_conversion_case :
  let m := set_label (store mem_zero 0x7fff00001000 [49; 46; 50; 0]) 9 0x7fff00001000 1 in
  computes m (Inet_pton true 0x7fff00001000 0x7fff00002000) 1 0x7fff00001000 (3 + 1) 0x7fff00002000 4 /\
  match dfsw_convert true 9 (Inet_pton true 0x7fff00001000 0x7fff00002000) m [0; 0; 0; 0; 0; 0; 0; 0; 0; 0] 1 with
  | Ok (m', _, _) => map (label_at m') (nseq 0x7fff00002000 5)
  | _ => []
  end = [9; 9; 9; 9; 0].
Proof.
  cbv zeta. split.
  - apply co_inet_pton4. split; [vm_compute; reflexivity|]. intros i I.
    assert (C : i = 0 \/ i = 1 \/ i = 2) by lia. destruct C as [->|[->| ->]]; vm_compute; discriminate.
  - vm_compute. reflexivity.
Qed.

(** False of the code: select waits without limit if timeout is null, and nanosleep need
    not report the remaining time; both are undefined here ... *)
Lemma clear_null m n : 0 < n -> n <= 8192 -> clear m 0 n = UB.
Proof.
  intros N0 N1. unfold clear, set_label_any. change (shadow_for 0) with 0. change (round_up 0) with 0. change (negb (0 =? 0)) with false.
  assert (E : shadow_for (add64 0 n) = 4 * n).
  { unfold add64. rewrite N.add_0_l, N.mod_small by (unfold two64; lia). rewrite shadow_for_low by lia. rewrite N.mod_small; [reflexivity|]. lia. }
  rewrite E. cbn [orb]. assert (D := round_down_spec (4 * n)).
  replace (round_down (4 * n) <=? 0 + 8 * PAGE) with true by (symmetry; apply N.leb_le; unfold PAGE in *; lia).
  unfold touches. replace (0 <? n) with true by (symmetry; now apply N.ltb_lt). reflexivity.
Qed.
Theorem C72_select_null_refuted : forall fuel m0 m1 ret r w e,
  Forall object (optional r 128 ++ optional w 128 ++ optional e 128) -> dfsw_sys fuel (Select r w e 0) m0 m1 ret = UB.
Proof.
  intros fuel m0 m1 ret r w e F. apply Forall_app in F as [F1 F]. apply Forall_app in F as [F2 F3]. cbn [dfsw_sys].
  destruct (clear_nonnull_ok m1 r 128 F1) as (a1 & E1 & _). unfold size_fd_set. rewrite E1. cbn [bind].
  destruct (clear_nonnull_ok a1 w 128 F2) as (a2 & E2 & _). rewrite E2. cbn [bind].
  destruct (clear_nonnull_ok a2 e 128 F3) as (a3 & E3 & _). rewrite E3. cbn [bind]. apply clear_null; unfold size_timeval; lia.
Qed.
Theorem C72_nanosleep_null_refuted : forall fuel m0 m1, dfsw_sys fuel (Nanosleep 0) m0 m1 (-1) = UB.
Proof. intros fuel m0 m1. cbn [dfsw_sys Z.eqb Pos.eqb]. apply clear_null; unfold size_timespec; lia. Qed.

(** ... a select that fails leaves the sets alone, but their labels are lost ... *)
Theorem C72_select_failed_refuted : forall fuel m r t, r <> 0 -> t <> 0 -> object (r, 128) -> object (t, 16) ->
  exists m', dfsw_sys fuel (Select r 0 0 t) m m (-1) = Ok m' /\ forall i, i < 128 -> label_at m' (r + i) = 0.
Proof.
  intros fuel m r t R T Or Ot. cbn [dfsw_sys]. unfold size_fd_set, size_timeval, clear_nonnull at 1.
  replace (r =? 0) with false by (symmetry; now apply N.eqb_neq).
  destruct (clear_ok m r 128 Or) as (a & E & C). rewrite E. cbn [bind clear_nonnull N.eqb].
  destruct (clear_ok a t 16 Ot) as (b & E' & C'). exists b. split; [exact E'|]. intros i I.
  destruct (cleared_app m a b [(r, 128)] [(t, 16)] C C') as [_ [B _]]. destruct Or as [Or|Or]; cbn [fst snd] in Or; [discriminate|].
  apply B; [split; lia|]. exists r, 128. split; [now left|]. unfold within. lia.
Qed.

(** ... getpwuid_r stores several strings one after the other, and those behind the first
    keep the labels that were there ... *)
Theorem C72_getpwuid_refuted : forall fuel m0 m1 pwd buf result k q,
  c_string m1 buf k -> Forall object [(pwd, 48); (buf, k + 1); (result, 8)] -> (N.to_nat (k + 1) <= fuel)%nat -> (48 <= fuel)%nat ->
  app_byte q -> buf + k < q -> ~ within pwd 48 q -> ~ within result 8 q ->
  exists m', dfsw_sys fuel (Getpwuid_r pwd buf result) m0 m1 0 = Ok m' /\ label_at m' q = label_at m1 q.
Proof.
  intros fuel m0 m1 pwd buf result k q Cs F Fu Fu2 Q Bq W1 W2.
  destruct (sys_ok fuel m0 m1 _ 0 _ _ (st_getpwuid_r m0 m1 pwd buf result k Cs) F) as (m' & E & _ & _ & C).
  { repeat constructor; cbn [snd]; lia. }
  exists m'. split; [exact E|]. apply C; [exact Q|]. intros (p & n & [I|[I|[I|[]]]] & W); injection I as <- <-; auto. unfold within in W. lia.
Qed.

(** ... recvmsg clears the labels of the pointers in the header, which it does not write,
    and of as many bytes as the address would have needed, also behind a shorter buffer
    ... *)
Theorem C72_recvmsg_refuted : forall fuel m0 m1 msg bytes ws os,
  message m1 m1 msg bytes ws os -> Forall object os ->
  exists m', dfsw_sys fuel (Recvmsg msg) m0 m1 (Z.of_N bytes) = Ok m' /\
  (forall i, i < 8 -> label_at m' (msg + 16 + i) = 0) /\
  (forall i, i < load_int m1 (msg + 8) 4 -> label_at m' (load_int m1 msg 8 + i) = 0).
Proof.
  intros fuel m0 m1 msg bytes ws os M F. cbn [dfsw_sys]. replace (0 <=? Z.of_N bytes)%Z with true by (symmetry; apply Z.leb_le; lia).
  rewrite N2Z.id. destruct (message_ok m1 m1 m1 [] msg bytes ws os (cleared_nil m1) M F) as (m' & E & _ & B & _).
  exists m'. split; [exact E|]. destruct M as [name namelen control controllen iov iovlen E1 E2 _ _ _ _ _ _ _ data].
  rewrite Forall_forall in F. split; intros i I.
  - apply B.
    + destruct (F (msg, 56)) as [G|G]; [now left|discriminate|]. cbn [fst snd] in G. split; lia.
    + exists msg, 56. split; [now left|]. unfold within. lia.
  - rewrite E1. rewrite E2 in I. apply B.
    + destruct (F (name, namelen)) as [G|G]; [right; now left|cbn in G; lia|]. cbn [fst snd] in G. split; lia.
    + exists name, namelen. split; [right; now left|]. unfold within. lia.
Qed.

(** ... it is undefined if no address is asked for but msg_namelen is not zero ... *)
Theorem C72_recvmsg_null_refuted : forall fuel m0 m1 msg ret, (0 <= ret)%Z -> object (msg, 56) ->
  load_int m1 msg 8 = 0 -> 0 < load_int m1 (msg + 8) 4 -> load_int m1 (msg + 8) 4 <= 8192 ->
  dfsw_sys fuel (Recvmsg msg) m0 m1 ret = UB.
Proof.
  intros fuel m0 m1 msg ret R O E1 E2 E3. cbn [dfsw_sys]. replace (0 <=? ret)%Z with true by (symmetry; now apply Z.leb_le).
  unfold clear_msghdr_labels, size_msghdr. destruct (clear_ok m1 msg 56 O) as (a & E & C). rewrite E. cbn [bind].
  destruct O as [O|O]; cbn [fst snd] in O; [discriminate|].
  rewrite (cleared_load m1 a _ msg 8 C) by (split; lia). rewrite (cleared_load m1 a _ (msg + 8) 4 C) by (split; lia).
  rewrite E1, clear_null by assumption. reflexivity.
Qed.

(** ... and the assertion fails if the length of a truncated message is returned
    (MSG_TRUNC). *)
Theorem C72_recvmsg_trunc_refuted : forall fuel m0 m1 msg bytes iov iovlen,
  object (msg, 56) -> object (load_int m1 msg 8, load_int m1 (msg + 8) 4) -> object (load_int m1 (msg + 32) 8, load_int m1 (msg + 40) 8) ->
  load_int m1 (msg + 16) 8 = iov -> load_int m1 (msg + 24) 8 = iovlen -> app_range iov (16 * iovlen) ->
  Forall object (iovecs m1 iov (N.to_nat iovlen)) -> capacity (iovecs m1 iov (N.to_nat iovlen)) < bytes ->
  dfsw_sys fuel (Recvmsg msg) m0 m1 (Z.of_N bytes) = Exit.
Proof.
  intros fuel m0 m1 msg bytes iov iovlen O1 O2 O3 E1 E2 A F B. cbn [dfsw_sys].
  replace (0 <=? Z.of_N bytes)%Z with true by (symmetry; apply Z.leb_le; lia). rewrite N2Z.id.
  assert (O : 0x700000008000 <= msg /\ msg + 56 < 0x800000000000) by (destruct O1 as [O1|O1]; cbn [fst snd] in O1; [discriminate|exact O1]).
  unfold clear_msghdr_labels, size_msghdr. destruct (clear_ok m1 msg 56 O1) as (a1 & G1 & C1). rewrite G1. cbn [bind].
  rewrite (cleared_load m1 a1 _ msg 8 C1) by (split; lia). rewrite (cleared_load m1 a1 _ (msg + 8) 4 C1) by (split; lia).
  destruct (clear_ok a1 _ _ O2) as (a2 & G2 & C2). rewrite G2. cbn [bind]. assert (D2 := cleared_app _ _ _ _ _ C1 C2).
  rewrite (cleared_load m1 a2 _ (msg + 32) 8 D2) by (split; lia). rewrite (cleared_load m1 a2 _ (msg + 40) 8 D2) by (split; lia).
  destruct (clear_ok a2 _ _ O3) as (a3 & G3 & C3). rewrite G3. cbn [bind]. assert (D3 := cleared_app _ _ _ _ _ D2 C3).
  rewrite (cleared_load m1 a3 _ (msg + 16) 8 D3) by (split; lia). rewrite (cleared_load m1 a3 _ (msg + 24) 8 D3) by (split; lia).
  rewrite E1, E2. apply (iov_loop_short m1 (N.to_nat iovlen) a3 _ iov bytes D3); [rewrite N2Nat.id; exact A|exact B|exact F].
Qed.

Print Assumptions C72_outputs_partial.
Print Assumptions C72_conversions.
Print Assumptions C72_select_null_refuted.
Print Assumptions C72_nanosleep_null_refuted.
Print Assumptions C72_select_failed_refuted.
Print Assumptions C72_getpwuid_refuted.
Print Assumptions C72_recvmsg_refuted.
Print Assumptions C72_recvmsg_null_refuted.
Print Assumptions C72_recvmsg_trunc_refuted.
