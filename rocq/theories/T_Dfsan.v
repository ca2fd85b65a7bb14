(** C35-C38, C53: shadow memory. *)
From Coq Require Import NArith List Bool Lia.
From Verif Require Import M_Base M_Memory M_Encoding M_Labels M_Dfsan S_Dfsan S_Provenance S_Labels
  P_Base P_Memory P_Labels P_ControlFlow P_History P_Demo P_Dfsan.
Import ListNotations.
Open Scope N_scope.

(** C35: the shadow cells of distinct application bytes share no address, and no shadow
    cell touches application memory. *)
Theorem C35_separate : forall p q x, app_byte p -> app_byte q -> in_cell p x ->
  (p <> q -> ~ in_cell q x) /\ ~ app_byte x /\ 0x10000 <= x /\ x < 0x400000000000.
Proof.
  intros p q x P Q C. assert (B := shadow_bounds p P). unfold in_cell, app_byte, SHADOW_ADDR in *.
  split; [|lia]. intros Ne. destruct (cells_apart p q P Q Ne); unfold in_cell; lia.
Qed.

Example C35_case : app_byte 0x7fffdeadbeef /\ app_byte 0x7fffdeadbef0 /\ in_cell 0x7fffdeadbeef (shadow_for 0x7fffdeadbef0 - 1).
Proof. repeat split; vm_compute; congruence. Qed.

(** The map in dfsan.cpp:81-97 ends shadow memory at 0x200000000000.  With 4-byte labels
    that holds exactly for the lower half of application memory: the cells of the upper
    half lie in the regions reserved for origins and the union table, and the runtime's
    own validity test rejects them. *)
Theorem C35_documented_region_refuted : forall p, app_byte p ->
  (is_shadow_addr_valid (shadow_for p) = true <-> p < 0x780000000000).
Proof.
  intros p P. assert (E := shadow_for_app p P). destruct P as [P1 P2]. unfold is_shadow_addr_valid, SHADOW_ADDR, ORIGIN_ADDR.
  rewrite E, andb_true_iff, N.leb_le, N.ltb_lt. unfold BASE. lia.
Qed.

(** Addresses below the application region are not kept apart: every application byte
    shares its cell with one (an executable that is not relocated lives there). *)
Theorem C35_low_addresses_refuted : forall p, app_byte p ->
  exists q, q < 0x100000000000 /\ q <> p /\ shadow_for q = shadow_for p.
Proof.
  intros p P. exists (p - 0x700000000000). destruct P as [P1 P2]. split; [lia|]. split; [lia|].
  rewrite (shadow_for_app p) by (split; assumption). rewrite shadow_for_low by lia.
  rewrite N.mod_small by (change (2 ^ 44) with 17592186044416; lia). reflexivity.
Qed.

(** C36. *)
Theorem C36_set_label : forall m label p n,
  label < 2 ^ 32 -> app_range p n -> label <> 0 \/ p + n < 0x800000000000 ->
  let m' := set_label m label p n in
  (forall q, app_byte q -> within p n q -> label_at m' q = label) /\
  (forall q, app_byte q -> ~ within p n q -> label_at m' q = label_at m q) /\
  (forall x, (forall q, within p n q -> ~ in_cell q x) -> m' x = m x) /\
  (forall x, app_byte x -> m' x = m x).
Proof.
  intros m l p n L R T m'. split; [|split; [|split]].
  - intros q _ [W1 W2]. unfold m'. replace q with (p + (q - p)) by lia. apply set_label_in; auto. lia.
  - intros q Q W. now apply set_label_out.
  - intros x X. now apply set_label_outside.
  - now apply (set_label_app m l p n).
Qed.

(** A case on the page-releasing path (label 0, 20000 bytes). *)
Example C36_case : let p := 0x7fff00000123 in
  let m := set_label (set_label mem_zero 7 (p - 1) 2) 9 (p + 19999) 2 in
  app_range p 20000 /\ label_at m p = 7 /\ label_at m (p + 20000) = 9 /\
  (let m' := set_label m 0 p 20000 in
   label_at m' (p - 1) = 7 /\ label_at m' p = 0 /\ label_at m' (p + 19999) = 0 /\ label_at m' (p + 20000) = 9).
Proof. split; [split; vm_compute; congruence|]. vm_compute. repeat split. Qed.

(** Without the side condition it fails: clearing the label of the last byte below
    0x800000000000 computes an end address outside of shadow memory and releases all of
    application memory. *)
Theorem C36_last_byte_refuted : forall m x, app_byte x -> set_label m 0 0x7fffffffffff 1 x = 0.
Proof.
  intros m x [X1 X2]. unfold set_label. cbn [N.eqb negb].
  change (shadow_for 0x7fffffffffff) with 0x3ffffffffffc.
  change (shadow_for (add64 0x7fffffffffff 1)) with 0x2000000000000.
  change (round_up 0x3ffffffffffc) with 0x400000000000.
  change (round_down 0x2000000000000) with 0x2000000000000.
  change (0x2000000000000 <=? 0x400000000000 + 8 * PAGE) with false. cbv iota.
  rewrite (proj1 (clear_spec _ _ _)) by lia. apply fill_same; lia.
Qed.

(** C37: the label read for a buffer stands for exactly the bytes the labels of its bytes
    stand for; it is 0 exactly if all of them are 0. *)
Theorem C37_read_label : forall m t p n x t',
  reachable t -> app_range p n -> (forall i, i < n -> known t (label_at m (p + i))) ->
  read_labels true m t p n = Ok (x, t') ->
  known t' x /\
  (x = 0 <-> forall i, i < n -> label_at m (p + i) = 0) /\
  (forall b, derives (view t') x b <-> exists i, i < n /\ derives (view t) (label_at m (p + i)) b) /\
  (forall y b, in_use t y -> (derives (view t') y b <-> derives (view t) y b)).
Proof.
  intros m t p n x t' R A K H. unfold read_labels in H.
  destruct (N.eqb_spec n 0) as [->|N0].
  { injection H as <- <-. split; [now left|]. split; [split; auto; intros _ i I; lia|]. split; [|reflexivity].
    intros b. split; [intros D; exfalso; now apply (derives_zero t b)|]. intros (i & I & _). lia. }
  assert (Sh : forall i, i < n -> load_int m (shadow_for p + 4 * i) 4 = label_at m (p + i)).
  { intros i I. unfold label_at. now rewrite (range_shadow p n i A I). }
  unfold union_load in H.
  assert (Z0 := Sh 0 ltac:(lia)). rewrite N.mul_0_r, !N.add_0_r in Z0. rewrite Z0 in H.
  assert (Rs : forall i, i < N.of_nat (N.to_nat (n - 1)) ->
     load_int m (shadow_for p + 4 + 4 * i) 4 = label_at m (p + (i + 1))).
  { intros i I. replace (shadow_for p + 4 + 4 * i) with (shadow_for p + 4 * (i + 1)) by lia. apply Sh. lia. }
  assert (K0 : known t (label_at m p)) by (rewrite <- (N.add_0_r p); apply K; lia).
  destruct (union_load_loop_ok m (N.to_nat (n - 1)) t (label_at m p) (shadow_for p + 4) x t' R K0) as (La & _ & Kx & Z & D).
  { intros i I. rewrite Rs by exact I. apply K. lia. }
  { exact H. }
  split; [exact Kx|]. split; [|split; [|apply La]].
  - rewrite Z. split.
    + intros [Zp Zr] i I. destruct (N.eq_dec i 0) as [->|Ni]; [now rewrite N.add_0_r|].
      specialize (Zr (i - 1) ltac:(lia)). rewrite Rs in Zr by lia. replace (i - 1 + 1) with i in Zr by lia. exact Zr.
    + intros Za. split; [rewrite <- (N.add_0_r p); apply Za; lia|]. intros i I. rewrite Rs by exact I. apply Za. lia.
  - intros b. rewrite D. split.
    + intros [Dp|(i & I & Di)]; [exists 0; split; [lia|]; now rewrite N.add_0_r|].
      rewrite Rs in Di by exact I. exists (i + 1). split; [lia|exact Di].
    + intros (i & I & Di). destruct (N.eq_dec i 0) as [->|Ni]; [left; now rewrite N.add_0_r in Di|].
      right. exists (i - 1). split; [lia|]. rewrite Rs by lia. replace (i - 1 + 1) with i by lia. exact Di.
Qed.

(** The read returns as long as the table has room for the unions it may create. *)
Theorem C37_read_returns : forall m t p n,
  reachable t -> app_range p n -> (forall i, i < n -> known t (label_at m (p + i))) ->
  len t + n <= 2 ^ 31 -> exists x t', read_labels true m t p n = Ok (x, t').
Proof.
  intros m t p n R A K C. unfold read_labels. destruct (N.eqb_spec n 0) as [->|N0]; [eauto|].
  assert (Sh : forall i, i < n -> load_int m (shadow_for p + 4 * i) 4 = label_at m (p + i)).
  { intros i I. unfold label_at. now rewrite (range_shadow p n i A I). }
  unfold union_load. apply union_load_loop_total; [exact R| | |change (2 ^ 31) with 2147483648 in C; change label_capacity with 2147483648; lia].
  - rewrite <- (N.add_0_r (shadow_for p)). rewrite <- (N.mul_0_r 4). rewrite Sh by lia. apply K. lia.
  - intros i I. replace (shadow_for p + 4 + 4 * i) with (shadow_for p + 4 * (i + 1)) by lia. rewrite Sh by lia. apply K. lia.
Qed.

Example C37_case : let p := 0x7fff00000000 in
  let m := set_label (set_label mem_zero 4 p 3) 9 (p + 2) 1 in
  reachable demo /\ app_range p 6 /\ (forall i, i < 6 -> known demo (label_at m (p + i))) /\
  match read_labels true m demo p 6 with Ok (x, t') => negb (x =? 0) && (len demo <? len t') | _ => false end = true.
Proof.
  intros p m. split; [exact demo_reachable|]. split; [split; vm_compute; congruence|]. split.
  - intros i I. assert (Q : i = 0 \/ i = 1 \/ i = 2 \/ i = 3 \/ i = 4 \/ i = 5) by lia.
    destruct Q as [->|[->|[->|[->|[->| ->]]]]]; vm_compute; intuition congruence.
  - vm_compute. reflexivity.
Qed.

(** dfsan_union: equal labels and label 0 are absorbed, otherwise the union. *)
Theorem C37_union : forall t l r x t', reachable t -> known t l -> known t r ->
  dfsan_union true t l r = Ok (x, t') ->
  known t' x /\ (l = r -> x = l) /\ (r = 0 -> x = l) /\ (l = 0 -> x = r) /\
  (forall b, derives (view t') x b <-> derives (view t) l b \/ derives (view t) r b) /\
  (forall y b, in_use t y -> (derives (view t') y b <-> derives (view t) y b)).
Proof.
  intros t l r x t' R Kl Kr H. unfold dfsan_union in H. destruct (N.eqb_spec l r) as [->|Ne].
  - injection H as <- <-. split; [exact Kr|]. split; [auto|]. split; [auto|]. split; [auto|].
    split; [intros; tauto|reflexivity].
  - destruct (dfsan_union_ok t l r x t' R Kl Kr H) as (La & _ & Kx & _ & D).
    split; [exact Kx|]. split; [contradiction|]. unfold dfsan_union_ne in H.
    split; [|split; [|split; [exact D|apply La]]].
    + intros ->. destruct (N.eqb_spec l 0); [congruence|]. cbn [N.eqb] in H. now injection H as <- <-.
    + intros ->. cbn [N.eqb] in H. now injection H as <- <-.
Qed.

(** dfsan_add_label adds the bytes of the label to every addressed byte. *)
Theorem C37_add_label : forall m t label p n m' t',
  reachable t -> known t label -> app_range p n -> (forall i, i < n -> known t (label_at m (p + i))) ->
  add_label true m t label p n = Ok (m', t') ->
  (forall i, i < n -> known t' (label_at m' (p + i)) /\
     forall b, derives (view t') (label_at m' (p + i)) b <->
       derives (view t) (label_at m (p + i)) b \/ derives (view t) label b) /\
  (forall q, app_byte q -> ~ within p n q -> label_at m' q = label_at m q) /\
  same_app m m' /\
  (forall y b, in_use t y -> (derives (view t') y b <-> derives (view t) y b)).
Proof.
  intros m t label p n m' t' R Kl A K H. unfold add_label in H.
  destruct (N.eqb_spec label 0) as [->|Z].
  { injection H as <- <-. split; [|split; [reflexivity|split; [intros x _; reflexivity|reflexivity]]].
    intros i I. split; [now apply K|]. intros b. assert (D := derives_zero t b R). tauto. }
  assert (Sh : forall i mm, i < n -> load_int mm (shadow_for p + 4 * i) 4 = label_at mm (p + i)).
  { intros i mm I. unfold label_at. now rewrite (range_shadow p n i A I). }
  destruct (add_label_loop_ok label (N.to_nat n) m t (shadow_for p) m' t' R Kl) as (La & _ & O & D).
  { intros i I. rewrite Sh by lia. apply K. lia. }
  { exact H. }
  rewrite N2Nat.id in O, D. split; [|split; [|split; [|apply La]]].
  - intros i I. specialize (D i I). rewrite !Sh in D by exact I. exact D.
  - intros q Q W. apply label_ext. intros x [X1 X2]. apply O.
    destruct (N.eq_dec n 0) as [->|N0]; [lia|].
    assert (Ap : app_byte p) by (destruct A; unfold app_byte; lia).
    rewrite (shadow_for_app q Q) in X1, X2. rewrite (shadow_for_app p Ap). destruct Q, Ap, A. unfold within, BASE in *. lia.
  - intros x [X1 X2]. apply O. destruct (N.eq_dec n 0) as [->|N0]; [lia|].
    assert (B := range_end p n A ltac:(lia)). lia.
Qed.

(** The OR-combining loads (dfsan.cpp:244-271), which dfsan also exports, do not have
    this property: ORing the labels of two bytes yields the label of a third. *)
Theorem C37_or_load_refuted : exists m t p b,
  reachable t /\ (forall i, i < 2 -> known t (label_at m (p + i))) /\
  derives (view t) (union_load_fast16 m (shadow_for p) 2) b /\
  ~ (exists i, i < 2 /\ derives (view t) (label_at m (p + i)) b).
Proof.
  exists (set_label (set_label mem_zero 1 0x7fff00000000 1) 2 0x7fff00000001 1), demo, 0x7fff00000000, (3, 12).
  set (m := set_label _ _ _ _).
  assert (E0 : label_at m (0x7fff00000000 + 0) = 1) by (vm_compute; reflexivity).
  assert (E1 : label_at m (0x7fff00000000 + 1) = 2) by (vm_compute; reflexivity).
  assert (C : forall i, i < 2 -> i = 0 \/ i = 1) by lia.
  split; [exact demo_reachable|]. split; [|split].
  - intros i I. destruct (C i I) as [-> | ->]; [rewrite E0|rewrite E1]; right; vm_compute; intuition congruence.
  - assert (E : union_load_fast16 m (shadow_for 0x7fff00000000) 2 = 3) by (vm_compute; reflexivity). rewrite E.
    exists 3, true. split; [constructor|vm_compute; reflexivity].
  - intros (i & I & D). assert (V : forall l, l = 1 \/ l = 2 -> ~ derives (view demo) l (3, 12)).
    { intros l L (k & cf & B & Lk).
      assert (NS : forall k, ~ component (view demo) l k).
      { intros k' Ck. destruct L as [-> | ->]; inversion Ck as [? ? ? ? ? V|? ? ? ? V|? ? ? ? V]; subst; vm_compute in V; discriminate V. }
      inversion B as [|? ? ? Ck B']; subst; [|now apply (NS m0)].
      destruct L as [-> | ->]; vm_compute in Lk; discriminate Lk. }
    destruct (C i I) as [-> | ->]; [rewrite E0 in D|rewrite E1 in D].
    + exact (V 1 (or_introl eq_refl) D).
    + exact (V 2 (or_intror eq_refl) D).
Qed.

(** C38: memmove, for any overlap. *)
Theorem C38_memmove : forall m dest src n dest_label,
  app_range dest n -> app_range src n ->
  exists m', dfsw_memmove m dest src n dest_label = (m', dest, dest_label) /\
  (forall i, i < n -> label_at m' (dest + i) = label_at m (src + i) /\ m' (dest + i) = m (src + i)) /\
  (forall q, app_byte q -> ~ within dest n q -> label_at m' q = label_at m q /\ m' q = m q).
Proof.
  intros m d s n dl D S. eexists. split; [reflexivity|]. destruct (memmove_spec m d s n D S) as [L B]. split.
  - intros i I. assert (A := in_range d n i D I). rewrite (L _ A), (B _ A).
    destruct (N.leb_spec d (d + i)), (N.ltb_spec (d + i) (d + n)); cbn [andb]; try lia.
    replace (d + i - d) with i by lia. auto.
  - intros q Q W. rewrite (L _ Q), (B _ Q). unfold within in W.
    destruct (N.leb_spec d q), (N.ltb_spec q (d + n)); cbn [andb]; auto. lia.
Qed.

Example C38_case : let p := 0x7fff00000000 in
  let m := set_label (set_label mem_zero 4 p 1) 9 (p + 1) 2 in
  app_range (p + 1) 3 /\ app_range p 3 /\
  map (label_at (dfsan_memmove m (p + 1) p 3)) (nseq p 5) = [4; 4; 9; 9; 0] /\
  map (label_at (dfsan_memcpy m (p + 1) p 3)) (nseq p 5) = [4; 4; 4; 4; 0].
Proof. split; [split; vm_compute; congruence|]. split; [split; vm_compute; congruence|]. vm_compute. auto. Qed.

(** memcpy, for the non-overlapping ranges C allows. *)
Theorem C38_memcpy : forall m dest src n dest_label,
  app_range dest n -> app_range src n -> apart dest n src n ->
  exists m', dfsw_memcpy m dest src n dest_label = (m', dest, dest_label) /\
  (forall i, i < n -> label_at m' (dest + i) = label_at m (src + i) /\ m' (dest + i) = m (src + i)) /\
  (forall q, app_byte q -> ~ within dest n q -> label_at m' q = label_at m q /\ m' q = m q).
Proof.
  intros m d s n dl D S A. eexists. split; [reflexivity|]. destruct (memcpy_spec m d s n D S A) as [L B]. split.
  - intros i I. assert (Q := in_range d n i D I). rewrite (L _ Q), (B _ Q).
    destruct (N.leb_spec d (d + i)), (N.ltb_spec (d + i) (d + n)); cbn [andb]; try lia.
    replace (d + i - d) with i by lia. auto.
  - intros q Q W. rewrite (L _ Q), (B _ Q). unfold within in W.
    destruct (N.leb_spec d q), (N.ltb_spec q (d + n)); cbn [andb]; auto. lia.
Qed.

Theorem C38_memset : forall m s c n s_label c_label,
  c_label < 2 ^ 32 -> app_range s n -> c_label <> 0 \/ s + n < 0x800000000000 ->
  exists m', dfsw_memset m s c n s_label c_label = (m', s, s_label) /\
  (forall q, app_byte q -> within s n q -> label_at m' q = c_label /\ m' q = c mod 256) /\
  (forall q, app_byte q -> ~ within s n q -> label_at m' q = label_at m q /\ m' q = m q).
Proof.
  intros m s c n sl cl L R T. eexists. split; [reflexivity|]. destruct (memset_spec m s c cl n L R T) as [La B]. split.
  - intros q Q [W1 W2]. rewrite (La _ Q), (B _ Q).
    destruct (N.leb_spec s q), (N.ltb_spec q (s + n)); cbn [andb]; try lia. auto.
  - intros q Q W. rewrite (La _ Q), (B _ Q). unfold within in W.
    destruct (N.leb_spec s q), (N.ltb_spec q (s + n)); cbn [andb]; auto. lia.
Qed.

(** realloc, when libc moved the block or grew or shrank it in place: the first
    [new_size] bytes carry the labels found at the old address, so in particular the
    bytes preserved by realloc keep theirs.  [m1] is any memory libc may leave behind. *)
Theorem C38_realloc : forall m m1 ptr new_size new_mem,
  (forall x, m x < 256) -> app_range ptr new_size ->
  (forall x, ~ app_byte x -> m1 x = m x) ->
  0x700000008000 <= new_mem -> new_mem + new_size < 0x800000000000 ->
  exists m', dfsw_realloc m m1 ptr new_size new_mem = Ok (m', new_mem, 0) /\
  same_app m1 m' /\
  (forall i, i < new_size -> label_at m' (new_mem + i) = label_at m (ptr + i)) /\
  (forall q, app_byte q -> ~ within new_mem new_size q -> label_at m' q = label_at m q).
Proof.
  intros m m1 ptr n nm By Rp M1 Lo Hi. unfold dfsw_realloc.
  assert (L1 : forall q, app_byte q -> label_at m1 q = label_at m q).
  { intros q Q. apply labels_app; [|exact Q]. intros x X. apply M1. unfold app_byte. lia. }
  destruct (N.eqb_spec nm ptr) as [->|Ne]; cbn [negb].
  { exists m1. split; [reflexivity|]. split; [intros x _; reflexivity|]. split; [|auto].
    intros i I. apply L1. apply (in_range ptr n); auto. }
  destruct (N.eqb_spec ptr 0) as [->|P0].
  { destruct Rp. lia. }
  destruct (N.ltb_spec 0 n) as [N0|N0]; cbn [negb andb].
  - set (ls := map _ _).
    assert (Ll : len ls = n) by (unfold ls; rewrite len_map, len_nseq, N2Nat.id; reflexivity).
    destruct (set_labels_ok ls m1 nm) as (m' & E & SA & G & O).
    { apply Forall_forall. intros l I. unfold ls in I. apply in_map_iff in I. destruct I as (i & <- & _). now apply label_small. }
    { exact Lo. }
    { rewrite Ll. exact Hi. }
    rewrite E. cbn [bind]. exists m'. split; [reflexivity|]. split; [exact SA|]. split.
    + intros i I. apply G. unfold ls. rewrite get_map, get_nseq by lia. reflexivity.
    + intros q Q W. rewrite O by (rewrite ?Ll; auto). now apply L1.
  - exists m1. split; [reflexivity|]. split; [intros x _; reflexivity|]. split; [intros i I; lia|]. intros q Q _. now apply L1.
Qed.

Example C38_realloc_case : let p := 0x7fff00000000 in let q := 0x7fff00001000 in
  let m := set_label mem_zero 4 (p + 1) 2 in
  app_range p 8 /\ q + 8 < 0x800000000000 /\
  match dfsw_realloc m m p 8 q with Ok (m', _, _) => map (label_at m') (nseq q 4) = [0; 4; 4; 0] | _ => False end.
Proof. split; [split; vm_compute; congruence|]. vm_compute. auto. Qed.

(** The labels of the bytes behind a grown block are those of unrelated memory behind the
    old block, whatever they are (the TODO in memory_taints.cpp:15-19). *)
Theorem C38_realloc_growth_refuted : exists m ptr old_size new_size new_mem m',
  (forall i, i < old_size -> label_at m (ptr + i) = 0) /\ label_at m new_mem = 0 /\
  dfsw_realloc m m ptr new_size new_mem = Ok (m', new_mem, 0) /\
  label_at m' (new_mem + old_size) <> 0.
Proof.
  exists (set_label mem_zero 4 0x7fff00000001 1), 0x7fff00000000, 1, 2, 0x7fff00001000.
  set (m := set_label _ _ _ _).
  destruct (C38_realloc m m 0x7fff00000000 2 0x7fff00001000) as (m' & E & _ & L & _).
  { intros x. unfold m, set_label. cbn [N.eqb negb]. change (N.to_nat 1) with 1%nat. cbn [write_shadow].
    destruct (_ =? 4); [reflexivity|]. unfold store_int, store.
    destruct (_ && _); [|reflexivity]. cbn [le_bytes].
    destruct (N.to_nat _) as [|[|[|[|[|k]]]]]; vm_compute; reflexivity. }
  { split; vm_compute; congruence. }
  { reflexivity. }
  { vm_compute. congruence. }
  { vm_compute. reflexivity. }
  exists m'. split; [|split; [vm_compute; reflexivity|split; [exact E|]]].
  - intros i I. replace i with 0 by lia. vm_compute. reflexivity.
  - rewrite (L 1) by lia. vm_compute. discriminate.
Qed.

(** A failing realloc of any block makes the wrapper write labels for address 0. *)
Theorem C38_realloc_failure_refuted : forall m m1 ptr new_size,
  ptr <> 0 -> 1 <= new_size -> dfsw_realloc m m1 ptr new_size 0 = UB.
Proof.
  intros m m1 ptr n P N1. unfold dfsw_realloc.
  destruct (N.eqb_spec ptr 0); [contradiction|]. destruct (N.ltb_spec 0 n); [|lia]. cbn [negb andb].
  destruct (N.eqb_spec 0 ptr) as [E|_]; [congruence|]. cbn [negb].
  destruct (N.to_nat n) as [|k] eqn:K; [lia|]. cbn [nseq map set_labels]. unfold set_label_byte.
  change (shadow_for 0 <? SHADOW_ADDR) with true. reflexivity.
Qed.

(** malloc and free change no label; [m1] is any memory libc may leave behind. *)
Theorem C38_malloc : forall m m1 p,
  (forall x, ~ app_byte x -> m1 x = m x) ->
  exists m', dfsw_malloc m1 p = (m', p, 0) /\ same_app m1 m' /\
  (forall q, app_byte q -> label_at m' q = label_at m q) /\
  (forall q, app_byte q -> label_at (dfsw_free m1 p) q = label_at m q).
Proof.
  intros m m1 p M1. exists m1. split; [reflexivity|]. split; [intros x _; reflexivity|].
  split; intros q Q; (apply labels_app; [|exact Q]); intros x X; apply M1; unfold app_byte; lia.
Qed.

(** So the bytes of a new block may carry the labels of a block freed before. *)
Theorem C38_malloc_stale_refuted : exists m p m',
  app_byte p /\ dfsw_malloc (dfsw_free m p) p = (m', p, 0) /\ label_at m' p <> 0.
Proof.
  exists (set_label mem_zero 4 0x7fff00000000 1), 0x7fff00000000. eexists.
  split; [split; vm_compute; congruence|]. split; [reflexivity|]. vm_compute. discriminate.
Qed.

(** C53: strdup and strncpy. *)
Theorem C53_strdup : forall fuel m s k p,
  c_string m s k -> (N.to_nat k < fuel)%nat -> app_range s (k + 1) -> app_range p (k + 1) -> apart p (k + 1) s (k + 1) ->
  exists m', dfsw_strdup fuel m s p = Ok (m', p, 0) /\ c_string m' p k /\
  (forall i, i <= k -> label_at m' (p + i) = label_at m (s + i) /\ m' (p + i) = m (s + i)) /\
  (forall q, app_byte q -> ~ within p (k + 1) q -> label_at m' q = label_at m q /\ m' q = m q).
Proof.
  intros fuel m s k p C F S P A. unfold dfsw_strdup. rewrite (strlen_ok _ _ _ _ C F). cbn [bind].
  destruct (C38_memcpy m p s (k + 1) 0 P S A) as (m' & E & L & O).
  unfold dfsw_memcpy in E. injection E as E. rewrite E. exists m'. split; [reflexivity|].
  assert (Lk : forall i, i <= k -> label_at m' (p + i) = label_at m (s + i) /\ m' (p + i) = m (s + i)).
  { intros i I. apply L. lia. }
  split; [|split; [exact Lk|exact O]]. destruct C as [Cz Cn]. split.
  - rewrite (proj2 (Lk k ltac:(lia))). exact Cz.
  - intros i I. rewrite (proj2 (Lk i ltac:(lia))). now apply Cn.
Qed.

Theorem C53_strncpy : forall fuel m s1 s2 k n s1_label,
  c_string m s2 k -> (N.to_nat k < fuel)%nat ->
  0x700000008000 <= s1 -> s1 + n < 0x800000000000 -> app_range s2 (k + 1) ->
  apart s1 n s2 (k + 1) ->
  exists m', dfsw_strncpy fuel m s1 s2 n s1_label = Ok (m', s1, s1_label) /\
  (forall i, i < n -> i <= k -> label_at m' (s1 + i) = label_at m (s2 + i) /\ m' (s1 + i) = m (s2 + i)) /\
  (forall i, i < n -> k < i -> label_at m' (s1 + i) = 0 /\ m' (s1 + i) = 0) /\
  (forall q, app_byte q -> ~ within s1 n q -> label_at m' q = label_at m q /\ m' q = m q).
Proof.
  intros fuel m s1 s2 k n sl C F Lo Hi R2 A. unfold dfsw_strncpy. rewrite (strlen_ok _ _ _ _ C F). cbn [bind].
  eexists. split; [reflexivity|].
  destruct (N.ltb_spec k n) as [K|K].
  - assert (D : app_range s1 (k + 1)) by (unfold app_range; lia).
    assert (Ap : apart s1 (k + 1) s2 (k + 1)) by (unfold apart in *; lia).
    destruct (memcpy_spec m s1 s2 (k + 1) D R2 Ap) as [L B].
    set (m1 := dfsan_memcpy m s1 s2 (k + 1)) in *.
    destruct (memset_spec m1 (s1 + k + 1) 0 0 (n - k - 1) eq_refl) as [L2 B2].
    { unfold app_range. lia. }
    { right. lia. }
    assert (Q : forall i, i < n -> app_byte (s1 + i)) by (intros i I; unfold app_byte; lia).
    split; [|split].
    + intros i I Ik. rewrite (L2 _ (Q i I)), (B2 _ (Q i I)).
      destruct (N.leb_spec (s1 + k + 1) (s1 + i)); [lia|]. cbn [andb]. rewrite (L _ (Q i I)), (B _ (Q i I)).
      destruct (N.leb_spec s1 (s1 + i)), (N.ltb_spec (s1 + i) (s1 + (k + 1))); try lia. cbn [andb].
      replace (s1 + i - s1) with i by lia. auto.
    + intros i I Ik. rewrite (L2 _ (Q i I)), (B2 _ (Q i I)).
      destruct (N.leb_spec (s1 + k + 1) (s1 + i)), (N.ltb_spec (s1 + i) (s1 + k + 1 + (n - k - 1))); try lia. cbn [andb]. auto.
    + intros q Aq W. rewrite (L2 _ Aq), (B2 _ Aq). unfold within in W.
      destruct (N.leb_spec (s1 + k + 1) q), (N.ltb_spec q (s1 + k + 1 + (n - k - 1))); try lia; cbn [andb];
        rewrite (L _ Aq), (B _ Aq); destruct (N.leb_spec s1 q), (N.ltb_spec q (s1 + (k + 1))); try lia; auto.
  - assert (D : app_range s1 n) by (unfold app_range; lia).
    assert (R2' : app_range s2 n) by (destruct R2; unfold app_range; lia).
    assert (Ap : apart s1 n s2 n) by (unfold apart in *; lia).
    destruct (memcpy_spec m s1 s2 n D R2' Ap) as [L B].
    split; [|split].
    + intros i I _. assert (Q : app_byte (s1 + i)) by (unfold app_byte; lia). rewrite (L _ Q), (B _ Q).
      destruct (N.leb_spec s1 (s1 + i)), (N.ltb_spec (s1 + i) (s1 + n)); try lia. cbn [andb].
      replace (s1 + i - s1) with i by lia. auto.
    + intros i I Ik. lia.
    + intros q Aq W. rewrite (L _ Aq), (B _ Aq). unfold within in W.
      destruct (N.leb_spec s1 q), (N.ltb_spec q (s1 + n)); try lia; auto.
Qed.

Definition demo_string (m : mem) (p : N) : mem := store m p [104; 105; 0].
Example C53_case : let s := 0x7fff00000000 in let p := 0x7fff00001000 in
  let m := set_label (demo_string mem_zero s) 4 (s + 1) 1 in
  c_string m s 2 /\ app_range s 3 /\ app_range p 3 /\ apart p 3 s 3 /\
  match dfsw_strncpy 10 (set_label m 9 p 6) p s 5 0 with
  | Ok (m', _, _) => map (label_at m') (nseq p 7) = [0; 4; 0; 0; 0; 9; 0]
  | _ => False
  end.
Proof.
  intros s p m. split.
  { split; [vm_compute; reflexivity|]. intros i I. assert (Q : i = 0 \/ i = 1) by lia. destruct Q as [-> | ->]; vm_compute; discriminate. }
  split; [split; vm_compute; congruence|]. split; [split; vm_compute; congruence|]. split; [right; vm_compute; congruence|].
  vm_compute. reflexivity.
Qed.

(** strcat of dfsan_custom.cpp: the appended characters carry the labels of the source
    characters ... *)
Theorem C53_strcat_characters : forall fuel m dest dl src sl dest_label,
  c_string m dest dl -> c_string m src sl -> (N.to_nat dl < fuel)%nat -> (N.to_nat sl < fuel)%nat ->
  app_range dest (dl + sl + 1) -> app_range src (sl + 1) -> apart dest (dl + sl + 1) src (sl + 1) ->
  exists m', dfsw_strcat fuel m dest src dest_label = Ok (m', dest, dest_label) /\
  (forall i, i <= sl -> m' (dest + dl + i) = m (src + i)) /\
  (forall i, i < sl -> label_at m' (dest + dl + i) = label_at m (src + i)) /\
  (forall q, app_byte q -> ~ within (dest + dl) sl q -> label_at m' q = label_at m q) /\
  (forall q, app_byte q -> ~ within (dest + dl) (sl + 1) q -> m' q = m q).
Proof.
  intros fuel m dest dl src sl dlab Cd Cs Fd Fs Rd Rs A.
  destruct (strcat_ok fuel m dest dl src sl dlab Cd Cs Fd Fs Rd Rs A) as (m' & E & L & B).
  exists m'. split; [exact E|]. destruct Rd.
  assert (Q : forall i, i <= sl -> app_byte (dest + dl + i)) by (intros i I; unfold app_byte; lia).
  split; [|split; [|split]].
  - intros i I. rewrite (B _ (Q i I)).
    destruct (N.leb_spec (dest + dl) (dest + dl + i)), (N.ltb_spec (dest + dl + i) (dest + dl + (sl + 1))); try lia. cbn [andb].
    f_equal. lia.
  - intros i I. rewrite (L _ (Q i ltac:(lia))).
    destruct (N.leb_spec (dest + dl) (dest + dl + i)), (N.ltb_spec (dest + dl + i) (dest + dl + sl)); try lia. cbn [andb].
    f_equal. lia.
  - intros q Aq W. unfold within in W. rewrite (L _ Aq).
    destruct (N.leb_spec (dest + dl) q), (N.ltb_spec q (dest + dl + sl)); try lia; reflexivity.
  - intros q Aq W. unfold within in W. rewrite (B _ Aq).
    destruct (N.leb_spec (dest + dl) q), (N.ltb_spec q (dest + dl + (sl + 1))); try lia; reflexivity.
Qed.

(** ... but the copied terminator keeps whatever label was there. *)
Theorem C53_strcat_terminator_refuted : forall fuel m dest dl src sl dest_label,
  c_string m dest dl -> c_string m src sl -> (N.to_nat dl < fuel)%nat -> (N.to_nat sl < fuel)%nat ->
  app_range dest (dl + sl + 1) -> app_range src (sl + 1) -> apart dest (dl + sl + 1) src (sl + 1) ->
  exists m', dfsw_strcat fuel m dest src dest_label = Ok (m', dest, dest_label) /\
  label_at m' (dest + dl + sl) = label_at m (dest + dl + sl).
Proof.
  intros fuel m dest dl src sl dlab Cd Cs Fd Fs Rd Rs A.
  destruct (C53_strcat_characters fuel m dest dl src sl dlab Cd Cs Fd Fs Rd Rs A) as (m' & E & _ & _ & O & _).
  exists m'. split; [exact E|]. apply O; [destruct Rd; unfold app_byte; lia|unfold within; lia].
Qed.

(** strcat of string_taints.cpp: every appended character gets the label of the source
    pointer instead of its own, and so does the byte before them. *)
Theorem C53_runtime_strcat_refuted : forall fuel m dest dl src sl dest_label src_label,
  c_string m dest dl -> c_string m src sl -> (N.to_nat (dl + sl) < fuel)%nat ->
  src_label < 2 ^ 32 -> 0x700000008000 < dest -> dest + dl + sl + 1 < 0x800000000000 -> app_range src (sl + 1) ->
  apart dest (dl + sl + 1) src (sl + 1) ->
  exists m', dfsw_strcat_runtime fuel m dest src dest_label src_label = Ok (m', dest, dest_label) /\
  label_at m' (dest + dl - 1) = src_label /\
  (forall i, i < sl -> label_at m' (dest + dl + i) = src_label) /\
  (forall q, app_byte q -> ~ within (dest + dl - 1) (sl + 1) q -> label_at m' q = label_at m q).
Proof.
  intros fuel m dest dl src sl dlab slab Cd Cs F Ls Lo Hi Rs A.
  destruct (strcat_runtime_ok fuel m dest dl src sl dlab slab Cd Cs F Ls Lo Hi Rs A) as (m' & E & L & _).
  exists m'. split; [exact E|]. split; [|split].
  - rewrite L by (unfold app_byte; lia).
    destruct (N.leb_spec (dest + dl - 1) (dest + dl - 1)), (N.ltb_spec (dest + dl - 1) (dest + dl + sl)); try lia. reflexivity.
  - intros i I. rewrite L by (unfold app_byte; lia).
    destruct (N.leb_spec (dest + dl - 1) (dest + dl + i)), (N.ltb_spec (dest + dl + i) (dest + dl + sl)); try lia. reflexivity.
  - intros q Q W. unfold within in W. rewrite (L _ Q).
    destruct (N.leb_spec (dest + dl - 1) q), (N.ltb_spec q (dest + dl + sl)); try lia; reflexivity.
Qed.

(** A tainted string appended to an untainted one: the taint is lost. *)
Example C53_strcat_case : let s := 0x7fff00000000 in let d := 0x7fff00001000 in
  let m := set_label (demo_string (demo_string mem_zero s) d) 4 s 3 in
  c_string m s 2 /\ c_string m d 2 /\ apart d 5 s 3 /\
  match dfsw_strcat 10 m d s 0, dfsw_strcat_runtime 10 m d s 0 0 with
  | Ok (a, _, _), Ok (b, _, _) => map (label_at a) (nseq d 5) = [0; 0; 4; 4; 0] /\ map (label_at b) (nseq d 5) = [0; 0; 0; 0; 0]
  | _, _ => False
  end.
Proof.
  intros s d m.
  assert (Q : forall i, i < 2 -> i = 0 \/ i = 1) by lia.
  split; [split; [vm_compute; reflexivity|]; intros i I; destruct (Q i I) as [-> | ->]; vm_compute; discriminate|].
  split; [split; [vm_compute; reflexivity|]; intros i I; destruct (Q i I) as [-> | ->]; vm_compute; discriminate|].
  split; [right; vm_compute; congruence|]. vm_compute. auto.
Qed.

Print Assumptions C35_separate.
Print Assumptions C35_documented_region_refuted.
Print Assumptions C35_low_addresses_refuted.
Print Assumptions C36_set_label.
Print Assumptions C36_last_byte_refuted.
Print Assumptions C37_read_label.
Print Assumptions C37_read_returns.
Print Assumptions C37_union.
Print Assumptions C37_add_label.
Print Assumptions C37_or_load_refuted.
Print Assumptions C38_memmove.
Print Assumptions C38_memcpy.
Print Assumptions C38_memset.
Print Assumptions C38_realloc.
Print Assumptions C38_realloc_growth_refuted.
Print Assumptions C38_realloc_failure_refuted.
Print Assumptions C38_malloc.
Print Assumptions C38_malloc_stale_refuted.
Print Assumptions C53_strdup.
Print Assumptions C53_strncpy.
Print Assumptions C53_strcat_characters.
Print Assumptions C53_strcat_terminator_refuted.
Print Assumptions C53_runtime_strcat_refuted.
