(** Proofs about the shadow memory. *)
From Coq Require Import NArith List Bool Lia.
From Verif Require Import M_Base M_Memory M_Encoding M_Labels M_Dfsan S_Dfsan S_Provenance S_Labels
  P_Base P_Memory P_Labels P_ControlFlow P_History.
Import ListNotations.
Open Scope N_scope.

(** ** The mapping *)
Definition BASE : N := 0x700000000000.

Lemma shadow_for_low p : p < 0x800000000000 -> shadow_for p = 4 * (p mod 2 ^ 44).
Proof.
  intros H. unfold shadow_for.
  assert (E : N.land p SHADOW_MASK = p mod 2 ^ 44).
  { assert (P : p = N.land p (N.ones 47)).
    { rewrite N.land_ones, N.mod_small; [reflexivity|]. change (2 ^ 47) with 0x800000000000. exact H. }
    rewrite P at 1. rewrite <- N.land_assoc. change (N.land (N.ones 47) SHADOW_MASK) with (N.ones 44).
    apply N.land_ones. }
  rewrite E, N.shiftl_mul_pow2. change (2 ^ 2) with 4.
  assert (L : p mod 2 ^ 44 < 2 ^ 44) by (apply N.mod_lt; discriminate).
  change (2 ^ 44) with 17592186044416 in *. rewrite N.mod_small; [lia|]. unfold two64. lia.
Qed.

Lemma shadow_for_app p : app_byte p -> shadow_for p = 4 * (p - BASE).
Proof.
  intros [H1 H2]. rewrite shadow_for_low by exact H2. f_equal.
  change (2 ^ 44) with 17592186044416. unfold BASE.
  symmetry. apply N.mod_unique with 7; lia.
Qed.

Lemma shadow_add p i : app_byte p -> p + i < 0x800000000000 -> shadow_for (p + i) = shadow_for p + 4 * i.
Proof.
  intros [H1 H2] H3. rewrite !shadow_for_app; unfold app_byte, BASE; lia.
Qed.

Lemma shadow_bounds p : app_byte p -> SHADOW_ADDR <= shadow_for p /\ shadow_for p + 4 <= 0x400000000000.
Proof. intros H. rewrite shadow_for_app by exact H. destruct H. unfold BASE, SHADOW_ADDR. lia. Qed.

Lemma shadow_end p n : app_byte p -> p + n < 0x800000000000 -> shadow_for (add64 p n) = shadow_for p + 4 * n.
Proof.
  intros H1 H2. unfold add64. rewrite N.mod_small by (unfold two64; lia). now apply shadow_add.
Qed.

Lemma in_range p n i : app_range p n -> i < n -> app_byte (p + i).
Proof. intros [H1 H2] H3. unfold app_byte. lia. Qed.

Lemma range_shadow p n i : app_range p n -> i < n -> shadow_for (p + i) = shadow_for p + 4 * i.
Proof. intros H I. destruct H. apply shadow_add; unfold app_byte; lia. Qed.

(** The cells of a range are exactly the bytes from shadow_for p to shadow_for p + 4n. *)
Lemma range_end p n : app_range p n -> 1 <= n -> shadow_for p + 4 * n <= 0x400000000000 /\ SHADOW_ADDR <= shadow_for p.
Proof.
  intros H N1. assert (A : app_byte p) by (destruct H; unfold app_byte; lia).
  rewrite shadow_for_app by exact A. destruct H, A. unfold BASE, SHADOW_ADDR. lia.
Qed.

(** ** Byte level facts *)
Lemma load_int_zero m a k : (forall x, a <= x -> x < a + N.of_nat k -> m x = 0) -> load_int m a k = 0.
Proof.
  intros H. unfold load_int.
  assert (E : forall l, Forall (fun b => b = 0) l -> le_val l = 0).
  { induction l as [|b l IH]; [reflexivity|]. intros F. inversion F; subst. cbn [le_val]. rewrite IH by assumption. reflexivity. }
  apply E. apply Forall_forall. intros b I. unfold load in I. apply in_map_iff in I. destruct I as (x & <- & I).
  apply in_nseq in I. apply H; lia.
Qed.

Lemma write_shadow_spec l : l < two32 -> forall n m s,
  (forall x, x < s \/ s + 4 * N.of_nat n <= x -> write_shadow m l s n x = m x) /\
  (forall i, i < N.of_nat n -> load_int (write_shadow m l s n) (s + 4 * i) 4 = l).
Proof.
  intros L. induction n as [|n IH]; intros m s.
  - split; [reflexivity|]. intros i I. lia.
  - cbn [write_shadow]. set (m1 := if load_int m s 4 =? l then m else store_int m s 4 l).
    assert (M1 : load_int m1 s 4 = l).
    { unfold m1. destruct (N.eqb_spec (load_int m s 4) l) as [E|_]; [exact E|]. apply load_int_store. exact L. }
    assert (O1 : forall x, x < s \/ s + 4 <= x -> m1 x = m x).
    { intros x X. unfold m1. destruct (load_int m s 4 =? l); [reflexivity|]. unfold store_int. apply store_other.
      rewrite len_le_bytes. exact X. }
    destruct (IH m1 (s + 4)) as [A B]. split.
    + intros x X. rewrite A by lia. apply O1. lia.
    + intros i I. destruct (N.eq_dec i 0) as [->|Z].
      * replace (s + 4 * 0) with s by lia. transitivity (load_int m1 s 4); [|exact M1]. apply load_int_ext. intros x X1 X2. apply A. lia.
      * replace (s + 4 * i) with (s + 4 + 4 * (i - 1)) by lia. apply B. lia.
Qed.

Lemma fill_spec m a n v x : fill m a n v x = if (a <=? x) && (x <? a + n) then v else m x.
Proof. reflexivity. Qed.

Lemma fill_other m a n v x : x < a \/ a + n <= x -> fill m a n v x = m x.
Proof. intros H. unfold fill. destruct (N.leb_spec a x), (N.ltb_spec x (a + n)); cbn; auto; lia. Qed.

Lemma fill_same m a n v x : a <= x -> x < a + n -> fill m a n v x = v.
Proof. intros H1 H2. unfold fill. destruct (N.leb_spec a x), (N.ltb_spec x (a + n)); cbn; auto; lia. Qed.

Lemma clear_spec m s n :
  (forall x, x < s \/ s + n <= x -> clear_shadow m s n x = m x) /\
  (forall x, s <= x -> x < s + n -> clear_shadow m s n x = 0).
Proof.
  unfold clear_shadow. destruct (mem_is_zero m s n) eqn:Z.
  - split; [reflexivity|]. intros x X1 X2. unfold mem_is_zero in Z. rewrite forallb_forall in Z.
    apply N.eqb_eq. apply Z. unfold load. apply in_map_iff. exists x. split; [reflexivity|]. apply in_nseq. lia.
  - split; [apply fill_other|]. intros. now apply fill_same.
Qed.

Lemma round_down_spec x : round_down x <= x /\ x < round_down x + PAGE.
Proof.
  unfold round_down. change (PAGE - 1) with (N.ones 12). rewrite N.ldiff_ones_r, N.shiftr_div_pow2, N.shiftl_mul_pow2.
  change (2 ^ 12) with 4096. unfold PAGE. assert (D := N.div_mod x 4096). assert (M := N.mod_lt x 4096). lia.
Qed.

Lemma round_up_spec x : x <= round_up x /\ round_up x < x + PAGE.
Proof.
  assert (E : round_up x = round_down (x + (PAGE - 1))) by reflexivity. rewrite E.
  assert (D := round_down_spec (x + (PAGE - 1))). unfold PAGE in *. lia.
Qed.

(** SetShadow at byte level. *)
Lemma set_label_bytes m l p n : l < two32 -> app_range p n -> l <> 0 \/ p + n < 0x800000000000 ->
  (forall x, x < shadow_for p \/ shadow_for p + 4 * n <= x -> set_label m l p n x = m x) /\
  (forall i, i < n -> load_int (set_label m l p n) (shadow_for p + 4 * i) 4 = l).
Proof.
  intros L R Top. unfold set_label.
  assert (W : (forall x, x < shadow_for p \/ shadow_for p + 4 * n <= x ->
                write_shadow m l (shadow_for p) (N.to_nat n) x = m x) /\
              (forall i, i < n -> load_int (write_shadow m l (shadow_for p) (N.to_nat n)) (shadow_for p + 4 * i) 4 = l)).
  { destruct (write_shadow_spec l L (N.to_nat n) m (shadow_for p)) as [A B]. rewrite N2Nat.id in A, B. now split. }
  destruct (N.eqb_spec l 0) as [->|Z]; cbn [negb]; [|exact W].
  destruct Top as [Top|Top]; [congruence|].
  destruct (N.eq_dec n 0) as [->|N0].
  { destruct (_ <=? _) eqn:E; [exact W|]. exfalso.
    apply N.leb_gt in E. unfold add64 in E. rewrite N.add_0_r in E.
    destruct R as [R _]. rewrite N.mod_small in E by (unfold two64; lia).
    assert (U := round_up_spec (shadow_for p)). assert (D := round_down_spec (shadow_for p)). unfold PAGE in *. lia. }
  assert (A : app_byte p) by (destruct R; unfold app_byte; lia).
  rewrite (shadow_end p n A Top).
  set (b := shadow_for p) in *. set (e := b + 4 * n) in *.
  assert (U := round_up_spec b). assert (D := round_down_spec e).
  set (ba := round_up b) in *. set (ea := round_down e) in *.
  destruct (N.leb_spec ea (ba + 8 * PAGE)) as [Q|Q]; [exact W|].
  unfold PAGE in *.
  destruct (clear_spec m b (ba - b)) as [C1 C2].
  set (m1 := clear_shadow m b (ba - b)) in *.
  set (m2 := fill m1 ba (ea - ba) 0).
  destruct (clear_spec m2 ea (e - ea)) as [D1 D2].
  split.
  - intros x X. rewrite D1 by lia. unfold m2. rewrite fill_other by lia. apply C1. lia.
  - intros i I. apply load_int_zero. intros x X1 X2.
    destruct (N.lt_ge_cases x ea) as [Y|Y].
    + rewrite D1 by lia. unfold m2. destruct (N.lt_ge_cases x ba).
      * rewrite fill_other by lia. apply C2; lia.
      * apply fill_same; lia.
    + apply D2; lia.
Qed.

Lemma set_label_outside m l p n x : l < two32 -> app_range p n -> l <> 0 \/ p + n < 0x800000000000 ->
  (forall q, within p n q -> ~ in_cell q x) -> set_label m l p n x = m x.
Proof.
  intros L R T H. destruct (set_label_bytes m l p n L R T) as [A _].
  destruct (N.lt_ge_cases x (shadow_for p)) as [X|X]; [apply A; now left|].
  destruct (N.lt_ge_cases x (shadow_for p + 4 * n)) as [Y|Y]; [|apply A; now right].
  exfalso. assert (N0 : 0 < n) by (destruct (N.eq_dec n 0); subst; lia).
  set (i := (x - shadow_for p) / 4).
  assert (D := N.div_mod (x - shadow_for p) 4). assert (M := N.mod_lt (x - shadow_for p) 4). fold i in D.
  assert (I : i < n) by lia.
  apply (H (p + i)); [unfold within; lia|]. unfold in_cell. rewrite (range_shadow p n i R I). lia.
Qed.

Lemma set_label_in m l p n i : l < two32 -> app_range p n -> l <> 0 \/ p + n < 0x800000000000 ->
  i < n -> label_at (set_label m l p n) (p + i) = l.
Proof.
  intros L R T I. unfold label_at. rewrite (range_shadow p n i R I). now apply (set_label_bytes m l p n L R T).
Qed.

Lemma cells_apart p q : app_byte p -> app_byte q -> p <> q ->
  shadow_for p + 4 <= shadow_for q \/ shadow_for q + 4 <= shadow_for p.
Proof. intros Hp Hq N. rewrite !shadow_for_app by assumption. destruct Hp, Hq. unfold BASE. lia. Qed.

(** A label depends only on its cell. *)
Lemma label_ext m m' q : (forall x, in_cell q x -> m x = m' x) -> label_at m q = label_at m' q.
Proof. intros H. unfold label_at. apply load_int_ext. intros x X1 X2. apply H. unfold in_cell. cbn in X2. lia. Qed.

Lemma set_label_out m l p n q : l < two32 -> app_range p n -> l <> 0 \/ p + n < 0x800000000000 ->
  app_byte q -> ~ within p n q -> label_at (set_label m l p n) q = label_at m q.
Proof.
  intros L R T Q W. apply label_ext. intros x X. apply set_label_outside; auto.
  intros q' W' C'. assert (A' : app_byte q').
  { destruct R, W'. unfold app_byte. lia. }
  assert (Ne : q <> q') by (intros ->; contradiction).
  destruct (cells_apart q q' Q A' Ne); unfold in_cell in *; lia.
Qed.

Lemma app_not_cell p x : app_byte p -> app_byte x -> ~ in_cell p x.
Proof. intros P [X _] [_ C]. assert (B := shadow_bounds p P). lia. Qed.

Lemma set_label_app m l p n : l < two32 -> app_range p n -> l <> 0 \/ p + n < 0x800000000000 ->
  same_app m (set_label m l p n).
Proof.
  intros L R T x X. apply set_label_outside; auto. intros q [W1 W2].
  apply app_not_cell; auto. destruct R. unfold app_byte. lia.
Qed.

(** ** Copies *)
Lemma copy_loop_spec n : forall m d s x, d <= s \/ s + N.of_nat n <= d ->
  copy_loop m d s n x = if (d <=? x) && (x <? d + N.of_nat n) then m (s + (x - d)) else m x.
Proof.
  induction n as [|n IH]; intros m d s x H.
  - cbn [copy_loop]. destruct (N.leb_spec d x), (N.ltb_spec x (d + N.of_nat 0)); cbn; auto; lia.
  - cbn [copy_loop]. rewrite IH by lia.
    assert (V : forall y, store m d [m s] y = if y =? d then m s else m y).
    { intros y. destruct (N.eqb_spec y d) as [->|Ne].
      - replace d with (d + 0) at 2 by lia. apply store_same. reflexivity.
      - apply store_other. change (len [m s]) with 1. lia. }
    rewrite !V.
    destruct (N.leb_spec (d + 1) x), (N.ltb_spec x (d + 1 + N.of_nat n)), (N.leb_spec d x),
      (N.ltb_spec x (d + N.of_nat (S n))); cbn [andb]; try lia.
    + destruct (N.eqb_spec (s + 1 + (x - (d + 1))) d) as [E|E].
      * lia.
      * f_equal. lia.
    + destruct (N.eqb_spec x d); [lia|reflexivity].
    + destruct (N.eqb_spec x d) as [->|]; [|lia]. f_equal. lia.
    + destruct (N.eqb_spec x d); [lia|reflexivity].
Qed.

Lemma move_spec m d s n x :
  move m d s n x = if (d <=? x) && (x <? d + n) then m (s + (x - d)) else m x.
Proof.
  unfold move. destruct (N.leb_spec d x), (N.ltb_spec x (d + n)); cbn [andb].
  - replace x with (d + (x - d)) at 1 by lia. apply store_same. apply get_load. lia.
  - apply store_other. rewrite len_load. lia.
  - apply store_other. lia.
  - apply store_other. lia.
Qed.

Lemma copy_move m d s n x : d <= s \/ s + n <= d -> copy_loop m d s (N.to_nat n) x = move m d s n x.
Proof. intros H. rewrite move_spec, copy_loop_spec by (rewrite N2Nat.id; exact H). now rewrite N2Nat.id. Qed.

(** A memory [m'] obtained from [m] by copying the labels of [n] bytes. *)
Lemma move_labels m d s n q : app_range d n -> app_range s n -> app_byte q ->
  label_at (move m (shadow_for d) (shadow_for s) (n * 4)) q =
  if (d <=? q) && (q <? d + n) then label_at m (s + (q - d)) else label_at m q.
Proof.
  intros D S Q.
  destruct (N.leb_spec d q) as [Q1|Q1], (N.ltb_spec q (d + n)) as [Q2|Q2]; cbn [andb].
  - unfold label_at, load_int. f_equal.
    assert (Eq : shadow_for q = shadow_for d + 4 * (q - d)).
    { replace q with (d + (q - d)) at 1 by lia. apply (range_shadow d n); auto. lia. }
    assert (Es : shadow_for (s + (q - d)) = shadow_for s + 4 * (q - d)) by (apply (range_shadow s n); auto; lia).
    rewrite Eq, Es. apply list_ext. intros i. destruct (N.lt_ge_cases i 4) as [I|I].
    + rewrite !get_load by (cbn; lia). f_equal. rewrite move_spec.
      destruct (N.leb_spec (shadow_for d) (shadow_for d + 4 * (q - d) + i)); [|lia].
      destruct (N.ltb_spec (shadow_for d + 4 * (q - d) + i) (shadow_for d + n * 4)); [|lia].
      cbn [andb]. f_equal. lia.
    + transitivity (@None N); [|symmetry]; apply get_none; rewrite len_load; cbn; lia.
  - apply label_ext. intros x [X1 X2]. rewrite move_spec.
    destruct (N.eq_dec n 0) as [->|N0].
    { rewrite N.mul_0_l, N.add_0_r. destruct (N.leb_spec (shadow_for d) x), (N.ltb_spec x (shadow_for d)); cbn; auto; lia. }
    assert (Da : app_byte d) by (destruct D; unfold app_byte; lia).
    rewrite (shadow_for_app q Q) in *. rewrite (shadow_for_app d Da) in *. destruct Q, Da, D. unfold BASE in *.
    destruct (N.leb_spec (4 * (d - 123145302310912)) x), (N.ltb_spec x (4 * (d - 123145302310912) + n * 4)); cbn; auto; lia.
  - apply label_ext. intros x [X1 X2]. rewrite move_spec.
    destruct (N.eq_dec n 0) as [->|N0].
    { rewrite N.mul_0_l, N.add_0_r. destruct (N.leb_spec (shadow_for d) x), (N.ltb_spec x (shadow_for d)); cbn; auto; lia. }
    assert (Da : app_byte d) by (destruct D; unfold app_byte; lia).
    rewrite (shadow_for_app q Q) in *. rewrite (shadow_for_app d Da) in *. destruct Q, Da, D. unfold BASE in *.
    destruct (N.leb_spec (4 * (d - 123145302310912)) x), (N.ltb_spec x (4 * (d - 123145302310912) + n * 4)); cbn; auto; lia.
  - lia.
Qed.

Lemma move_shadow_app m d s n : app_range d n -> same_app m (move m (shadow_for d) s (n * 4)).
Proof.
  intros D x X. rewrite move_spec. destruct (N.eq_dec n 0) as [->|N0].
  { destruct (N.leb_spec (shadow_for d) x), (N.ltb_spec x (shadow_for d + 0 * 4)); cbn; auto; lia. }
  assert (B := range_end d n D ltac:(lia)). destruct X.
  destruct (N.leb_spec (shadow_for d) x), (N.ltb_spec x (shadow_for d + n * 4)); cbn; auto; lia.
Qed.

(** Writing application memory leaves labels alone. *)
Lemma labels_app m m' q : (forall x, x < 0x700000008000 -> m' x = m x) -> app_byte q ->
  label_at m' q = label_at m q.
Proof. intros H Q. apply label_ext. intros x [_ X]. apply H. assert (B := shadow_bounds q Q). lia. Qed.

Lemma move_app_low m d s n : app_range d n -> forall x, x < 0x700000008000 -> move m d s n x = m x.
Proof.
  intros [D _] x X. rewrite move_spec. destruct (N.leb_spec d x); cbn; auto. lia.
Qed.

Lemma fill_app_low m d n v : app_range d n -> forall x, x < 0x700000008000 -> fill m d n v x = m x.
Proof. intros [D _] x X. unfold fill. destruct (N.leb_spec d x); cbn; auto. lia. Qed.

Lemma memmove_spec m d s n : app_range d n -> app_range s n ->
  (forall q, app_byte q -> label_at (dfsan_memmove m d s n) q =
     if (d <=? q) && (q <? d + n) then label_at m (s + (q - d)) else label_at m q) /\
  (forall x, app_byte x -> dfsan_memmove m d s n x =
     if (d <=? x) && (x <? d + n) then m (s + (x - d)) else m x).
Proof.
  intros D S. unfold dfsan_memmove. split.
  - intros q Q. rewrite (labels_app _ _ q (move_app_low _ d s n D) Q). now apply move_labels.
  - intros x X. rewrite move_spec.
    assert (SA := move_shadow_app m d (shadow_for s) n D).
    destruct (N.leb_spec d x), (N.ltb_spec x (d + n)); cbn [andb]; try (now apply SA).
    apply SA. destruct S, D. unfold app_byte. lia.
Qed.

Lemma memcpy_move m d s n : app_range d n -> app_range s n -> apart d n s n ->
  forall x, dfsan_memcpy m d s n x = dfsan_memmove m d s n x.
Proof.
  intros D S A x. unfold dfsan_memcpy, dfsan_memmove. rewrite copy_move by (unfold apart in A; lia).
  assert (E : forall y, copy_loop m (shadow_for d) (shadow_for s) (N.to_nat (n * 4)) y = move m (shadow_for d) (shadow_for s) (n * 4) y).
  { intros y. apply copy_move. destruct (N.eq_dec n 0) as [->|N0].
    { destruct (N.le_ge_cases (shadow_for d) (shadow_for s)); [now left|right; lia]. }
    assert (Da : app_byte d) by (destruct D; unfold app_byte; lia).
    assert (Sa : app_byte s) by (destruct S; unfold app_byte; lia).
    rewrite !shadow_for_app by assumption. destruct Da, Sa. unfold apart, BASE in *. lia. }
  rewrite (move_spec _ d s n x), (move_spec _ d s n x), !E. reflexivity.
Qed.

(** ** Reading labels *)
Lemma derives_zero t b : reachable t -> ~ derives (view t) 0 b.
Proof.
  intros R D. assert (V := view_zero t (reachable_wf _ R)). destruct D as (y & cf & B & L).
  inversion B as [|? ? ? C B']; subst; [congruence|]. inversion C; subst; congruence.
Qed.

(** Table [t'] is a later state of table [t]. *)
Definition later (t t' : table) : Prop :=
  reachable t' /\ len t <= len t' /\
  (forall y b, in_use t y -> (derives (view t') y b <-> derives (view t) y b)).

Lemma later_refl t : reachable t -> later t t.
Proof. intros R. split; [exact R|]. split; [lia|]. intros; reflexivity. Qed.

Lemma later_trans t t1 t2 : later t t1 -> later t1 t2 -> later t t2.
Proof.
  intros (R1 & L1 & E1) (R2 & L2 & E2). split; [exact R2|]. split; [lia|].
  intros y b U. rewrite <- (E1 y b U). apply E2. destruct U. split; lia.
Qed.

Lemma later_known t t' l : later t t' -> known t l -> known t' l.
Proof. intros (_ & L & _) [->|[U1 U2]]; [now left|right; split; lia]. Qed.

Lemma later_derives t t' l b : reachable t -> later t t' -> known t l ->
  (derives (view t') l b <-> derives (view t) l b).
Proof.
  intros R (R' & _ & E) [->|U]; [|now apply E].
  split; intros D; exfalso; [now apply (derives_zero t' b)|now apply (derives_zero t b)].
Qed.

Lemma reachable_union t l r x t' : reachable t -> in_use t l -> in_use t r ->
  union_taint t l r = Ok (x, t') -> reachable t'.
Proof.
  intros [h T] Ul Ur H. exists (h ++ [(LUnion l r, x)]). eapply tr_snoc; [exact T|now split|now constructor].
Qed.

Lemma dfsan_union_ok t l r x t' : reachable t -> known t l -> known t r ->
  dfsan_union_ne true t l r = Ok (x, t') ->
  later t t' /\ len t' <= len t + 1 /\ known t' x /\ (x = 0 <-> l = 0 /\ r = 0) /\
  (forall b, derives (view t') x b <-> derives (view t) l b \/ derives (view t) r b).
Proof.
  intros R Kl Kr H. unfold dfsan_union_ne in H.
  destruct (N.eqb_spec l 0) as [->|Zl].
  { injection H as <- <-. split; [now apply later_refl|]. split; [lia|]. split; [exact Kr|]. split; [intuition|].
    intros b. assert (Z := derives_zero t b R). tauto. }
  destruct (N.eqb_spec r 0) as [->|Zr].
  { injection H as <- <-. split; [now apply later_refl|]. split; [lia|]. split; [exact Kl|]. split; [intuition|].
    intros b. assert (Z := derives_zero t b R). tauto. }
  destruct Kl as [|Ul]; [contradiction|]. destruct Kr as [|Ur]; [contradiction|].
  cbn [union_table] in H. unfold union_table in H.
  assert (I := reachable_inv _ R).
  destruct (union_taint_ok _ _ _ _ _ (proj1 I) Ul Ur H) as (W' & Ux & _ & G & D).
  destruct (lstep_inv _ (LUnion l r) _ _ I (conj Ul Ur) (st_union _ _ _ _ _ H)) as [I' E].
  assert (R' := reachable_union _ _ _ _ _ R Ul Ur H).
  split.
  { split; [exact R'|]. split; [apply E|]. intros y b [Uy1 Uy2]. symmetry. now apply extends_derives. }
  split.
  { destruct G as [->|(_ & tn & -> & _)]; [lia|]. rewrite len_app. cbn. lia. }
  split; [now right|]. split; [|exact D].
  split; [|tauto]. intros ->. destruct Ux. lia.
Qed.

Lemma dfsan_union_total t l r : reachable t -> known t l -> known t r ->
  (exists x t', dfsan_union_ne true t l r = Ok (x, t')) \/
  (dfsan_union_ne true t l r = Exit /\ len t = label_capacity).
Proof.
  intros R Kl Kr. unfold dfsan_union_ne. destruct (N.eqb_spec l 0); [left; eauto|].
  destruct (N.eqb_spec r 0); [left; eauto|].
  destruct Kl as [|Ul]; [contradiction|]. destruct Kr as [|Ur]; [contradiction|].
  apply union_taint_total; auto using reachable_wf.
Qed.

Lemma union_load_loop_ok m n : forall t label s x t', reachable t -> known t label ->
  (forall i, i < N.of_nat n -> known t (load_int m (s + 4 * i) 4)) ->
  union_load_loop true m t label s n = Ok (x, t') ->
  later t t' /\ len t' <= len t + N.of_nat n /\ known t' x /\
  (x = 0 <-> label = 0 /\ forall i, i < N.of_nat n -> load_int m (s + 4 * i) 4 = 0) /\
  (forall b, derives (view t') x b <->
     derives (view t) label b \/ exists i, i < N.of_nat n /\ derives (view t) (load_int m (s + 4 * i) 4) b).
Proof.
  induction n as [|n IH]; intros t label s x t' R K Ks H; cbn [union_load_loop] in H.
  - injection H as <- <-. split; [now apply later_refl|]. split; [lia|]. split; [exact K|]. split.
    + split; [intros ->; split; auto; intros i I; lia|tauto].
    + intros b. split; [auto|]. intros [D|(i & I & _)]; [exact D|lia].
  - set (next := load_int m s 4) in *.
    assert (Kn : known t next).
    { specialize (Ks 0 ltac:(lia)). rewrite N.mul_0_r, N.add_0_r in Ks. exact Ks. }
    apply bind_ok in H. destruct H as ([l1 t1] & H1 & H2).
    assert (S1 : later t t1 /\ len t1 <= len t + 1 /\ known t1 l1 /\ (l1 = 0 <-> label = 0 /\ next = 0) /\
      (forall b, derives (view t1) l1 b <-> derives (view t) label b \/ derives (view t) next b)).
    { destruct (N.eqb_spec label next) as [Q|Q].
      - injection H1 as <- <-. rewrite <- Q. split; [now apply later_refl|]. split; [lia|]. split; [exact K|].
        split; [tauto|intros; tauto].
      - now apply dfsan_union_ok. }
    destruct S1 as (La & Ln & K1 & Z1 & D1).
    destruct (IH t1 l1 (s + 4) x t' (proj1 La) K1) as (La2 & Ln2 & K2 & Z2 & D2).
    { intros i I. apply (later_known t t1); [exact La|].
      replace (s + 4 + 4 * i) with (s + 4 * (i + 1)) by lia. apply Ks. lia. }
    { exact H2. }
    split; [now apply (later_trans t t1)|]. split; [lia|]. split; [exact K2|]. split.
    + rewrite Z2, Z1. split.
      * intros ((Zl & Zn) & Zr). split; [exact Zl|]. intros i I. destruct (N.eq_dec i 0) as [->|Ni].
        -- rewrite N.mul_0_r, N.add_0_r. exact Zn.
        -- specialize (Zr (i - 1) ltac:(lia)). replace (s + 4 * i) with (s + 4 + 4 * (i - 1)) by lia. exact Zr.
      * intros (Zl & Zr). split; [split; [exact Zl|]|].
        -- specialize (Zr 0 ltac:(lia)). rewrite N.mul_0_r, N.add_0_r in Zr. exact Zr.
        -- intros i I. replace (s + 4 + 4 * i) with (s + 4 * (i + 1)) by lia. apply Zr. lia.
    + intros b. rewrite D2, D1. split.
      * intros [[D|D]|(i & I & D)]; [now left|right; exists 0; split; [lia|]|right; exists (i + 1); split; [lia|]].
        -- rewrite N.mul_0_r, N.add_0_r. exact D.
        -- replace (s + 4 * (i + 1)) with (s + 4 + 4 * i) by lia.
           apply (later_derives t t1); auto. replace (s + 4 + 4 * i) with (s + 4 * (i + 1)) by lia. apply Ks. lia.
      * intros [D|(i & I & D)]; [tauto|]. destruct (N.eq_dec i 0) as [->|Ni].
        -- rewrite N.mul_0_r, N.add_0_r in D. tauto.
        -- right. exists (i - 1). split; [lia|]. replace (s + 4 + 4 * (i - 1)) with (s + 4 * i) by lia.
           apply (later_derives t t1); auto.
Qed.

Lemma union_load_loop_total m n : forall t label s, reachable t -> known t label ->
  (forall i, i < N.of_nat n -> known t (load_int m (s + 4 * i) 4)) -> len t + N.of_nat n <= label_capacity ->
  exists x t', union_load_loop true m t label s n = Ok (x, t').
Proof.
  induction n as [|n IH]; intros t label s R K Ks C; cbn [union_load_loop]; [eauto|].
  set (next := load_int m s 4) in *.
  assert (Kn : known t next).
  { specialize (Ks 0 ltac:(lia)). rewrite N.mul_0_r, N.add_0_r in Ks. exact Ks. }
  assert (S1 : exists l1 t1, (if label =? next then Ok (label, t) else dfsan_union_ne true t label next) = Ok (l1, t1)
     /\ later t t1 /\ len t1 <= len t + 1 /\ known t1 l1).
  { destruct (N.eqb_spec label next) as [Q|Q].
    - eexists _, _. split; [reflexivity|]. split; [now apply later_refl|]. split; [lia|exact K].
    - destruct (dfsan_union_total t label next R K Kn) as [(x & t1 & E)|(_ & F)]; [|lia].
      exists x, t1. destruct (dfsan_union_ok _ _ _ _ _ R K Kn E) as (A & B & D & _). auto. }
  destruct S1 as (l1 & t1 & -> & La & Ln & K1). cbn [bind].
  apply IH; [apply La|exact K1| |lia].
  intros i I. apply (later_known t t1); [exact La|].
  replace (s + 4 + 4 * i) with (s + 4 * (i + 1)) by lia. apply Ks. lia.
Qed.

Lemma reachable_bound t : reachable t -> len t <= label_capacity.
Proof. intros R. apply (reachable_wf _ R). Qed.

Lemma known_small t l : reachable t -> known t l -> l < two32.
Proof.
  intros R [->|[_ U]]; [reflexivity|]. assert (B := reachable_bound t R).
  change label_capacity with 2147483648 in B. unfold two32. lia.
Qed.

Lemma add_label_loop_ok label n : forall m t s m' t', reachable t -> known t label ->
  (forall i, i < N.of_nat n -> known t (load_int m (s + 4 * i) 4)) ->
  add_label_loop true m t label s n = Ok (m', t') ->
  later t t' /\ len t' <= len t + N.of_nat n /\
  (forall x, x < s \/ s + 4 * N.of_nat n <= x -> m' x = m x) /\
  (forall i, i < N.of_nat n -> known t' (load_int m' (s + 4 * i) 4) /\
     forall b, derives (view t') (load_int m' (s + 4 * i) 4) b <->
       derives (view t) (load_int m (s + 4 * i) 4) b \/ derives (view t) label b).
Proof.
  induction n as [|n IH]; intros m t s m' t' R K Ks H; cbn [add_label_loop] in H.
  - injection H as <- <-. split; [now apply later_refl|]. split; [lia|]. split; [reflexivity|]. intros i I. lia.
  - set (old := load_int m s 4) in *.
    assert (Ko : known t old).
    { specialize (Ks 0 ltac:(lia)). rewrite N.mul_0_r, N.add_0_r in Ks. exact Ks. }
    assert (S1 : exists m1 t1 x1, add_label_loop true m1 t1 label (s + 4) n = Ok (m', t') /\
      later t t1 /\ len t1 <= len t + 1 /\ known t1 x1 /\ load_int m1 s 4 = x1 /\
      (forall x, x < s \/ s + 4 <= x -> m1 x = m x) /\
      (forall b, derives (view t1) x1 b <-> derives (view t) old b \/ derives (view t) label b)).
    { destruct (N.eqb_spec old label) as [Q|Q].
      - exists m, t, old. split; [exact H|]. split; [now apply later_refl|]. split; [lia|]. split; [exact Ko|].
        split; [reflexivity|]. split; [reflexivity|]. intros b. rewrite Q. tauto.
      - apply bind_ok in H. destruct H as ([x1 t1] & H1 & H2).
        destruct (dfsan_union_ok _ _ _ _ _ R Ko K H1) as (La & Ln & K1 & _ & D1).
        exists (store_int m s 4 x1), t1, x1. split; [exact H2|]. split; [exact La|]. split; [exact Ln|]. split; [exact K1|].
        split; [apply load_int_store; exact (known_small t1 x1 (proj1 La) K1)|]. split; [|exact D1].
        intros x X. unfold store_int. apply store_other. rewrite len_le_bytes. exact X. }
    destruct S1 as (m1 & t1 & x1 & H1 & La & Ln & K1 & E1 & O1 & D1).
    assert (Rest : forall i, i < N.of_nat n -> load_int m1 (s + 4 + 4 * i) 4 = load_int m (s + 4 * (i + 1)) 4).
    { intros i I. replace (s + 4 * (i + 1)) with (s + 4 + 4 * i) by lia. apply load_int_ext. intros x X1 X2. apply O1. lia. }
    destruct (IH m1 t1 (s + 4) m' t' (proj1 La) (later_known _ _ _ La K)) as (La2 & Ln2 & O2 & D2).
    { intros i I. rewrite Rest by exact I. apply (later_known t t1); [exact La|]. apply Ks. lia. }
    { exact H1. }
    split; [now apply (later_trans t t1)|]. split; [lia|]. split.
    + intros x X. rewrite O2 by lia. apply O1. lia.
    + intros i I. destruct (N.eq_dec i 0) as [->|Ni].
      * rewrite N.mul_0_r, N.add_0_r.
        assert (E : load_int m' s 4 = x1).
        { rewrite <- E1. apply load_int_ext. intros x X1 X2. apply O2. cbn in X2. lia. }
        rewrite E. split; [now apply (later_known t1 t')|]. intros b.
        rewrite (later_derives t1 t' x1 b (proj1 La) La2 K1). apply D1.
      * destruct (D2 (i - 1)) as [K2 D3]; [lia|].
        replace (s + 4 + 4 * (i - 1)) with (s + 4 * i) in K2, D3 by lia.
        split; [exact K2|]. intros b. rewrite D3.
        assert (Q : load_int m1 (s + 4 * i) 4 = load_int m (s + 4 * i) 4).
        { apply load_int_ext. intros x X1 X2. apply O1. lia. }
        rewrite Q. assert (Ki : known t (load_int m (s + 4 * i) 4)) by (apply Ks; lia).
        rewrite (later_derives t t1 _ b R La Ki), (later_derives t t1 _ b R La K). reflexivity.
Qed.

(** ** Strings *)
Lemma strlen_ok fuel : forall m p k, c_string m p k -> (N.to_nat k < fuel)%nat -> strlen fuel m p = Ok k.
Proof.
  induction fuel as [|f IH]; intros m p k [Z Nz] F; [lia|]. cbn [strlen].
  destruct (N.eq_dec k 0) as [->|K].
  - rewrite N.add_0_r in Z. rewrite Z. reflexivity.
  - assert (Q := Nz 0 ltac:(lia)). rewrite N.add_0_r in Q. apply N.eqb_neq in Q. rewrite Q.
    rewrite (IH m (p + 1) (k - 1)).
    + cbn [bind]. f_equal. lia.
    + split; [replace (p + 1 + (k - 1)) with (p + k) by lia; exact Z|].
      intros i I. replace (p + 1 + i) with (p + (i + 1)) by lia. apply Nz. lia.
    + lia.
Qed.

Lemma c_string_ext m m' p k : (forall x, p <= x -> x <= p + k -> m' x = m x) -> c_string m p k -> c_string m' p k.
Proof.
  intros H [Z Nz]. split; [rewrite H by lia; exact Z|]. intros i I. rewrite H by lia. now apply Nz.
Qed.

Lemma label_eq m m' q : (forall x, m x = m' x) -> label_at m q = label_at m' q.
Proof. intros H. apply label_ext. intros; apply H. Qed.

(** memcpy of the labels of [n] bytes between disjoint ranges. *)
Lemma copy_labels m d s n : app_range d n -> app_range s n -> apart d n s n ->
  forall y, copy_loop m (shadow_for d) (shadow_for s) (N.to_nat (n * 4)) y = move m (shadow_for d) (shadow_for s) (n * 4) y.
Proof.
  intros D S A y. apply copy_move. destruct (N.eq_dec n 0) as [->|N0].
  { destruct (N.le_ge_cases (shadow_for d) (shadow_for s)); [now left|right; lia]. }
  assert (Da : app_byte d) by (destruct D; unfold app_byte; lia).
  assert (Sa : app_byte s) by (destruct S; unfold app_byte; lia).
  rewrite !shadow_for_app by assumption. destruct Da, Sa. unfold apart, BASE in *. lia.
Qed.

Lemma memcpy_spec m d s n : app_range d n -> app_range s n -> apart d n s n ->
  (forall q, app_byte q -> label_at (dfsan_memcpy m d s n) q =
     if (d <=? q) && (q <? d + n) then label_at m (s + (q - d)) else label_at m q) /\
  (forall x, app_byte x -> dfsan_memcpy m d s n x =
     if (d <=? x) && (x <? d + n) then m (s + (x - d)) else m x).
Proof.
  intros D S A. destruct (memmove_spec m d s n D S) as [L B]. assert (E := memcpy_move m d s n D S A). split.
  - intros q Q. rewrite (label_eq _ _ q E). now apply L.
  - intros x X. rewrite E. now apply B.
Qed.

Lemma memset_spec m s c l n : l < two32 -> app_range s n -> l <> 0 \/ s + n < 0x800000000000 ->
  (forall q, app_byte q -> label_at (dfsan_memset m s c l n) q =
     if (s <=? q) && (q <? s + n) then l else label_at m q) /\
  (forall x, app_byte x -> dfsan_memset m s c l n x =
     if (s <=? x) && (x <? s + n) then c mod two8 else m x).
Proof.
  intros L R T. unfold dfsan_memset. split.
  - intros q Q. destruct (N.leb_spec s q), (N.ltb_spec q (s + n)); cbn [andb].
    + replace q with (s + (q - s)) by lia. apply set_label_in; auto. lia.
    + rewrite set_label_out by (auto; unfold within; lia). now apply (labels_app _ _ q (fill_app_low m s n _ R)).
    + rewrite set_label_out by (auto; unfold within; lia). now apply (labels_app _ _ q (fill_app_low m s n _ R)).
    + lia.
  - intros x X. rewrite set_label_app by auto. reflexivity.
Qed.

Lemma strcat_ok fuel m dest dl src sl dest_label :
  c_string m dest dl -> c_string m src sl -> (N.to_nat dl < fuel)%nat -> (N.to_nat sl < fuel)%nat ->
  app_range dest (dl + sl + 1) -> app_range src (sl + 1) -> apart dest (dl + sl + 1) src (sl + 1) ->
  exists m', dfsw_strcat fuel m dest src dest_label = Ok (m', dest, dest_label) /\
  (forall q, app_byte q -> label_at m' q =
     if (dest + dl <=? q) && (q <? dest + dl + sl) then label_at m (src + (q - (dest + dl))) else label_at m q) /\
  (forall x, app_byte x -> m' x =
     if (dest + dl <=? x) && (x <? dest + dl + (sl + 1)) then m (src + (x - (dest + dl))) else m x).
Proof.
  intros Cd Cs Fd Fs Rd Rs A. unfold dfsw_strcat.
  rewrite (strlen_ok _ _ _ _ Cd Fd). cbn [bind]. rewrite (strlen_ok _ _ _ _ Cs Fs). cbn [bind].
  set (m1 := libc_strcat m dest dl src sl).
  assert (Rd1 : app_range (dest + dl) (sl + 1)) by (destruct Rd; unfold app_range; lia).
  assert (B1 : forall x, m1 x = if (dest + dl <=? x) && (x <? dest + dl + (sl + 1)) then m (src + (x - (dest + dl))) else m x).
  { intros x. unfold m1, libc_strcat. apply move_spec. }
  assert (Cs1 : c_string m1 src sl).
  { apply (c_string_ext m); [|exact Cs]. intros x X1 X2. rewrite B1. unfold apart in A.
    destruct (N.leb_spec (dest + dl) x), (N.ltb_spec x (dest + dl + (sl + 1))); cbn; auto; lia. }
  rewrite (strlen_ok _ _ _ _ Cs1 Fs). cbn [bind]. eexists. split; [reflexivity|].
  assert (D2 : app_range (dest + dl) sl) by (destruct Rd; unfold app_range; lia).
  assert (S2 : app_range src sl) by (destruct Rs; unfold app_range; lia).
  assert (E := copy_labels m1 (dest + dl) src sl D2 S2 ltac:(unfold apart in *; lia)).
  assert (L1 : forall q, app_byte q -> label_at m1 q = label_at m q).
  { intros q Q. apply (labels_app _ _ q (move_app_low m (dest + dl) src (sl + 1) Rd1) Q). }
  split.
  - intros q Q. rewrite (label_eq _ _ q E), move_labels by assumption.
    destruct (N.leb_spec (dest + dl) q), (N.ltb_spec q (dest + dl + sl)); cbn [andb]; try (now apply L1).
    apply L1. destruct S2, D2. unfold app_byte. lia.
  - intros x X. rewrite E. rewrite (move_shadow_app m1 (dest + dl) (shadow_for src) sl D2 x X). apply B1.
Qed.

Lemma strcat_runtime_ok fuel m dest dl src sl dest_label src_label :
  c_string m dest dl -> c_string m src sl -> (N.to_nat (dl + sl) < fuel)%nat ->
  src_label < two32 -> 0x700000008000 < dest -> dest + dl + sl + 1 < 0x800000000000 -> app_range src (sl + 1) ->
  apart dest (dl + sl + 1) src (sl + 1) ->
  exists m', dfsw_strcat_runtime fuel m dest src dest_label src_label = Ok (m', dest, dest_label) /\
  (forall q, app_byte q -> label_at m' q =
     if (dest + dl - 1 <=? q) && (q <? dest + dl + sl) then src_label else label_at m q) /\
  (forall x, app_byte x -> m' x =
     if (dest + dl <=? x) && (x <? dest + dl + (sl + 1)) then m (src + (x - (dest + dl))) else m x).
Proof.
  intros Cd Cs F Ls Lo Hi Rs A. unfold dfsw_strcat_runtime.
  rewrite (strlen_ok fuel m dest dl Cd) by lia. cbn [bind]. rewrite (strlen_ok fuel m src sl Cs) by lia. cbn [bind].
  set (m1 := libc_strcat m dest dl src sl).
  assert (Rd1 : app_range (dest + dl) (sl + 1)) by (unfold app_range; lia).
  assert (B1 : forall x, m1 x = if (dest + dl <=? x) && (x <? dest + dl + (sl + 1)) then m (src + (x - (dest + dl))) else m x).
  { intros x. unfold m1, libc_strcat. apply move_spec. }
  assert (Cd1 : c_string m1 dest (dl + sl)).
  { destruct Cd as [Zd Nd], Cs as [Zs Ns]. split.
    - rewrite B1. destruct (N.leb_spec (dest + dl) (dest + (dl + sl))), (N.ltb_spec (dest + (dl + sl)) (dest + dl + (sl + 1))); cbn [andb]; try lia.
      replace (src + (dest + (dl + sl) - (dest + dl))) with (src + sl) by lia. exact Zs.
    - intros i I. rewrite B1.
      destruct (N.leb_spec (dest + dl) (dest + i)), (N.ltb_spec (dest + i) (dest + dl + (sl + 1))); cbn [andb]; try lia.
      + apply Ns. lia.
      + apply Nd. lia. }
  rewrite (strlen_ok fuel m1 dest (dl + sl) Cd1) by lia. cbn [bind]. eexists. split; [reflexivity|].
  replace (dl + sl + 1 - dl) with (sl + 1) by lia.
  assert (Rl : app_range (dest + dl - 1) (sl + 1)) by (unfold app_range; lia).
  assert (T : src_label <> 0 \/ dest + dl - 1 + (sl + 1) < 0x800000000000) by (right; lia).
  assert (L1 : forall q, app_byte q -> label_at m1 q = label_at m q).
  { intros q Q. apply (labels_app _ _ q (move_app_low m (dest + dl) src (sl + 1) Rd1) Q). }
  split.
  - intros q Q. destruct (N.leb_spec (dest + dl - 1) q), (N.ltb_spec q (dest + dl + sl)); cbn [andb].
    + replace q with (dest + dl - 1 + (q - (dest + dl - 1))) by lia. apply set_label_in; auto. lia.
    + rewrite set_label_out by (auto; unfold within; lia). auto.
    + rewrite set_label_out by (auto; unfold within; lia). auto.
    + rewrite set_label_out by (auto; unfold within; lia). auto.
  - intros x X. rewrite set_label_app by auto. apply B1.
Qed.

(** ** realloc *)
Lemma le_val_bound bs : Forall (fun b => b < two8) bs -> le_val bs < two8 ^ len bs.
Proof.
  induction bs as [|b r IH]; intros F; [reflexivity|]. inversion F; subst. cbn [le_val]. rewrite len_cons.
  rewrite N.pow_add_r, N.pow_1_r. specialize (IH H2). unfold two8 in *. nia.
Qed.

Lemma label_small m q : (forall x, m x < 256) -> label_at m q < two32.
Proof.
  intros B. unfold label_at, load_int. replace two32 with (two8 ^ len (load m (shadow_for q) (N.of_nat 4))).
  - apply le_val_bound. apply Forall_forall. intros b I. unfold load in I. apply in_map_iff in I. destruct I as (x & <- & _). apply B.
  - rewrite len_load. reflexivity.
Qed.

Lemma set_labels_ok labels : forall m addr, Forall (fun l => l < two32) labels ->
  0x700000008000 <= addr -> addr + len labels < 0x800000000000 ->
  exists m', set_labels m labels addr = Ok m' /\ same_app m m' /\
    (forall i l, get labels i = Some l -> label_at m' (addr + i) = l) /\
    (forall q, app_byte q -> ~ within addr (len labels) q -> label_at m' q = label_at m q).
Proof.
  induction labels as [|l r IH]; intros m addr F Lo Hi.
  - exists m. split; [reflexivity|]. split; [intros x _; reflexivity|]. split; [|reflexivity].
    intros i l G. apply get_some in G. cbn in G. lia.
  - inversion F as [|? ? Fl Fr]; subst. rewrite len_cons in *. cbn [set_labels]. unfold set_label_byte.
    assert (A : app_byte addr) by (unfold app_byte; lia).
    assert (B := shadow_bounds addr A). destruct (N.ltb_spec (shadow_for addr) SHADOW_ADDR); [lia|]. cbn [bind].
    assert (R : app_range addr 1) by (unfold app_range; lia).
    assert (T : l <> 0 \/ addr + 1 < 0x800000000000) by (right; lia).
    destruct (IH (set_label m l addr 1) (addr + 1) Fr ltac:(lia) ltac:(lia)) as (m' & E & SA & G & O).
    exists m'. split; [exact E|]. split; [|split].
    + intros x X. rewrite (SA x X). now apply (set_label_app m l addr 1).
    + intros i x Gx. destruct (N.eq_dec i 0) as [->|Ni].
      * rewrite get_cons_0 in Gx. injection Gx as <-. rewrite N.add_0_r.
        rewrite O by (auto; unfold within; lia).
        replace addr with (addr + 0) at 2 by lia. apply set_label_in; auto. lia.
      * rewrite get_cons_S in Gx by lia. specialize (G _ _ Gx). replace (addr + i) with (addr + 1 + (i - 1)) by lia. exact G.
    + intros q Q W. unfold within in W. rewrite O by (auto; unfold within; lia).
      apply set_label_out; auto. unfold within. lia.
Qed.
