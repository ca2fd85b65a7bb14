(** Proofs about taint words. *)
From Coq Require Import ZArith NArith List Bool Lia ZifyBool ZifyNat ZifyN.
From Verif Require Import M_Base M_Encoding S_Provenance P_Base.
Import ListNotations.
Open Scope N_scope.

(** Well formed taints: what the constructors and index types allow. *)
Definition valid_taint (t : taint) : Prop :=
  match t with
  | TSource _ i o => i <= max_source_index /\ o <= max_source_offset
  | TRange _ f l => f < l /\ l <= max_label
  | TUnion _ lo hi => lo + 1 < hi /\ hi <= max_label
  end.

Lemma div_split m q r w : w = q * m + r -> r < m -> w / m = q.
Proof. intros -> H. symmetry. apply (N.div_unique _ m q r); lia. Qed.
Lemma mod_split m q r w : w = q * m + r -> r < m -> w mod m = r.
Proof. intros -> H. symmetry. apply (N.mod_unique _ m q r); lia. Qed.

Lemma disjoint_lor_add a b : N.land a b = 0 -> N.lor a b = a + b.
Proof.
  intros H. rewrite <- N.lxor_lor by assumption.
  symmetry. now apply N.add_nocarry_lxor.
Qed.

Lemma land_shiftl_small b a k : a < 2 ^ k -> N.land (N.shiftl b k) a = 0.
Proof.
  intros H. apply N.bits_inj_iff. intros n. rewrite N.land_spec, N.bits_0.
  destruct (N.ltb_spec n k).
  - rewrite N.shiftl_spec_low by assumption. reflexivity.
  - replace (N.testbit a n) with false.
    + apply andb_false_r.
    + destruct (N.eq_dec a 0) as [->|Ha].
      * now rewrite N.bits_0.
      * symmetry. apply N.bits_above_log2.
        apply N.log2_lt_pow2 in H; lia.
Qed.

Lemma lor_shiftl_add b a k : a < 2 ^ k -> N.lor (N.shiftl b k) a = b * 2 ^ k + a.
Proof.
  intros H. rewrite disjoint_lor_add by now apply land_shiftl_small.
  now rewrite N.shiftl_mul_pow2.
Qed.

Lemma land_label_mask x : N.land x label_mask = x mod 2147483648.
Proof. change label_mask with (N.ones 31). rewrite N.land_ones. reflexivity. Qed.

Lemma land_index_mask x : N.land x source_index_mask = x mod 256.
Proof. change source_index_mask with (N.ones 8). rewrite N.land_ones. reflexivity. Qed.

Lemma land_offset_mask x : N.land x max_source_offset = x mod 18014398509481984.
Proof. change max_source_offset with (N.ones 54). rewrite N.land_ones. reflexivity. Qed.

Lemma land_1 x : N.land x 1 = x mod 2.
Proof. change 1 with (N.ones 1) at 1. rewrite N.land_ones. reflexivity. Qed.

Lemma encode_source cf i o :
  encode (TSource cf i o) =
  9223372036854775808 + b2n cf * 4611686018427387904
  + (o mod 18014398509481984) * 256 + i mod 256.
Proof.
  unfold encode, source_taint_bit_shift, affects_control_flow_shift, source_index_bits.
  rewrite land_offset_mask, land_index_mask.
  set (o' := o mod 18014398509481984). set (i' := i mod 256).
  assert (Ho : o' < 18014398509481984) by (apply N.mod_lt; discriminate).
  assert (Hi : i' < 256) by (apply N.mod_lt; discriminate).
  assert (Hb : b2n cf <= 1) by (destruct cf; cbn; lia).
  rewrite (lor_shiftl_add 1 (N.shiftl (b2n cf) 62) 63).
  2:{ rewrite N.shiftl_mul_pow2. change (2^62) with 4611686018427387904.
      change (2^63) with 9223372036854775808. lia. }
  replace (1 * 2 ^ 63 + N.shiftl (b2n cf) 62) with (N.shiftl (2 + b2n cf) 62).
  2:{ rewrite !N.shiftl_mul_pow2. change (2^62) with 4611686018427387904.
      change (2^63) with 9223372036854775808. lia. }
  rewrite (lor_shiftl_add _ (N.shiftl o' 8) 62).
  2:{ rewrite N.shiftl_mul_pow2. change (2^8) with 256. change (2^62) with 4611686018427387904. lia. }
  rewrite (N.shiftl_mul_pow2 o').
  replace ((2 + b2n cf) * 2 ^ 62 + o' * 2 ^ 8) with (N.shiftl ((2 + b2n cf) * 2 ^ 54 + o') 8).
  2:{ rewrite !N.shiftl_mul_pow2. change (2^62) with (2^54 * 2^8). lia. }
  rewrite lor_shiftl_add by (change (2^8) with 256; lia).
  change (2^54) with 18014398509481984. change (2^8) with 256. lia.
Qed.

Lemma encode_range cf f l : l <= max_label ->
  encode (TRange cf f l) =
  b2n cf * 4611686018427387904 + (f mod 2147483648) * 2147483648 + l.
Proof.
  intros Hl. unfold encode, source_taint_bit_shift, affects_control_flow_shift, val1_shift, label_bits.
  unfold max_label in Hl.
  rewrite land_label_mask. set (f' := f mod 2147483648).
  assert (Hf : f' < 2147483648) by (apply N.mod_lt; discriminate).
  rewrite N.shiftl_0_l, N.lor_0_l.
  rewrite (lor_shiftl_add _ l 62) by (change (2^62) with 4611686018427387904; lia).
  rewrite disjoint_lor_add.
  - rewrite N.shiftl_mul_pow2. change (2^62) with 4611686018427387904.
    change (2^31) with 2147483648. lia.
  - replace (b2n cf * 2 ^ 62 + l) with (N.lor (N.shiftl (b2n cf) 62) l)
      by (apply lor_shiftl_add; change (2^62) with 4611686018427387904; lia).
    rewrite N.land_lor_distr_l. rewrite land_shiftl_small.
    2:{ rewrite N.shiftl_mul_pow2. change (2^62) with 4611686018427387904.
        change (2^31) with 2147483648. lia. }
    rewrite N.lor_0_l, N.land_comm. apply land_shiftl_small.
    change (2^31) with 2147483648. lia.
Qed.

Lemma encode_union cf lo hi :
  encode (TUnion cf lo hi) =
  b2n cf * 4611686018427387904 + (hi mod 2147483648) * 2147483648 + lo mod 2147483648.
Proof.
  unfold encode, source_taint_bit_shift, affects_control_flow_shift, val1_shift, label_bits.
  rewrite (N.land_comm label_mask hi), !land_label_mask.
  set (h' := hi mod 2147483648). set (l' := lo mod 2147483648).
  assert (Hh : h' < 2147483648) by (apply N.mod_lt; discriminate).
  assert (Hl : l' < 2147483648) by (apply N.mod_lt; discriminate).
  rewrite N.shiftl_0_l, N.lor_0_l.
  rewrite (lor_shiftl_add _ (N.shiftl h' 31) 62).
  2:{ rewrite N.shiftl_mul_pow2. change (2^62) with 4611686018427387904.
      change (2^31) with 2147483648. lia. }
  rewrite (N.shiftl_mul_pow2 h').
  replace (b2n cf * 2 ^ 62 + h' * 2 ^ 31) with (N.shiftl (b2n cf * 2 ^ 31 + h') 31).
  2:{ rewrite N.shiftl_mul_pow2. change (2^62) with (2^31*2^31). lia. }
  rewrite lor_shiftl_add by (change (2^31) with 2147483648; lia).
  change (2^31) with 2147483648. lia.
Qed.

(** Arithmetic reading of the decoders. *)
Lemma decode_arith w :
  decode w =
  let cf := negb ((w / 4611686018427387904) mod 2 =? 0) in
  if negb ((w / 9223372036854775808) mod 2 =? 0) then
    Ok (TSource cf (w mod 256) ((w / 256) mod 18014398509481984))
  else
    let a := (w / 2147483648) mod 2147483648 in
    let b := w mod 2147483648 in
    if a =? b then Exit
    else if a <? b then mk_range a b cf else mk_union a b cf.
Proof.
  unfold decode, affects_control_flow_shift, source_taint_bit_shift, source_index_bits,
    val1_shift, label_bits.
  rewrite !land_1, !land_label_mask, land_index_mask, land_offset_mask.
  rewrite !N.shiftr_div_pow2. reflexivity.
Qed.

Lemma mk_union_valid cf lo hi : lo + 1 < hi -> hi <= max_label ->
  mk_union hi lo cf = Ok (TUnion cf lo hi).
Proof.
  intros H1 H2. unfold mk_union, add32, two32, max_label in *.
  rewrite !N.mod_small by lia.
  destruct (N.eqb_spec hi lo); [lia|].
  destruct (N.eqb_spec hi (lo + 1)); [lia|].
  destruct (N.eqb_spec lo (hi + 1)); [lia|].
  destruct (N.ltb_spec hi lo); [lia|]. reflexivity.
Qed.

Lemma decode_encode t : valid_taint t -> decode (encode t) = Ok t.
Proof.
  destruct t as [cf i o|cf f l|cf lo hi]; intros V; simpl in V.
  - destruct V as [Hi Ho]. unfold max_source_index, max_source_offset in *.
    rewrite encode_source, decode_arith.
    rewrite !(N.mod_small i) by lia. rewrite !(N.mod_small o) by lia.
    cbv zeta.
    assert (Hb : b2n cf <= 1) by (destruct cf; cbn; lia).
    set (w := 9223372036854775808 + b2n cf * 4611686018427387904 + o * 256 + i).
    assert (E1 : (w / 9223372036854775808) mod 2 = 1).
    { rewrite (div_split _ 1 (b2n cf * 4611686018427387904 + o * 256 + i)) by (unfold w; lia). reflexivity. }
    assert (E2 : (w / 4611686018427387904) mod 2 = b2n cf).
    { rewrite (div_split _ (2 + b2n cf) (o * 256 + i)) by (unfold w; lia).
      apply (mod_split 2 1); lia. }
    assert (E3 : w mod 256 = i).
    { apply (mod_split 256 (36028797018963968 + b2n cf * 18014398509481984 + o)); unfold w; lia. }
    assert (E4 : (w / 256) mod 18014398509481984 = o).
    { rewrite (div_split _ (36028797018963968 + b2n cf * 18014398509481984 + o) i) by (unfold w; lia).
      apply (mod_split _ (2 + b2n cf)); lia. }
    rewrite E1, E2, E3, E4. cbn [N.eqb negb].
    destruct cf; reflexivity.
  - destruct V as [H1 H2]. rewrite encode_range by lia. rewrite decode_arith. cbv zeta.
    unfold max_label in *. rewrite !(N.mod_small f) by lia.
    assert (Hb : b2n cf <= 1) by (destruct cf; cbn; lia).
    set (w := b2n cf * 4611686018427387904 + f * 2147483648 + l).
    assert (E1 : (w / 9223372036854775808) mod 2 = 0).
    { rewrite (div_split _ 0 w) by (unfold w; lia). reflexivity. }
    assert (E2 : (w / 4611686018427387904) mod 2 = b2n cf).
    { rewrite (div_split _ (b2n cf) (f * 2147483648 + l)) by (unfold w; lia).
      apply N.mod_small. lia. }
    assert (E3 : (w / 2147483648) mod 2147483648 = f).
    { rewrite (div_split _ (b2n cf * 2147483648 + f) l) by (unfold w; lia).
      apply (mod_split _ (b2n cf)); lia. }
    assert (E4 : w mod 2147483648 = l).
    { apply (mod_split _ (b2n cf * 2147483648 + f)); unfold w; lia. }
    rewrite E1, E2, E3, E4. cbn [N.eqb negb].
    destruct (N.eqb_spec f l); [lia|].
    destruct (N.ltb_spec f l); [|lia].
    unfold mk_range. destruct (N.ltb_spec f l); [|lia]. destruct cf; reflexivity.
  - destruct V as [H1 H2]. rewrite encode_union. rewrite decode_arith. cbv zeta.
    unfold max_label in *. rewrite !(N.mod_small lo) by lia. rewrite !(N.mod_small hi) by lia.
    assert (Hb : b2n cf <= 1) by (destruct cf; cbn; lia).
    set (w := b2n cf * 4611686018427387904 + hi * 2147483648 + lo).
    assert (E1 : (w / 9223372036854775808) mod 2 = 0).
    { rewrite (div_split _ 0 w) by (unfold w; lia). reflexivity. }
    assert (E2 : (w / 4611686018427387904) mod 2 = b2n cf).
    { rewrite (div_split _ (b2n cf) (hi * 2147483648 + lo)) by (unfold w; lia).
      apply N.mod_small. lia. }
    assert (E3 : (w / 2147483648) mod 2147483648 = hi).
    { rewrite (div_split _ (b2n cf * 2147483648 + hi) lo) by (unfold w; lia).
      apply (mod_split _ (b2n cf)); lia. }
    assert (E4 : w mod 2147483648 = lo).
    { apply (mod_split _ (b2n cf * 2147483648 + hi)); unfold w; lia. }
    rewrite E1, E2, E3, E4. cbn [N.eqb negb].
    destruct (N.eqb_spec hi lo); [lia|].
    destruct (N.ltb_spec hi lo); [lia|].
    rewrite mk_union_valid by (unfold max_label; lia). destruct cf; reflexivity.
Qed.

Lemma encode_inj t1 t2 : valid_taint t1 -> valid_taint t2 -> encode t1 = encode t2 -> t1 = t2.
Proof.
  intros V1 V2 E. apply (f_equal decode) in E.
  rewrite !decode_encode in E by assumption. congruence.
Qed.

Lemma encode_bound t : valid_taint t -> encode t < two64.
Proof.
  unfold two64. destruct t as [cf i o|cf f l|cf lo hi]; intros V; simpl in V;
  unfold max_label, max_source_index, max_source_offset in *;
  assert (Hb : b2n cf <= 1) by (destruct cf; cbn; lia).
  - rewrite encode_source. lia.
  - rewrite encode_range by (unfold max_label; lia). lia.
  - rewrite encode_union. lia.
Qed.

(** The flag as bit 62. *)
Lemma check_cf_testbit w : check_affects_control_flow w = N.testbit w 62.
Proof.
  unfold check_affects_control_flow, affects_control_flow_shift.
  rewrite land_1.
  replace (N.testbit w 62) with (N.testbit (N.shiftr w 62) 0)
    by (rewrite N.shiftr_spec'; f_equal).
  pose proof (N.bit0_mod (N.shiftr w 62)) as H.
  destruct (N.testbit (N.shiftr w 62) 0); cbn [N.b2n] in H; rewrite <- H; reflexivity.
Qed.

Lemma add_cf_setbit w : add_affects_control_flow w = N.setbit w 62.
Proof. reflexivity. Qed.

Lemma is_source_testbit w : is_source_taint w = N.testbit w 63.
Proof.
  unfold is_source_taint, source_taint_bit_shift.
  rewrite land_1.
  replace (N.testbit w 63) with (N.testbit (N.shiftr w 63) 0)
    by (rewrite N.shiftr_spec'; f_equal).
  pose proof (N.bit0_mod (N.shiftr w 63)) as H.
  destruct (N.testbit (N.shiftr w 63) 0); cbn [N.b2n] in H; rewrite <- H; reflexivity.
Qed.

Definition cf_of (t : taint) : bool :=
  match t with TSource c _ _ => c | TRange c _ _ => c | TUnion c _ _ => c end.
Definition set_cf (t : taint) : taint :=
  match t with
  | TSource _ i o => TSource true i o
  | TRange _ f l => TRange true f l
  | TUnion _ a b => TUnion true a b
  end.
Definition is_src (t : taint) : bool :=
  match t with TSource _ _ _ => true | _ => false end.

Lemma set_cf_valid t : valid_taint t -> valid_taint (set_cf t).
Proof. destruct t; auto. Qed.
Lemma erase_cf_valid t : valid_taint t -> valid_taint (erase_cf t).
Proof. destruct t; auto. Qed.
Lemma erase_set t : erase_cf (set_cf t) = erase_cf t.
Proof. destruct t; auto. Qed.
Lemma set_cf_idem t : cf_of t = true -> set_cf t = t.
Proof. destruct t; simpl; congruence. Qed.

Lemma check_cf_encode t : valid_taint t -> check_affects_control_flow (encode t) = cf_of t.
Proof.
  intros V. pose proof (decode_encode t V) as D. rewrite decode_arith in D. cbv zeta in D.
  unfold check_affects_control_flow, affects_control_flow_shift.
  rewrite land_1, N.shiftr_div_pow2. change (2^62) with 4611686018427387904.
  set (c := negb ((encode t / 4611686018427387904) mod 2 =? 0)) in *.
  destruct (negb ((encode t / 9223372036854775808) mod 2 =? 0)).
  - inversion D. reflexivity.
  - destruct (_ =? _) in D; [discriminate|].
    destruct (_ <? _) in D.
    + unfold mk_range in D. destruct (_ <? _) in D; inversion D. reflexivity.
    + unfold mk_union in D.
      repeat (match type of D with (if ?c then _ else _) = _ => destruct c end; try discriminate);
      inversion D; reflexivity.
Qed.

Lemma is_source_encode t : valid_taint t -> is_source_taint (encode t) = is_src t.
Proof.
  intros V. pose proof (decode_encode t V) as D. rewrite decode_arith in D. cbv zeta in D.
  unfold is_source_taint, source_taint_bit_shift.
  rewrite land_1, N.shiftr_div_pow2. change (2^63) with 9223372036854775808.
  destruct (negb ((encode t / 9223372036854775808) mod 2 =? 0)).
  - inversion D. reflexivity.
  - destruct (_ =? _) in D; [discriminate|].
    destruct (_ <? _) in D.
    + unfold mk_range in D. destruct (_ <? _) in D; inversion D. reflexivity.
    + unfold mk_union in D.
      repeat (match type of D with (if ?c then _ else _) = _ => destruct c end; try discriminate);
      inversion D; reflexivity.
Qed.

(** Setting bit 62 of an encoded taint sets its flag. *)
Lemma encode_set_cf t : valid_taint t ->
  encode (set_cf t) = if cf_of t then encode t else encode t + 4611686018427387904.
Proof.
  destruct t as [cf i o|cf f l|cf lo hi]; intros V; simpl in V; cbn [set_cf cf_of];
    unfold max_label in *.
  - rewrite !encode_source. destruct cf; cbn [b2n]; lia.
  - rewrite !encode_range by (unfold max_label; lia). destruct cf; cbn [b2n]; lia.
  - rewrite !encode_union. destruct cf; cbn [b2n]; lia.
Qed.

Lemma add_cf_encode t : valid_taint t -> add_affects_control_flow (encode t) = encode (set_cf t).
Proof.
  intros V. rewrite encode_set_cf by assumption.
  pose proof (check_cf_encode t V) as C. rewrite check_cf_testbit in C.
  unfold add_affects_control_flow, affects_control_flow_shift.
  destruct (cf_of t).
  - change (N.lor (encode t) (N.shiftl 1 62)) with (N.setbit (encode t) 62).
    apply N.bits_inj_iff. intros n. rewrite N.setbit_eqb.
    destruct (N.eqb_spec 62 n); simpl; congruence.
  - change (N.shiftl 1 62) with 4611686018427387904 at 1.
    apply disjoint_lor_add. apply N.bits_inj_iff. intros n.
    rewrite N.land_spec, N.bits_0. change 4611686018427387904 with (2 ^ 62).
    rewrite N.pow2_bits_eqb. destruct (N.eqb_spec 62 n).
    + subst. now rewrite C.
    + apply andb_false_r.
Qed.

Lemma testbit_high w n : w < two64 -> 64 <= n -> N.testbit w n = false.
Proof.
  intros H Hn. destruct (N.eq_dec w 0) as [->|Hw]; [apply N.bits_0|].
  apply N.bits_above_log2. change two64 with (2^64) in H.
  apply N.log2_lt_pow2 in H; lia.
Qed.

Lemma mask_testbit n : n < 64 -> N.testbit mask_affects_control_flow n = negb (n =? 62).
Proof.
  intros H.
  assert (E : forallb (fun k => Bool.eqb (N.testbit mask_affects_control_flow k) (negb (k =? 62))) (nseq 0 64) = true)
    by (vm_compute; reflexivity).
  rewrite forallb_forall in E. specialize (E n).
  rewrite in_nseq in E. apply eqb_prop. apply E. lia.
Qed.

Lemma land_mask_spec w n : w < two64 ->
  N.testbit (N.land w mask_affects_control_flow) n = N.testbit w n && negb (n =? 62).
Proof.
  intros H. rewrite N.land_spec. destruct (N.ltb_spec n 64).
  - now rewrite mask_testbit.
  - rewrite testbit_high by assumption. reflexivity.
Qed.

Lemma land_mask_encode t : valid_taint t ->
  N.land (encode t) mask_affects_control_flow = encode (erase_cf t).
Proof.
  intros V. apply N.bits_inj_iff. intros n.
  rewrite land_mask_spec by now apply encode_bound.
  assert (S : encode (set_cf t) = encode (erase_cf t) + 2 ^ 62).
  { rewrite <- (erase_set t). 
    assert (V' := erase_cf_valid _ V).
    transitivity (encode (set_cf (erase_cf t))); [destruct t; reflexivity|].
    rewrite encode_set_cf by assumption.
    replace (cf_of (erase_cf t)) with false by (destruct t; reflexivity).
    rewrite erase_set. change (2^62) with 4611686018427387904. reflexivity. }
  assert (Vb : valid_taint (erase_cf t)) by now apply erase_cf_valid.
  assert (C0 : N.testbit (encode (erase_cf t)) 62 = false).
  { rewrite <- check_cf_testbit, check_cf_encode by assumption. now destruct t. }
  assert (D : N.land (encode (erase_cf t)) (2^62) = 0).
  { apply N.bits_inj_iff. intros k. rewrite N.land_spec, N.bits_0, N.pow2_bits_eqb.
    destruct (N.eqb_spec 62 k); [subst; now rewrite C0 | apply andb_false_r]. }
  destruct (cf_of t) eqn:Ecf.
  - rewrite <- (set_cf_idem t Ecf) at 1. rewrite S.
    rewrite <- disjoint_lor_add by assumption.
    rewrite N.lor_spec, N.pow2_bits_eqb.
    destruct (N.eqb_spec 62 n), (N.eqb_spec n 62); subst; try congruence; simpl.
    + now rewrite C0, andb_false_r.
    + now rewrite orb_false_r, andb_true_r.
  - assert (Et : encode t = encode (erase_cf t)).
    { f_equal. clear - Ecf. destruct t; cbn in *; congruence. }
    rewrite Et.
    destruct (N.eqb_spec n 62); simpl; [subst; now rewrite C0 | apply andb_true_r].
Qed.

Lemma equal_ignore_cf_encode t1 t2 : valid_taint t1 -> valid_taint t2 ->
  equal_ignore_cf (encode t1) (encode t2) = true <-> erase_cf t1 = erase_cf t2.
Proof.
  intros V1 V2. unfold equal_ignore_cf. rewrite !land_mask_encode by assumption.
  rewrite N.eqb_eq. split; intros H.
  - apply encode_inj; auto using erase_cf_valid.
  - now rewrite H.
Qed.

(** A label in use never has the all-zero word of label 0. *)
Lemma encode_nonzero_core t : valid_taint t -> (encode (erase_cf t)) <> 0.
Proof.
  destruct t as [cf i o|cf f l|cf lo hi]; intros V; simpl in V; cbn [erase_cf];
    unfold max_label in *.
  - rewrite encode_source. cbn [b2n]. lia.
  - rewrite encode_range by (unfold max_label; lia). cbn [b2n]. lia.
  - rewrite encode_union. cbn [b2n]. rewrite (N.mod_small hi) by lia. lia.
Qed.

Lemma equal_ignore_cf_zero t : valid_taint t -> equal_ignore_cf 0 (encode t) = false.
Proof.
  intros V. unfold equal_ignore_cf. rewrite land_mask_encode by assumption.
  rewrite N.land_0_l. pose proof (encode_nonzero_core t V).
  destruct (N.eqb_spec 0 (encode (erase_cf t))); congruence.
Qed.
