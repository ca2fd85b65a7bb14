From Coq Require Import NArith List Bool Lia.
From Verif Require Import M_Base M_Encoding M_PyNode S_Encoding P_Base P_Encoding.
Open Scope N_scope.

Lemma Ok_inj {A} (a b : A) : Ok a = Ok b -> a = b.
Proof. now intros [= ->]. Qed.

(** The Python node that says the same as a taint. *)
Definition node_of (t : taint) : py_node :=
  match t with
  | TSource cf i o => PySource i o cf
  | TRange cf f l => PyRange f l cf
  | TUnion cf lo hi => PyUnion hi lo cf
  end.

Lemma py_decode_agrees label w t : label <> 0 -> decode w = Ok t ->
  py_decode_node label w = node_of t.
Proof.
  intros L D. unfold decode, py_decode_node in *. apply N.eqb_neq in L. rewrite L.
  unfold py_source_taint_bit_shift, py_affects_control_flow_bit_shift, py_source_index_mask,
    py_source_index_bits, py_source_offset_mask, py_val1_shift, py_label_bits, py_label_mask.
  unfold source_taint_bit_shift, affects_control_flow_shift, source_index_mask, max_source_index,
    source_index_bits, max_source_offset, val1_shift, label_bits, label_mask, max_label in D.
  destruct (negb (N.land (N.shiftr w 63) 1 =? 0)); [apply Ok_inj in D; subst t; reflexivity|].
  set (a := N.land (N.shiftr w 31) 2147483647) in *. set (b := N.land w 2147483647) in *.
  destruct (N.eqb_spec a b); [discriminate|]. unfold mk_range, mk_union in D.
  destruct (N.ltb_spec a b).
  - destruct (N.ltb_spec b a); [lia|]. apply Ok_inj in D. subst t. reflexivity.
  - destruct (N.ltb_spec b a); [|lia]. destruct (a =? b); [discriminate|].
    destruct (a =? add32 b 1); [discriminate|]. destruct (b =? add32 a 1); [discriminate|].
    destruct (N.ltb_spec a b); [lia|]. apply Ok_inj in D. subst t. reflexivity.
Qed.

(** Setting bit 62 and the fields. *)
Lemma land_shiftr_setbit w k m : N.testbit m (62 - k) = false -> k <= 62 ->
  N.land (N.shiftr (N.setbit w 62) k) m = N.land (N.shiftr w k) m.
Proof.
  intros T K. apply N.bits_inj. intros n. rewrite !N.land_spec, !N.shiftr_spec'.
  destruct (N.eqb_spec n (62 - k)) as [->|Hn].
  - rewrite T. now rewrite !andb_false_r.
  - rewrite N.setbit_neq by lia. reflexivity.
Qed.

Lemma land_shiftr_setbit_hi w k m : 62 < k ->
  N.land (N.shiftr (N.setbit w 62) k) m = N.land (N.shiftr w k) m.
Proof.
  intros K. apply N.bits_inj. intros n. rewrite !N.land_spec, !N.shiftr_spec'.
  rewrite N.setbit_neq by lia. reflexivity.
Qed.

Lemma land_setbit w m : N.testbit m 62 = false ->
  N.land (N.setbit w 62) m = N.land w m.
Proof.
  intros T. apply N.bits_inj. intros n. rewrite !N.land_spec.
  destruct (N.eqb_spec n 62) as [->|Hn].
  - rewrite T. now rewrite !andb_false_r.
  - now rewrite N.setbit_neq by lia.
Qed.

Definition res_map {A B} (f : A -> B) (r : Res A) : Res B :=
  match r with Ok a => Ok (f a) | Exit => Exit | UB => UB | Fuel => Fuel end.

Lemma decode_add_cf w : decode (add_affects_control_flow w) = res_map with_flag (decode w).
Proof.
  rewrite add_cf_setbit. unfold decode.
  rewrite (land_shiftr_setbit_hi w source_taint_bit_shift) by (unfold source_taint_bit_shift; lia).
  rewrite (land_setbit w source_index_mask) by reflexivity.
  rewrite (land_shiftr_setbit w source_index_bits) by (reflexivity || (unfold source_index_bits; lia)).
  rewrite (land_shiftr_setbit w val1_shift) by (reflexivity || (unfold val1_shift, label_bits; lia)).
  rewrite (land_setbit w label_mask) by reflexivity.
  assert (F : negb (N.land (N.shiftr (N.setbit w 62) affects_control_flow_shift) 1 =? 0) = true).
  { change (check_affects_control_flow (N.setbit w 62) = true).
    rewrite check_cf_testbit. apply N.setbit_eq. }
  rewrite F.
  destruct (negb (N.land (N.shiftr w source_taint_bit_shift) 1 =? 0)); [reflexivity|].
  set (a := N.land (N.shiftr w val1_shift) label_mask). set (b := N.land w label_mask).
  destruct (a =? b) eqn:E1; [reflexivity|]. unfold mk_range, mk_union.
  destruct (a <? b); [reflexivity|]. rewrite E1.
  destruct (a =? add32 b 1); [reflexivity|]. destruct (b =? add32 a 1); [reflexivity|].
  destruct (a <? b); reflexivity.
Qed.

Lemma add_cf_bits w n :
  N.testbit (add_affects_control_flow w) n = if n =? 62 then true else N.testbit w n.
Proof.
  rewrite add_cf_setbit. destruct (N.eqb_spec n 62) as [->|H].
  - apply N.setbit_eq.
  - now apply N.setbit_neq; auto.
Qed.

Lemma add_cf_idem w : add_affects_control_flow (add_affects_control_flow w) = add_affects_control_flow w.
Proof. apply N.bits_inj. intros n. rewrite !add_cf_bits. now destruct (n =? 62). Qed.

Lemma add_cf_bound w : w < two64 -> add_affects_control_flow w < two64.
Proof.
  intros H. destruct (N.eq_dec (add_affects_control_flow w) 0) as [E|E]; [rewrite E; reflexivity|].
  change two64 with (2 ^ 64). apply N.log2_lt_pow2; [lia|].
  apply N.nle_gt. intros L. 
  assert (T : N.testbit (add_affects_control_flow w) (N.log2 (add_affects_control_flow w)) = true)
    by (apply N.bit_log2; exact E).
  rewrite add_cf_bits in T. destruct (N.eqb_spec (N.log2 (add_affects_control_flow w)) 62); [lia|].
  rewrite testbit_high in T; auto. discriminate.
Qed.

Lemma equal_ignore_cf_bits w1 w2 : w1 < two64 -> w2 < two64 ->
  (equal_ignore_cf w1 w2 = true <-> forall n, n <> 62 -> N.testbit w1 n = N.testbit w2 n).
Proof.
  intros B1 B2. unfold equal_ignore_cf. rewrite N.eqb_eq. split.
  - intros E n Hn. apply N.bits_inj_iff in E. specialize (E n).
    rewrite !land_mask_spec in E by assumption. apply N.eqb_neq in Hn. rewrite Hn in E.
    cbn in E. now rewrite !andb_true_r in E.
  - intros H. apply N.bits_inj. intros n. rewrite !land_mask_spec by assumption.
    destruct (N.eqb_spec n 62) as [->|Hn]; [now rewrite !andb_false_r|]. now rewrite H.
Qed.
