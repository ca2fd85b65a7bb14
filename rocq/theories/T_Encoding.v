(** C01, C02, C03: the 64-bit taint words. *)
From Coq Require Import NArith List Bool.
From Verif Require Import M_Base M_Encoding M_PyNode S_Encoding S_Provenance P_Encoding P_PyNode.
Import ListNotations.
Open Scope N_scope.

(** C01. *)
Theorem C01_taint_word_round_trip : forall t,
  documented t -> encode t < 2 ^ 64 /\ decode (encode t) = Ok t.
Proof. exact (fun t H => conj (encode_bound t H) (decode_encode t H)). Qed.

Theorem C01_taint_word_injective : forall t1 t2,
  documented t1 -> documented t2 -> encode t1 = encode t2 -> t1 = t2.
Proof. exact encode_inj. Qed.

Example C01_case_source : documented (TSource true 255 (2 ^ 54 - 1)).
Proof. split; vm_compute; discriminate. Qed.
Example C01_case_range : documented (TRange false 1 (2 ^ 31 - 1)).
Proof. split; vm_compute; congruence. Qed.
Example C01_case_union : documented (TUnion true 7 9).
Proof. split; vm_compute; congruence. Qed.
(** Outside of the documented offsets the round trip is false: the offset wraps. *)
Example C01_offset_out_of_range :
  decode (encode (TSource false 3 (2 ^ 54 + 5))) = Ok (TSource false 3 5).
Proof. vm_compute. reflexivity. Qed.

(** C02: for every label other than 0 and every word (no bound on the word) the C++
    reader accepts, the Python reader reports the same node. *)
Theorem C02_readers_agree : forall label w t, label <> 0 -> decode w = Ok t ->
  py_decode_node label w =
  match t with
  | TSource cf index offset => PySource index offset cf
  | TRange cf first last => PyRange first last cf
  | TUnion cf lower higher => PyUnion higher lower cf
  end.
Proof. exact py_decode_agrees. Qed.

Theorem C02_readers_agree_on_written_words : forall label t, label <> 0 -> documented t ->
  py_decode_node label (encode t) =
  match t with
  | TSource cf index offset => PySource index offset cf
  | TRange cf first last => PyRange first last cf
  | TUnion cf lower higher => PyUnion higher lower cf
  end.
Proof. exact (fun label t L H => py_decode_agrees label _ t L (decode_encode t H)). Qed.

Example C02_case : decode (encode (TUnion true 3 9)) = Ok (TUnion true 3 9).
Proof. vm_compute. reflexivity. Qed.
(** A word the C++ reader rejects (it terminates the process) is accepted by the
    Python reader as a one-element range. *)
Example C02_rejected_word : decode 10737418245 = Exit /\ py_decode_node 1 10737418245 = PyRange 5 5 false.
Proof. vm_compute. auto. Qed.

(** C03: for every word. *)
Theorem C03_marking_touches_only_the_flag : forall w,
  (forall t, decode w = Ok t -> decode (add_affects_control_flow w) = Ok (with_flag t)) /\
  (forall n, n <> 62 -> N.testbit (add_affects_control_flow w) n = N.testbit w n) /\
  check_affects_control_flow (add_affects_control_flow w) = true /\
  is_source_taint (add_affects_control_flow w) = is_source_taint w /\
  add_affects_control_flow (add_affects_control_flow w) = add_affects_control_flow w /\
  (w < 2 ^ 64 -> add_affects_control_flow w < 2 ^ 64).
Proof.
  intros w. split; [|split; [|split; [|split; [|split]]]].
  - intros t H. rewrite decode_add_cf, H. reflexivity.
  - intros n H. rewrite add_cf_bits. apply N.eqb_neq in H. now rewrite H.
  - rewrite check_cf_testbit, add_cf_bits. reflexivity.
  - rewrite !is_source_testbit, add_cf_bits. reflexivity.
  - apply add_cf_idem.
  - apply add_cf_bound.
Qed.

Theorem C03_equality_ignoring_the_flag : forall w1 w2, w1 < 2 ^ 64 -> w2 < 2 ^ 64 ->
  (equal_ignore_cf w1 w2 = true <-> forall n, n <> 62 -> N.testbit w1 n = N.testbit w2 n).
Proof. exact equal_ignore_cf_bits. Qed.

Theorem C03_equality_ignoring_the_flag_on_taints : forall t1 t2, documented t1 -> documented t2 ->
  (equal_ignore_cf (encode t1) (encode t2) = true <-> with_flag t1 = with_flag t2).
Proof.
  intros t1 t2 D1 D2. rewrite (equal_ignore_cf_encode t1 t2 D1 D2).
  destruct t1, t2; cbn; split; intro H; congruence.
Qed.

Example C03_case : decode (encode (TRange false 4 8)) = Ok (TRange false 4 8) /\
  add_affects_control_flow (encode (TRange false 4 8)) <> encode (TRange false 4 8) /\
  equal_ignore_cf (encode (TRange false 4 8)) (encode (TRange true 4 8)) = true /\
  equal_ignore_cf (encode (TRange false 4 8)) (encode (TRange true 4 9)) = false.
Proof. vm_compute. repeat split. discriminate. Qed.

Print Assumptions C01_taint_word_round_trip.
Print Assumptions C01_taint_word_injective.
Print Assumptions C02_readers_agree.
Print Assumptions C02_readers_agree_on_written_words.
Print Assumptions C03_marking_touches_only_the_flag.
Print Assumptions C03_equality_ignoring_the_flag.
Print Assumptions C03_equality_ignoring_the_flag_on_taints.
