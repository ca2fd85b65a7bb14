(** Lemmas about the basic Python readers. *)
From Coq Require Import Arith NArith ZArith List Bool Lia.
From Verif Require Import M_Base M_Memory M_Section M_Sources M_PySections S_Section S_Strings
  P_Base P_Memory P_Section.
Import ListNotations.
Open Scope N_scope.

Lemma slice_mid a x b i j : i = len a -> j = len a + len x -> py_slice (a ++ x ++ b) i j = x.
Proof.
  intros -> ->. unfold py_slice. replace (len a + len x - len a) with (len x) by lia.
  unfold len. rewrite !Nat2N.id. rewrite skipn_app, skipn_all, Nat.sub_diag. cbn [skipn app].
  rewrite firstn_app, Nat.sub_diag, firstn_all. cbn [firstn]. now rewrite app_nil_r.
Qed.

Lemma py_uint_mid k a v b i : i = len a -> v < two8 ^ N.of_nat k ->
  py_uint k (a ++ le_bytes k v ++ b) i = Ok v.
Proof.
  intros -> V. unfold py_uint. rewrite !len_app, len_le_bytes.
  destruct (N.ltb_spec (len a + (N.of_nat k + len b)) (len a + N.of_nat k)); [lia|].
  rewrite slice_mid by (rewrite ?len_le_bytes; reflexivity). now rewrite le_round.
Qed.

Lemma py_records_concat k rs : 1 <= k -> recs_ok k rs -> forall fuel,
  (length (concat rs) <= fuel)%nat -> py_records fuel k (concat rs) = Ok rs.
Proof.
  intros K R. induction R as [|r rs H R IH]; intros fuel F; [destruct fuel; reflexivity|].
  cbn [concat] in *. rewrite app_length in F.
  destruct r as [|x r]; [cbn in H; change (len []) with 0 in H; lia|].
  assert (Hl : length (x :: r) = N.to_nat k) by (unfold len in H; lia).
  destruct fuel as [|fuel]; [cbn in F; lia|].
  assert (L : (len ((x :: r) ++ concat rs) <? k) = false).
  { apply N.ltb_ge. rewrite len_app. lia. }
  change ((x :: r) ++ concat rs) with (x :: (r ++ concat rs)) in *.
  cbn [py_records]. rewrite L.
  change (x :: (r ++ concat rs)) with ((x :: r) ++ concat rs).
  rewrite <- Hl. rewrite skipn_app, skipn_all, Nat.sub_diag. cbn [skipn app].
  rewrite IH by (cbn [length] in F; lia). cbn [bind].
  change (x :: r ++ concat rs) with ((x :: r) ++ concat rs).
  rewrite firstn_app, Nat.sub_diag, firstn_all. cbn [firstn]. now rewrite app_nil_r.
Qed.

Lemma py_enumerate_concat k rs : 1 <= k -> recs_ok k rs -> py_enumerate k (concat rs) = Ok rs.
Proof. intros. apply py_records_concat; auto. Qed.

(** ** UTF-8 *)
Local Ltac Zify.zify_post_hook ::= Z.to_euclidean_division_equations.
Ltac nb := repeat match goal with
  | |- context [?a <? ?b] => first [replace (a <? b) with true by (symmetry; apply N.ltb_lt; lia)
                                   |replace (a <? b) with false by (symmetry; apply N.ltb_ge; lia)]
  | |- context [?a <=? ?b] => first [replace (a <=? b) with true by (symmetry; apply N.leb_le; lia)
                                   |replace (a <=? b) with false by (symmetry; apply N.leb_gt; lia)]
  end.
Lemma utf8_char_decode c r : scalar c -> utf8_decode (utf8_char c ++ r) = option_map (cons c) (utf8_decode r).
Proof.
  intros [C1 C2]. unfold utf8_char.
  destruct (N.ltb_spec c 128) as [H1|H1].
  { cbn [app utf8_decode]. nb. reflexivity. }
  destruct (N.ltb_spec c 2048) as [H2|H2].
  { cbn [app utf8_decode]. unfold cont. nb. cbn [andb]. do 2 f_equal. lia. }
  destruct (N.ltb_spec c 65536) as [H3|H3].
  { cbn [app utf8_decode]. unfold cont.
    replace ((224 + c / 4096 - 224) * 4096 + (128 + (c / 64) mod 64 - 128) * 64 + (128 + c mod 64 - 128)) with c by lia.
    nb. cbn [andb].
    replace ((55296 <=? c) && (c <=? 57343)) with false.
    - reflexivity.
    - symmetry. destruct (N.leb_spec 55296 c), (N.leb_spec c 57343); cbn; auto; lia. }
  cbn [app utf8_decode]. unfold cont.
  replace ((240 + c / 262144 - 240) * 262144 + (128 + (c / 4096) mod 64 - 128) * 4096 +
           (128 + (c / 64) mod 64 - 128) * 64 + (128 + c mod 64 - 128)) with c by lia.
  nb. cbn [andb]. reflexivity.
Qed.

Lemma utf8_round text : Forall scalar text -> utf8_decode (utf8 text) = Some text.
Proof.
  induction 1 as [|c text C _ IH]; [reflexivity|].
  unfold utf8 in *. cbn [map concat]. rewrite utf8_char_decode by assumption. now rewrite IH.
Qed.

Lemma utf8_bytes text : Forall scalar text -> is_bytes (utf8 text).
Proof.
  induction 1 as [|c text C _ IH]; [constructor|].
  unfold utf8 in *. cbn [map concat]. apply Forall_app. split; [|exact IH].
  destruct C as [C1 C2]. unfold utf8_char.
  destruct (N.ltb_spec c 128); [|destruct (N.ltb_spec c 2048); [|destruct (N.ltb_spec c 65536)]]; repeat constructor; lia.
Qed.
