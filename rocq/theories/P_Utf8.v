(** What the reader of strings accepts is exactly UTF-8. *)
From Coq Require Import NArith List Bool Lia ZArith.
From Verif Require Import M_Base M_Memory M_Section M_StringTable M_PySections
  S_Strings P_Base P_Memory P_Section P_PyBase P_Strings.
Import ListNotations.
Open Scope N_scope.
Local Ltac Zify.zify_post_hook ::= Z.to_euclidean_division_equations.

Lemma opt_cons {A} (c : A) o text : option_map (cons c) o = Some text -> exists r, o = Some r /\ text = c :: r.
Proof. destruct o as [r|]; cbn; intros E; [|discriminate]. injection E as <-. eauto. Qed.

Lemma cont_spec b : cont b = true -> 128 <= b <= 191.
Proof. unfold cont. rewrite andb_true_iff, !N.leb_le. auto. Qed.

Lemma utf8_decode_sound : forall n l text, (length l <= n)%nat -> utf8_decode l = Some text ->
  Forall scalar text /\ l = utf8 text.
Proof.
  induction n as [|n IH]; intros l text L E.
  { destruct l; [|cbn in L; lia]. injection E as <-. split; [constructor|reflexivity]. }
  destruct l as [|b0 r0]; [injection E as <-; split; [constructor|reflexivity]|].
  assert (K : forall c u r, text = c :: r -> scalar c -> u = utf8_char c ->
    forall rest, b0 :: r0 = u ++ rest -> (length rest <= n)%nat -> utf8_decode rest = Some r ->
    Forall scalar text /\ b0 :: r0 = utf8 text).
  { intros c u r -> C -> rest Er Lr Dr. destruct (IH rest r Lr Dr) as [F ->]. split; [now constructor|].
    rewrite Er. reflexivity. }
  cbn [utf8_decode length] in E, L.
  destruct (N.ltb_spec b0 128) as [H|H].
  { apply opt_cons in E. destruct E as (r & E & T). apply (K b0 [b0] r T) with (rest := r0); try assumption.
    - unfold scalar. lia.
    - unfold utf8_char. nb. reflexivity.
    - reflexivity.
    - cbn in L. lia. }
  destruct (N.ltb_spec b0 194) as [H1|H1]; [discriminate|].
  destruct (N.ltb_spec b0 224) as [H2|H2].
  { destruct r0 as [|b1 r1]; [discriminate|]. destruct (cont b1) eqn:C1; [|discriminate]. apply cont_spec in C1.
    apply opt_cons in E. destruct E as (r & E & T). apply (K _ [b0; b1] r T) with (rest := r1).
    - unfold scalar. lia.
    - unfold utf8_char. nb. f_equal; [lia|f_equal; lia].
    - reflexivity.
    - cbn in L. lia.
    - exact E. }
  destruct (N.ltb_spec b0 240) as [H3|H3].
  { destruct r0 as [|b1 [|b2 r2]]; try discriminate.
    destruct (cont b1) eqn:C1; [|discriminate]. destruct (cont b2) eqn:C2; [|discriminate].
    apply cont_spec in C1. apply cont_spec in C2. cbn [andb] in E.
    remember ((b0 - 224) * 4096 + (b1 - 128) * 64 + (b2 - 128)) as c eqn:Ec.
    destruct (N.leb_spec 2048 c) as [G|G]; [|discriminate]. cbn [andb] in E.
    destruct ((55296 <=? c) && (c <=? 57343)) eqn:S; [discriminate|]. cbn [negb] in E.
    apply opt_cons in E. destruct E as (r & E & T). apply (K c [b0; b1; b2] r T) with (rest := r2).
    - unfold scalar. split; [lia|]. intros [S1 S2]. apply N.leb_le in S1. apply N.leb_le in S2. rewrite S1, S2 in S. discriminate.
    - assert (Cl : c < 65536) by lia. unfold utf8_char. nb. f_equal; [lia|f_equal; [lia|f_equal; lia]].
    - reflexivity.
    - cbn in L. lia.
    - exact E. }
  destruct (N.ltb_spec b0 245) as [H4|H4]; [|discriminate].
  destruct r0 as [|b1 [|b2 [|b3 r3]]]; try discriminate.
  destruct (cont b1) eqn:C1; [|discriminate]. destruct (cont b2) eqn:C2; [|discriminate]. destruct (cont b3) eqn:C3; [|discriminate].
  apply cont_spec in C1. apply cont_spec in C2. apply cont_spec in C3. cbn [andb] in E.
  remember ((b0 - 240) * 262144 + (b1 - 128) * 4096 + (b2 - 128) * 64 + (b3 - 128)) as c eqn:Ec.
  destruct (N.leb_spec 65536 c) as [G|G]; [|discriminate]. cbn [andb] in E.
  destruct (N.leb_spec c 1114111) as [G2|G2]; [|discriminate].
  apply opt_cons in E. destruct E as (r & E & T). apply (K c [b0; b1; b2; b3] r T) with (rest := r3).
  - unfold scalar. lia.
  - unfold utf8_char. nb. f_equal; [lia|f_equal; [lia|f_equal; [lia|f_equal; lia]]].
  - reflexivity.
  - cbn in L. lia.
  - exact E.
Qed.

Lemma utf8_decode_exact l text : utf8_decode l = Some text <-> Forall scalar text /\ l = utf8 text.
Proof.
  split; [apply (utf8_decode_sound (length l)); lia|]. intros [F ->]. now apply utf8_round.
Qed.

Lemma read_string_any acc x acc' : str_ok x ->
  py_read_string (st_bytes (acc ++ x :: acc')) (len (st_bytes acc)) =
  match utf8_decode x with Some s => Ok s | None => Exit end.
Proof.
  intros X. unfold st_bytes. rewrite map_app, concat_app. cbn [map concat].
  fold (st_bytes acc). fold (st_bytes acc'). unfold st_entry at 1. rewrite <- !app_assoc.
  unfold py_read_string. rewrite py_uint_mid
    by (auto; unfold str_ok in X; change (two8 ^ N.of_nat 2) with 65536; lia).
  cbn [bind]. rewrite !len_app, len_le_bytes.
  destruct (N.ltb_spec (len (st_bytes acc) + (N.of_nat 2 + (len x + (len (zeros (len x mod 2)) + len (st_bytes acc')))))
    (len (st_bytes acc) + 2 + len x)); [lia|].
  rewrite app_assoc.
  rewrite slice_mid by (rewrite len_app, len_le_bytes; lia). reflexivity.
Qed.
