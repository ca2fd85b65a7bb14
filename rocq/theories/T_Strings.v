(** C15: the string table. *)
From Coq Require Import NArith List Bool Lia.
From Verif Require Import M_Base M_Memory M_Section M_StringTable M_Sources M_PySections
  S_Section S_Strings P_Base P_Memory P_Section P_PyBase P_Strings P_Utf8.
Import ListNotations.
Open Scope N_scope.

(** C15: on a fresh table, after any sequence of additions of strings of at most 65535
    bytes: each string that fitted is returned unchanged for its offset by the C++
    accessor and (decoded) by the Python reader, iteration yields the added strings in
    order, offsets are even and distinct, and strings are refused exactly when they do
    not fit. *)
Theorem C15_string_table : forall b e m strs,
  b <= e -> e < 2 ^ 64 -> e - b < 2 ^ 32 -> (forall a, b <= a -> a < e -> m a = 0) ->
  Forall (fun x => len x <= 65535) strs ->
  exists answers m' s',
    add_strings m (sect_new b e) strs = Ok (answers, m', s') /\
    answers = expected_offsets (e - b) 0 strs /\
    (forall i x o, get strs i = Some x -> get answers i = Some (Some o) ->
       from_offset m' s' o = x /\ o mod 2 = 0 /\
       (forall text, Forall scalar text -> x = utf8 text ->
          py_read_string (content m' s') o = Ok text)) /\
    st_all (length strs) m' s' = Ok (accepted strs answers) /\
    NoDup (somes answers) /\
    (forall a, a < b \/ e <= a -> m' a = m a).
Proof.
  intros b e m strs Hb He Hs Z K.
  assert (H0 : holds m (sect_new b e) (st_bytes [])) by (apply holds_new; auto).
  destruct (add_strings_spec strs m (sect_new b e) [] H0 Hs K)
    as (ans & m' & s' & E & L & H & B1 & B2 & F & X & P & (ends & M1 & M2 & M3 & M4)).
  exists ans, m', s'. split; [exact E|]. split; [exact X|]. split; [|split; [|split]].
  - intros i x o Gx Go. destruct (P i x o Gx Go) as (a & b0 & Ea & Eo & _). cbn [app] in *.
    rewrite Ea in H. assert (Kx : str_ok x).
    { rewrite Forall_forall in K. apply K. unfold get in Gx. eapply nth_error_In; eauto. }
    split; [|split].
    + subst o. eapply from_offset_spec; eauto.
    + subst o. apply st_bytes_even.
    + intros text T ->. subst o. rewrite (holds_content _ _ _ H). now apply read_string_spec.
  - unfold st_all. cbn [app] in H. pose proof H as (_ & W & _). unfold sect_size. rewrite W.
    replace (sbeg s' + len (st_bytes (accepted strs ans)) - sbeg s') with (len (st_bytes (accepted strs ans))) by lia.
    assert (KA : Forall str_ok (accepted strs ans) /\ (length (accepted strs ans) <= length strs)%nat).
    { clear - K. revert ans. induction K as [|x strs Kx K IH]; intros ans; [destruct ans; split; [constructor|cbn; lia|constructor|cbn;lia]|].
      destruct ans as [|[o|] ans]; cbn [accepted length].
      - split; [constructor|lia].
      - destruct (IH ans). split; [constructor; auto|lia].
      - destruct (IH ans). split; [auto|lia]. }
    destruct KA as [KA KL].
    pose proof (st_iterate_spec m' s' (accepted strs ans) [] (length strs) KA H KL) as I.
    cbn [app] in I. unfold st_bytes in I at 1. cbn in I. rewrite N.add_0_r in I. exact I.
  - rewrite <- M1. apply NoDup_nth_error. intros i j Hi G.
    rewrite map_length in Hi.
    destruct (nth_error ends i) as [ei|] eqn:Ei; [|apply nth_error_None in Ei; lia].
    destruct (nth_error ends j) as [ej|] eqn:Ej.
    2:{ rewrite nth_error_map, Ei in G. rewrite nth_error_map, Ej in G. discriminate. }
    rewrite !nth_error_map, Ei, Ej in G. cbn in G. inversion G as [G1].
    rewrite Forall_forall in M2. pose proof (M2 _ (nth_error_In _ _ Ei)) as A.
    pose proof (M2 _ (nth_error_In _ _ Ej)) as A2.
    assert (Gi : get ends (N.of_nat i) = Some ei) by (unfold get; rewrite Nat2N.id; auto).
    assert (Gj : get ends (N.of_nat j) = Some ej) by (unfold get; rewrite Nat2N.id; auto).
    destruct (N.lt_trichotomy (N.of_nat i) (N.of_nat j)) as [Lt|[Eq|Lt]]; [|lia|].
    + pose proof (M4 _ _ _ _ Gi Gj Lt). lia.
    + pose proof (M4 _ _ _ _ Gj Gi Lt). lia.
  - exact F.
Qed.

(** "Blåhaj" (UTF-8), the empty string, a string too long for the rest of the table, one
    that still fits. *)
Definition demo_text : list N := [66; 108; 229; 104; 97; 106; 128512].
Definition demo_strings : list (list N) :=
  [utf8 demo_text; []; utf8 demo_text ++ utf8 demo_text; [1; 2; 3]].
Example C15_case : Forall scalar demo_text /\
  expected_offsets 32 0 demo_strings = [Some 0; Some 14; None; Some 16] /\
  exists r, add_strings mem_zero (sect_new 4096 4128) demo_strings = Ok r /\
    let '(answers, m', s') := r in
    answers = [Some 0; Some 14; None; Some 16] /\
    py_read_string (content m' s') 0 = Ok demo_text /\ from_offset m' s' 16 = [1; 2; 3] /\
    st_all 4 m' s' = Ok [utf8 demo_text; []; [1; 2; 3]].
Proof.
  split; [repeat constructor; unfold scalar; lia|]. split; [vm_compute; reflexivity|].
  apply ok_check. vm_compute. auto.
Qed.

(** Strings longer than 65535 bytes end the process instead of being truncated. *)
Theorem C15_too_long : forall m s x, 65535 < len x -> add_string m s x = Exit.
Proof.
  intros m s x H. unfold add_string. replace st_max_string_len with 65535 by reflexivity.
  now destruct (N.ltb_spec 65535 (len x)); [|lia].
Qed.

(** Names that are not valid UTF-8 are stored but make the Python reader raise. *)
Theorem C15_non_utf8_refuted : exists x,
  len x <= 65535 /\ is_bytes x /\
  exists r, add_strings mem_zero (sect_new 4096 8192) [x] = Ok r /\
    let '(answers, m', s') := r in
    answers = [Some 0] /\ from_offset m' s' 0 = x /\ py_read_string (content m' s') 0 = Exit.
Proof.
  exists [102; 255; 111]. split; [vm_compute; congruence|].
  split; [repeat constructor|]. apply ok_check. vm_compute. auto.
Qed.

(** The Python reader returns a stored string exactly if it is the UTF-8 encoding of a
    text, and then that text; every other string (surrogates, overlong forms, truncated
    sequences) makes it raise. *)
Theorem C15_reader_exact : forall b e m strs answers m' s' i x o,
  b <= e -> e < 2 ^ 64 -> e - b < 2 ^ 32 -> (forall a, b <= a -> a < e -> m a = 0) ->
  Forall (fun x => len x <= 65535) strs ->
  add_strings m (sect_new b e) strs = Ok (answers, m', s') ->
  get strs i = Some x -> get answers i = Some (Some o) ->
  (forall text, py_read_string (content m' s') o = Ok text <-> Forall scalar text /\ x = utf8 text) /\
  ((forall text, Forall scalar text -> x <> utf8 text) -> py_read_string (content m' s') o = Exit).
Proof.
  intros b e m strs ans m' s' i x o Hb He Hs Z K E Gx Go.
  assert (H0 : holds m (sect_new b e) (st_bytes [])) by (apply holds_new; auto).
  destruct (add_strings_spec strs m (sect_new b e) [] H0 Hs K)
    as (ans2 & m2 & s2 & E2 & L & H & B1 & B2 & F & X & P & _).
  assert (Q : (ans2, m2, s2) = (ans, m', s')) by congruence. injection Q as -> -> ->.
  destruct (P i x o Gx Go) as (a & b0 & Ea & Eo & _). cbn [app] in *. rewrite Ea in H.
  assert (Kx : str_ok x).
  { rewrite Forall_forall in K. apply K. unfold get in Gx. eapply nth_error_In; eauto. }
  assert (V : py_read_string (content m' s') o = match utf8_decode x with Some s => Ok s | None => Exit end).
  { subst o. rewrite (holds_content _ _ _ H). now apply read_string_any. }
  rewrite V. split.
  - intros text. rewrite <- utf8_decode_exact. destruct (utf8_decode x) as [y|]; split; congruence.
  - intros N. destruct (utf8_decode x) as [y|] eqn:D; [|reflexivity].
    apply utf8_decode_exact in D. destruct D as [S D]. now apply N in S.
Qed.

(** Surrogates and overlong forms. *)
Example C15_reader_case : exists r,
  add_strings mem_zero (sect_new 4096 8192) [[237; 160; 128]; [192; 128]; [237; 159; 191]] = Ok r /\
    let '(answers, m', s') := r in
    answers = [Some 0; Some 6; Some 10] /\ py_read_string (content m' s') 0 = Exit /\
    py_read_string (content m' s') 6 = Exit /\ py_read_string (content m' s') 10 = Ok [55295].
Proof. apply ok_check. vm_compute. auto. Qed.

Print Assumptions C15_string_table.
Print Assumptions C15_reader_exact.
Print Assumptions C15_too_long.
Print Assumptions C15_non_utf8_refuted.
