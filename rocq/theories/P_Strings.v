From Coq Require Import Arith NArith List Bool Lia.
From Verif Require Import M_Base M_Memory M_Section M_StringTable M_Sources M_PySections S_Section S_Strings
  P_Base P_Memory P_Section P_PyBase.
Import ListNotations.
Open Scope N_scope.

(** The bytes one string occupies. *)
Definition st_entry (x : list N) : list N := le_bytes 2 (len x) ++ x ++ zeros (len x mod 2).
Definition st_bytes (acc : list (list N)) : list N := concat (map st_entry acc).

Lemma allocated_len_spec n : allocated_len n = 2 + n + n mod 2.
Proof.
  unfold allocated_len, st_align_of.
  assert (H : n mod 2 < 2) by (apply N.mod_lt; lia).
  assert (E : (n + 2) mod 2 = n mod 2).
  { replace (n + 2) with (n + 1 * 2) by lia. apply N.mod_add. lia. }
  rewrite E. destruct (N.eqb_spec (n mod 2) 0) as [Z|Z]; cbn [negb]; lia.
Qed.

Lemma len_entry x : len (st_entry x) = allocated_len (len x).
Proof. unfold st_entry. rewrite !len_app, len_le_bytes, len_zeros, allocated_len_spec. lia. Qed.

Lemma st_bytes_snoc acc x : st_bytes (acc ++ [x]) = st_bytes acc ++ st_entry x.
Proof. unfold st_bytes. rewrite map_app, concat_app. cbn. now rewrite app_nil_r. Qed.

Lemma allocated_even n : allocated_len n mod 2 = 0.
Proof.
  rewrite allocated_len_spec. pose proof (N.div_mod n 2 ltac:(lia)).
  replace (2 + n + n mod 2) with ((1 + n / 2 + n mod 2) * 2) by lia. apply N.mod_mul. lia.
Qed.

Lemma st_bytes_even acc : len (st_bytes acc) mod 2 = 0.
Proof.
  induction acc as [|x acc IH] using rev_ind; [reflexivity|].
  rewrite st_bytes_snoc, len_app, len_entry, N.add_mod, IH, allocated_even by lia. reflexivity.
Qed.

Definition str_ok (x : list N) : Prop := len x <= 65535.

Lemma add_string_spec m s acc x :
  holds m s (st_bytes acc) -> send s - sbeg s < two32 -> str_ok x ->
  (sbeg s + len (st_bytes acc) + allocated_len (len x) <= send s ->
   exists m' s', add_string m s x = Ok (Some (len (st_bytes acc)), m', s') /\
     holds m' s' (st_bytes (acc ++ [x])) /\ sbeg s' = sbeg s /\ send s' = send s /\ frame s m m') /\
  (send s < sbeg s + len (st_bytes acc) + allocated_len (len x) ->
   add_string m s x = Ok (None, m, s)).
Proof.
  intros H C X. unfold str_ok in X. unfold add_string.
  assert (M : st_max_string_len = 65535) by reflexivity. rewrite M.
  destruct (N.ltb_spec 65535 (len x)); [lia|].
  assert (B : allocated_len (len x) < two64).
  { rewrite allocated_len_spec. pose proof (N.mod_lt (len x) 2). unfold two64. lia. }
  pose proof H as (K & W & _). pose proof K as (K1 & K2 & K3). split.
  - intros Fit. destruct (sect_write s (allocated_len (len x))) as [[p s']|] eqn:E;
      [|apply sect_write_none in E; auto; lia].
    assert (LB : len (le_bytes 2 (len x) ++ x) <= allocated_len (len x)).
    { rewrite len_app, len_le_bytes, allocated_len_spec. lia. }
    destruct (holds_append m s _ _ p s' (le_bytes 2 (len x) ++ x) H B E LB) as (P & S1 & S2 & H' & F & _).
    unfold store_int. rewrite (N.mod_small (len x)) by (unfold two16; lia).
    assert (EX : forall a, store m p (le_bytes 2 (len x) ++ x) a = store (store m p (le_bytes 2 (len x))) (p + 2) x a).
    { intros a. rewrite <- store_app, len_le_bytes. reflexivity. }
    unfold sect_offset. rewrite S1, S2, P.
    destruct (N.ltb_spec (sbeg s + len (st_bytes acc)) (sbeg s)); [lia|].
    destruct (N.leb_spec (send s) (sbeg s + len (st_bytes acc))).
    { rewrite allocated_len_spec in Fit. lia. }
    cbn [orb bind]. replace (sbeg s + len (st_bytes acc) - sbeg s) with (len (st_bytes acc)) by lia.
    rewrite N.mod_small by (unfold two32 in *; lia).
    eexists _, s'. split; [reflexivity|]. rewrite <- P. split; [|split; [|split]]; auto.
    + rewrite st_bytes_snoc. unfold st_entry.
      rewrite <- app_assoc in H'.
      replace (allocated_len (len x) - len (le_bytes 2 (len x) ++ x)) with (len x mod 2) in H'
        by (rewrite len_app, len_le_bytes, allocated_len_spec; lia).
      eapply holds_ext; [exact EX|exact H'].
    + intros a A. rewrite <- EX. now apply F.
  - intros Full. destruct (sect_write s (allocated_len (len x))) as [[p s']|] eqn:E; [|reflexivity].
    exfalso. apply sect_write_some in E as (_ & _ & L & _); auto. lia.
Qed.

(** Reading. *)
Lemma from_offset_spec m s acc x acc' : holds m s (st_bytes (acc ++ x :: acc')) -> str_ok x ->
  from_offset m s (len (st_bytes acc)) = x.
Proof.
  intros H X. unfold st_bytes in H. rewrite map_app, concat_app in H. cbn [map concat] in H.
  fold (st_bytes acc) in H. fold (st_bytes acc') in H.
  unfold st_entry in H at 1. rewrite <- !app_assoc in H.
  unfold from_offset, st_deref, st_curr_len, load_int.
  pose proof (holds_read _ _ _ _ _ H) as L. rewrite len_le_bytes in L. rewrite L.
  rewrite le_round by (unfold str_ok in X; change (two8 ^ N.of_nat 2) with 65536; lia).
  rewrite app_assoc in H. pose proof (holds_read _ _ _ _ _ H) as L2.
  rewrite len_app, len_le_bytes in L2. rewrite <- N.add_assoc. exact L2.
Qed.

Lemma read_string_spec acc text acc' : Forall scalar text -> str_ok (utf8 text) ->
  py_read_string (st_bytes (acc ++ utf8 text :: acc')) (len (st_bytes acc)) = Ok text.
Proof.
  intros T X. unfold st_bytes. rewrite map_app, concat_app. cbn [map concat].
  fold (st_bytes acc). fold (st_bytes acc'). unfold st_entry at 1. rewrite <- !app_assoc.
  unfold py_read_string. rewrite py_uint_mid
    by (auto; unfold str_ok in X; change (two8 ^ N.of_nat 2) with 65536; lia).
  cbn [bind]. rewrite !len_app, len_le_bytes.
  destruct (N.ltb_spec (len (st_bytes acc) + (N.of_nat 2 + (len (utf8 text) + (len (zeros (len (utf8 text) mod 2)) + len (st_bytes acc')))))
    (len (st_bytes acc) + 2 + len (utf8 text))); [lia|].
  rewrite app_assoc.
  rewrite slice_mid by (rewrite len_app, len_le_bytes; lia). now rewrite utf8_round.
Qed.

Lemma st_iterate_spec m s acc' : forall acc fuel, Forall str_ok acc' ->
  holds m s (st_bytes (acc ++ acc')) -> (length acc' <= fuel)%nat ->
  st_iterate fuel m (sbeg s + len (st_bytes acc)) (sbeg s + len (st_bytes (acc ++ acc'))) = Ok acc'.
Proof.
  induction acc' as [|x acc' IH]; intros acc fuel K H F.
  - rewrite app_nil_r. destruct fuel; cbn [st_iterate]; now rewrite N.eqb_refl.
  - inversion K; subst. destruct fuel as [|fuel]; [cbn in F; lia|]. cbn [st_iterate].
    assert (L : len (st_bytes (acc ++ x :: acc')) = len (st_bytes acc) + allocated_len (len x) + len (st_bytes acc')).
    { unfold st_bytes. rewrite map_app, concat_app. cbn [map concat]. rewrite !len_app, len_entry. lia. }
    destruct (N.eqb_spec (sbeg s + len (st_bytes acc)) (sbeg s + len (st_bytes (acc ++ x :: acc')))) as [E|E].
    { exfalso. rewrite L, allocated_len_spec in E. lia. }
    assert (D := from_offset_spec m s acc x acc' H H2). unfold from_offset in D. rewrite D.
    assert (CL : st_curr_len m (sbeg s + len (st_bytes acc)) = len x).
    { unfold st_deref in D. rewrite <- D, len_load. reflexivity. }
    rewrite CL.
    replace (acc ++ x :: acc') with ((acc ++ [x]) ++ acc') in * by now rewrite <- app_assoc.
    replace (sbeg s + len (st_bytes acc) + allocated_len (len x)) with (sbeg s + len (st_bytes (acc ++ [x])))
      by (rewrite st_bytes_snoc, len_app, len_entry; lia).
    rewrite IH; auto. cbn in F. lia.
Qed.

(** Runs. *)
Lemma add_strings_spec : forall strs m s acc,
  holds m s (st_bytes acc) -> send s - sbeg s < two32 -> Forall str_ok strs ->
  exists answers m' s',
    add_strings m s strs = Ok (answers, m', s') /\ length answers = length strs /\
    holds m' s' (st_bytes (acc ++ accepted strs answers)) /\
    sbeg s' = sbeg s /\ send s' = send s /\ frame s m m' /\
    answers = expected_offsets (send s - sbeg s) (len (st_bytes acc)) strs /\
    (forall i x o, get strs i = Some x -> get answers i = Some (Some o) ->
       exists a b, acc ++ accepted strs answers = a ++ x :: b /\ o = len (st_bytes a) /\ len acc <= len a) /\
    (exists ends, map fst ends = somes answers /\ Forall (fun e => fst e < snd e) ends /\
        Forall (fun e => len (st_bytes acc) <= fst e) ends /\
        (forall i j e f, get ends i = Some e -> get ends j = Some f -> i < j -> snd e <= fst f)).
Proof.
  induction strs as [|x strs IH]; intros m s acc H C K.
  - exists [], m, s. cbn [add_strings accepted somes]. rewrite app_nil_r.
    split; [reflexivity|]. split; [reflexivity|]. split; [exact H|]. repeat (split; [reflexivity|]).
    split; [apply frame_refl|]. split; [reflexivity|]. split.
    + intros i y o G. rewrite get_nil in G. discriminate.
    + exists []. repeat split; try constructor. intros i j e f G. rewrite get_nil in G. discriminate.
  - inversion K; subst. destruct (add_string_spec m s acc x H C H2) as [Fit Full].
    destruct (N.leb_spec (sbeg s + len (st_bytes acc) + allocated_len (len x)) (send s)) as [L|L].
    + destruct (Fit L) as (m1 & s1 & E1 & Hd1 & B1 & B2 & F1).
      destruct (IH m1 s1 (acc ++ [x]) Hd1 ltac:(rewrite B1, B2; exact C) H3)
        as (ans & m2 & s2 & E2 & Len & Hd2 & B3 & B4 & F2 & Exp & Pos & (ends & M1 & M2 & M3 & M4)).
      exists (Some (len (st_bytes acc)) :: ans), m2, s2. cbn [add_strings]. rewrite E1. cbn [bind]. rewrite E2. cbn [bind].
      cbn [accepted somes]. rewrite <- app_assoc in Hd2. cbn [app] in Hd2.
      split; [reflexivity|]. split; [cbn; congruence|]. split; [exact Hd2|].
      split; [congruence|]. split; [congruence|].
      split; [intros a A; rewrite F2, F1; auto; rewrite B1, B2; auto|]. split.
      { cbn [expected_offsets]. cbv zeta. rewrite <- allocated_len_spec.
        destruct H as ((K1 & K2 & K3) & _).
        destruct (N.leb_spec (len (st_bytes acc) + allocated_len (len x)) (send s - sbeg s)); [|lia].
        rewrite Exp, B1, B2, st_bytes_snoc, len_app, len_entry. reflexivity. }
      split.
      * intros i y o Gi Go. destruct (N.eqb_spec i 0) as [->|Hi].
        -- cbn in Gi, Go. inversion Gi; inversion Go; subst. eexists acc, _. split; [reflexivity|]. split; [reflexivity|lia].
        -- rewrite get_cons_S in Gi by lia; rewrite get_cons_S in Go by lia. destruct (Pos _ _ _ Gi Go) as (a & b & P1 & P2 & P3).
           rewrite <- app_assoc in P1. cbn [app] in P1. exists a, b. rewrite len_app, len_cons in P3. repeat split; auto. lia.
      * assert (LB : len (st_bytes acc) + allocated_len (len x) = len (st_bytes (acc ++ [x]))).
        { rewrite st_bytes_snoc, len_app, len_entry. reflexivity. }
        exists ((len (st_bytes acc), len (st_bytes acc) + allocated_len (len x)) :: ends).
        split; [cbn; congruence|]. split; [constructor; auto; cbn; rewrite allocated_len_spec; lia|].
        split.
        { constructor; [cbn; lia|]. eapply Forall_impl; [|exact M3]. cbn. intros e He. lia. }
        intros i j e f Gi Gj Hij. rewrite get_cons_S in Gj by lia.
        destruct (N.eqb_spec i 0) as [->|Hi].
        -- cbn in Gi. inversion Gi; subst. cbn [snd]. rewrite LB.
           rewrite Forall_forall in M3. apply M3. unfold get in Gj. now apply nth_error_In in Gj.
        -- rewrite get_cons_S in Gi by lia. apply (M4 (i - 1) (j - 1)); auto. lia.
    + specialize (Full L). destruct (IH m s acc H C H3)
        as (ans & m2 & s2 & E2 & Len & Hd2 & B3 & B4 & F2 & Exp & Pos & (ends & M1 & M2 & M3 & M4)).
      exists (None :: ans), m2, s2. cbn [add_strings]. rewrite Full. cbn [bind]. rewrite E2. cbn [bind accepted somes].
      split; [reflexivity|]. split; [cbn; congruence|]. split; [exact Hd2|].
      split; [congruence|]. split; [congruence|]. split; [exact F2|]. split.
      { cbn [expected_offsets]. cbv zeta. rewrite <- allocated_len_spec.
        destruct H as ((K1 & K2 & K3) & _).
        destruct (N.leb_spec (len (st_bytes acc) + allocated_len (len x)) (send s - sbeg s)); [lia|].
        rewrite <- Exp. reflexivity. }
      split.
      * intros i y o Gi Go. destruct (N.eqb_spec i 0) as [->|Hi]; [cbn in Go; discriminate|].
        rewrite get_cons_S in Gi by lia; rewrite get_cons_S in Go by lia. eauto.
      * exists ends. auto.
Qed.
