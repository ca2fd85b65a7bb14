(** C16, C17: function name table and function trace. *)
From Coq Require Import NArith List Bool Lia.
From Verif Require Import M_Base M_Memory M_Section M_StringTable M_Sources M_PySections M_Functions
  S_Section S_Strings S_Functions P_Base P_Memory P_Section P_PyBase P_Strings P_Functions.
Import ListNotations.
Open Scope N_scope.

(** Two fresh, disjoint sections: a string table and a function table. *)
Definition fresh_tables (m : mem) (bs es bf ef : N) : Prop :=
  bs <= es /\ es < 2 ^ 64 /\ es - bs < 2 ^ 32 /\
  bf <= ef /\ ef < 2 ^ 64 /\ ef - bf <= 65535 * 4 /\
  (es <= bf \/ ef <= bs) /\
  (forall a, bs <= a -> a < es -> m a = 0) /\ (forall a, bf <= a -> a < ef -> m a = 0).

(** C16: for every sequence of names, two calls that got an index got the same index iff
    they passed the same name, and the index leads back to the name through the bytes of
    the file; as long as no call is refused the index is the position of the name in the
    order of first appearance; no call is refused while both tables have room. *)
Theorem C16_function_indices : forall m bs es bf ef calls,
  fresh_tables m bs es bf ef -> Forall (fun x => len x <= 65535) calls ->
  exists answers m' st' fs',
    map_names m (sect_new bs es) (sect_new bf ef) [] calls = Ok (answers, m', st', fs') /\
    length answers = length calls /\
    (forall j k x y i i',
       get calls j = Some x -> get calls k = Some y ->
       get answers j = Some (Some i) -> get answers k = Some (Some i') -> (i = i' <-> x = y)) /\
    (forall k x i, get calls k = Some x -> get answers k = Some (Some i) ->
       exists offs o, py_functions (content m' fs') = Ok offs /\ get offs i = Some o /\
         from_offset m' st' o = x /\
         (forall text, Forall scalar text -> x = utf8 text -> py_read_string (content m' st') o = Ok text)) /\
    (Forall (fun a => a <> None) answers ->
       exists ds, distinct_names calls ds /\ NoDup ds /\
         forall k x i, get calls k = Some x -> get answers k = Some (Some i) -> get ds i = Some x) /\
    (names_size calls <= es - bs -> 4 * len calls <= ef - bf -> Forall (fun a => a <> None) answers).
Proof.
  intros m bs es bf ef calls (A1 & A2 & A3 & A4 & A5 & A6 & A7 & A8 & A9) K.
  assert (I : fn_inv m (sect_new bs es) (sect_new bf ef) [] [] [] []).
  { constructor.
    - apply holds_new; auto.
    - apply holds_new; auto.
    - constructor.
    - intros x i. rewrite get_nil. cbn. split; discriminate.
    - exact A7.
    - exact A3.
    - exact A6.
    - constructor. }
  destruct (map_names_spec calls m _ _ [] [] [] [] I (NoDup_nil _) K)
    as (ans & m' & st' & fs' & f' & names & acc & offs & E & J & D & _ & Ln & G & F & DN & NR).
  exists ans, m', st', fs'. split; [exact E|]. split; [exact Ln|].
  destruct J as [Hst Hfs Hn Hf Hd Hb1 Hb2 Hk]. split; [|split; [|split]].
  - intros j k x y i i' Cj Ck Aj Ak. pose proof (G _ _ _ Cj Aj) as Gx. pose proof (G _ _ _ Ck Ak) as Gy.
    split; [intros ->; congruence|]. intros ->.
    apply Hf in Gx. apply Hf in Gy. congruence.
  - intros k x i C A. pose proof (G _ _ _ C A) as Gx.
    destruct (named_get _ _ _ _ _ Hn Gx) as (a & b & Ea & Go).
    exists offs, (len (st_bytes a)). rewrite (holds_content _ _ _ Hfs), (holds_content _ _ _ Hst).
    split; [apply py_functions_spec; eapply named_small; eauto|]. split; [exact Go|].
    assert (Kx : str_ok x).
    { rewrite Forall_forall in K. apply K. unfold get in C. eapply nth_error_In; eauto. }
    split.
    + rewrite Ea in Hst. eapply from_offset_spec; eauto.
    + intros text T ->. rewrite Ea. now apply read_string_spec.
  - intros NN. exists names. split; [apply (DN NN []); constructor|]. split; [exact D|exact G].
  - intros R1 R2. apply NR; cbn [sbeg send sect_new]; auto.
Qed.

Example C16_case : fresh_tables mem_zero 4096 4196 8192 8212 /\
  exists r, map_names mem_zero (sect_new 4096 4196) (sect_new 8192 8212) []
    [[109]; [102; 111; 111]; [109]; [98]; [102; 111; 111]] = Ok r /\
    let '(answers, m', st', fs') := r in
    answers = [Some 0; Some 1; Some 0; Some 2; Some 1] /\
    py_functions (content m' fs') = Ok [0; 4; 10] /\
    py_read_string (content m' st') 4 = Ok [102; 111; 111].
Proof.
  split; [unfold fresh_tables; repeat split; try (vm_compute; congruence); lia|].
  apply ok_check. vm_compute. auto.
Qed.

(** C17: the events read back by the Python reader are the calls made, in order, with
    kinds and indices preserved, whatever value the padding bytes have. *)
Theorem C17_function_trace : forall m b e evs,
  b <= e -> e < 2 ^ 64 -> (forall a, b <= a -> a < e -> m a = 0) ->
  Forall (fun ev => snd ev < 2 ^ 16) evs -> 4 * len evs <= e - b ->
  exists m' s',
    log_events m (sect_new b e) evs = Ok (m', s') /\
    py_events (content m' s') =
      Ok (map (fun ev => (match snd (fst ev) with EvEntry => 0 | EvExit => 1 end, snd ev)) evs) /\
    (forall a, a < b \/ e <= a -> m' a = m a).
Proof.
  intros m b e evs Hb He Z K C.
  destruct (log_events_spec evs m (sect_new b e) []) as (m' & s' & E & H & _ & _ & F).
  - apply holds_new; auto.
  - cbn [sbeg send sect_new]. change (len []) with 0. lia.
  - exists m', s'. split; [exact E|]. split; [|exact F].
    rewrite (holds_content _ _ _ H). cbn [app]. rewrite py_events_spec by exact K. reflexivity.
Qed.

(** When the section is full the process ends; no event is dropped silently. *)
Theorem C17_full_section_exits : forall m s pad k fn,
  section_ok s -> send s < wit s + 4 -> log_fn_event pad m s k fn = Exit.
Proof.
  intros m s pad k fn K L. unfold log_fn_event, construct.
  change (len (event_bytes pad k fn)) with (len (ev_rec (pad, k, fn))). rewrite len_ev_rec.
  destruct (sect_write s 4) as [[p s']|] eqn:E; [|reflexivity].
  apply sect_write_some in E; [lia|assumption|reflexivity].
Qed.

Example C17_case : exists r,
  log_events mem_zero (sect_new 4096 4112) [(170, EvEntry, 0); (7, EvEntry, 513); (0, EvExit, 513); (255, EvExit, 0)] = Ok r /\
  let (m', s') := r in
  py_events (content m' s') = Ok [(0, 0); (0, 513); (1, 513); (1, 0)] /\
  log_fn_event 0 m' s' EvEntry 1 = Exit.
Proof. apply ok_check. vm_compute. auto. Qed.

Print Assumptions C16_function_indices.
Print Assumptions C17_function_trace.
Print Assumptions C17_full_section_exits.
