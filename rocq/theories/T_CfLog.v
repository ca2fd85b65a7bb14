(** C18, C19, C34: the control-flow log and its Python reader. *)
From Coq Require Import NArith List Bool Lia.
From Verif Require Import M_Base M_Memory M_Section M_Sources M_CfLog M_PySections M_Functions
  S_Section S_Strings S_CallStack P_Base P_Memory P_Section P_PyBase P_CfLog P_Strings P_Functions.
Import ListNotations.
Open Scope N_scope.

(** C19: every 32-bit value is encoded in one to five bytes, the Python decoder returns
    it together with exactly the bytes that follow, and no encoding is a prefix of
    another one. *)
Theorem C19_varint : forall v rest, v < 2 ^ 32 ->
  1 <= len (varint_encode v) <= 5 /\
  py_decode_varint (varint_encode v ++ rest) = (v, rest).
Proof.
  intros v rest H. rewrite varint_len by exact H. split; [apply number_size_bound|].
  now apply varint_decode.
Qed.

Theorem C19_prefix_free : forall v w r, v < 2 ^ 32 -> w < 2 ^ 32 ->
  varint_encode w = varint_encode v ++ r -> v = w /\ r = [].
Proof.
  intros v w r V W E. pose proof (varint_decode w [] W) as D. rewrite app_nil_r, E, varint_decode in D by exact V.
  inversion D; auto.
Qed.

Example C19_case : varint_encode 300 = [172; 2] /\ varint_encode 4294967295 = [255; 255; 255; 255; 15] /\
  py_decode_varint (varint_encode 4294967295 ++ [9; 200]) = (4294967295, [9; 200]).
Proof. vm_compute. auto. Qed.

(** C18: the bytes determine the logged events: no two different sequences of events
    with 32-bit ids and labels give the same log. *)
Theorem C18_log_is_lossless : forall b e m es m1 s1 es' m2 s2,
  b <= e -> e < 2 ^ 64 -> (forall a, b <= a -> a < e -> m a = 0) ->
  Forall cf_ok es -> Forall cf_ok es' -> log_size es <= e - b -> log_size es' <= e - b ->
  cf_log_all m (sect_new b e) es = Ok (m1, s1) -> cf_log_all m (sect_new b e) es' = Ok (m2, s2) ->
  content m1 s1 = content m2 s2 -> es = es'.
Proof.
  intros b e m es m1 s1 es' m2 s2 Hb He Z K K' L L' E E' C.
  assert (H0 : holds m (sect_new b e) (cf_bytes [])) by (apply holds_new; auto).
  destruct (cf_log_all_spec es m (sect_new b e) [] H0 K) as (x & y & E1 & H1 & _).
  { cbn [sbeg send sect_new]. change (len (cf_bytes [])) with 0. lia. }
  destruct (cf_log_all_spec es' m (sect_new b e) [] H0 K') as (x' & y' & E2 & H2 & _).
  { cbn [sbeg send sect_new]. change (len (cf_bytes [])) with 0. lia. }
  rewrite E in E1. rewrite E' in E2. inversion E1; inversion E2; subst.
  rewrite (holds_content _ _ _ H1), (holds_content _ _ _ H2) in C. now apply cf_bytes_inj.
Qed.

(** C18: for every properly nested sequence of logging calls that fits, the Python
    reader reports exactly that sequence, followed by leave events for the functions
    that were still active at the end. *)
Theorem C18_log_round_trip : forall b e m es,
  b <= e -> e < 2 ^ 64 -> (forall a, b <= a -> a < e -> m a = 0) ->
  Forall cf_ok es -> nested_in [] es -> log_size es <= e - b ->
  exists m' s' rs active,
    cf_log_all m (sect_new b e) es = Ok (m', s') /\
    py_cf_iter N.eqb Some (content m' s') = Ok (rs ++ leave_all active) /\
    map reported rs = map Some es /\
    (forall a, a < b \/ e <= a -> m' a = m a).
Proof.
  intros b e m es Hb He Z K Ne L.
  assert (H0 : holds m (sect_new b e) (cf_bytes [])) by (apply holds_new; auto).
  destruct (cf_log_all_spec es m (sect_new b e) [] H0 K) as (m' & s' & E1 & H1 & _ & _ & F).
  { cbn [sbeg send sect_new]. change (len (cf_bytes [])) with 0. lia. }
  destruct (nested_run [] es Ne) as (rs & st & R & M).
  exists m', s', rs, st. split; [exact E1|]. split; [|split; [exact M|exact F]].
  rewrite (holds_content _ _ _ H1). exact (run_reported N.eqb Some N.eqb_eq [] es rs st R K).
Qed.

Definition demo_log : list cf_event :=
  [CfEnter 1; CfEnter 300; CfTainted 4000000000 300; CfEnter 300; CfTainted 7 300; CfLeave 300; CfLeave 300; CfTainted 9 1].
Example C18_case : Forall cf_ok demo_log /\ nested_in [] demo_log /\ log_size demo_log = 29 /\
  exists r, cf_log_all mem_zero (sect_new 4096 4125) demo_log = Ok r /\
    let (m', s') := r in
    py_cf_iter N.eqb Some (content m' s') =
      Ok [PyEnter [1]; PyEnter [1; 300]; PyTainted [1; 300] 4000000000; PyEnter [1; 300; 300];
          PyTainted [1; 300; 300] 7; PyLeave [1; 300; 300]; PyLeave [1; 300]; PyTainted [1] 9; PyLeave [1]].
Proof.
  split; [repeat constructor|]. split; [repeat constructor|]. split; [vm_compute; reflexivity|].
  apply ok_check. vm_compute. reflexivity.
Qed.

(** When the log is full the process ends; no event is dropped silently, and the stack
    buffers are never overrun. *)
Theorem C18_no_silent_loss : forall m s e, section_ok s -> cf_ok e ->
  (wit s + event_size e <= send s /\ exists m' s', cf_log m s e = Ok (m', s')) \/
  (send s < wit s + event_size e /\ cf_log m s e = Exit).
Proof.
  intros m s e K Ke. pose proof (event_size_bound e) as B. unfold cf_log. rewrite cf_buffer_len by exact Ke.
  destruct (N.ltb_spec (cf_buffer_size e) (event_size e)); [lia|].
  assert (B2 : event_size e < two64) by (destruct e; cbn [cf_buffer_size] in B; unfold two64; lia).
  destruct (sect_write s (event_size e)) as [[p s']|] eqn:E.
  - apply sect_write_some in E; auto. left. split; [lia|eauto].
  - apply sect_write_none in E; auto.
Qed.

(** C34: whatever the program does (calls, returns, frames that vanish through
    exceptions or longjmp), every event is reported with exactly the functions active at
    that moment; [names] is the table given to function_id_mapping. *)
Theorem C34_call_stacks : forall names es rs active,
  run_stack (get names) [] es rs active -> Forall cf_ok es ->
  py_cf_iter bytes_eqb (get names) (concat (map cf_buffer es)) = Ok (rs ++ leave_all active).
Proof. intros names es rs st R K. exact (run_reported bytes_eqb (get names) bytes_eqb_spec [] es rs st R K). Qed.

(** The same without a name table: stacks of function ids. *)
Theorem C34_call_stacks_ids : forall es rs active,
  run_stack Some [] es rs active -> Forall cf_ok es ->
  py_cf_iter N.eqb Some (concat (map cf_buffer es)) = Ok (rs ++ leave_all active).
Proof. intros es rs st R K. exact (run_reported N.eqb Some N.eqb_eq [] es rs st R K). Qed.

(** Functions 1 and 2 vanish (recursion of 0 included); the next event is about 0. *)
Example C34_case : run_stack Some [] [CfEnter 0; CfEnter 1; CfEnter 2; CfTainted 5 2; CfTainted 6 0; CfLeave 0]
  [PyEnter [0]; PyEnter [0; 1]; PyEnter [0; 1; 2]; PyTainted [0; 1; 2] 5;
   PyLeave [0; 1; 2]; PyLeave [0; 1]; PyTainted [0] 6; PyLeave [0]] [].
Proof.
  apply (run_enter Some [] 0 0); [reflexivity|].
  apply (run_enter Some [0] 1 1); [reflexivity|].
  apply (run_enter Some [0; 1] 2 2); [reflexivity|].
  apply (run_tainted Some [0; 1] 2 2); [reflexivity|].
  apply (run_unwind Some [0; 1] 2 0); [reflexivity|congruence|cbn; auto|].
  apply (run_unwind Some [0] 1 0); [reflexivity|congruence|cbn; auto|].
  apply (run_tainted Some [] 0 0); [reflexivity|].
  apply (run_leave Some [] 0 0); [reflexivity|].
  constructor.
Qed.

(** A leave event of a function that is not active makes the reader raise. *)
Theorem C34_unmatched_leave_raises : forall es rs active f rest,
  run_stack Some [] es rs active -> Forall cf_ok es -> f < 2 ^ 32 -> ~ In f active ->
  py_cf_iter N.eqb Some (concat (map cf_buffer (es ++ CfLeave f :: rest))) = Exit.
Proof.
  intros es rs st f rest R K Kf Nf.
  exact (unmatched_leave N.eqb Some N.eqb_eq [] es rs st f f rest R K Kf eq_refl Nf).
Qed.
Example C34_unmatched_case : py_cf_iter N.eqb Some (concat (map cf_buffer [CfEnter 3; CfLeave 3; CfLeave 4])) = Exit.
Proof. vm_compute. reflexivity. Qed.

(** A tainted branch in a function that is not on the stack (its entry was not
    instrumented) is reported with an empty stack, and all active functions are
    reported as left although they are still running: their own later leave event then
    makes the reader raise. *)
Theorem C34_uninstrumented_frame_refuted :
  py_cf_iter N.eqb Some (concat (map cf_buffer [CfEnter 3; CfTainted 8 9])) =
    Ok [PyEnter [3]; PyLeave [3]; PyTainted [] 8] /\
  py_cf_iter N.eqb Some (concat (map cf_buffer [CfEnter 3; CfTainted 8 9; CfLeave 3])) = Exit.
Proof. vm_compute. auto. Qed.

Print Assumptions C18_log_is_lossless.
Print Assumptions C18_log_round_trip.
Print Assumptions C18_no_silent_loss.
Print Assumptions C19_varint.
Print Assumptions C19_prefix_free.
Print Assumptions C34_call_stacks.
Print Assumptions C34_call_stacks_ids.
Print Assumptions C34_unmatched_leave_raises.
Print Assumptions C34_uninstrumented_frame_refuted.
