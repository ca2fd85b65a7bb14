(** C39-C43, C50: the libc wrappers, instrumentation callbacks and start-up of the
    runtime.  [api_run base h r s] (S_Api) says that [r] is the state after any history
    [h]; [tainted], [stands_for] are in S_Runtime. *)
From Coq Require Import NArith ZArith List Bool Lia.
From Verif Require Import M_Base M_Memory M_Encoding M_Labels M_Section M_Sources M_CfLog M_OutputFile
  M_PySections M_PyAnalysis M_Api M_Runtime S_Section S_Provenance S_Labels S_Strings S_Functions S_CallStack S_OutputFile S_Dfsan S_Api S_History S_Runtime
  P_Base P_ApiMem P_Api P_ApiRun P_ApiDemo P_Runtime P_Argv.
Import ListNotations.
Open Scope N_scope.

(** ** C39: before initialisation *)
Lemma early p k p' : p_flag p = false -> p_argv p = false -> called p k p' -> p' = p.
Proof.
  intros F A C. destruct C; unfold cb_func_entry, cb_func_exit, cb_union, cb_dfsw_cond_branch, cb_tainted_cf, cb_enter, cb_leave, taint_argv in *;
    rewrite ?F, ?A in *; cbn [negb] in *; congruence.
Qed.

(** Any sequence of callbacks that returns leaves the process as it was; and every
    callback does return. *)
Theorem C39_no_recording : forall ks p, all_called proc_start ks p -> p = proc_start.
Proof.
  intros ks p H. remember proc_start as q eqn:E. assert (Hf : p_flag q = false /\ p_argv q = false) by (rewrite E; auto). clear E.
  induction H as [q|q k p1 ks p2 C H IH]; [reflexivity|]. assert (p1 = q) by (apply (early q k p1); tauto || assumption). subst p1. now apply IH.
Qed.

Theorem C39_callbacks_return : forall k, exists p', called proc_start k p'.
Proof.
  intros k. exists proc_start.
  destruct k; [apply (k_entry _ 0 _ 0)|apply (k_exit _ 0)|apply (k_union _ _ _ 0)|apply (k_branch _ 0 0)|eapply k_tainted|apply k_enter|apply k_leave|apply (k_argv _ 0)];
    reflexivity.
Qed.

(** But the branch condition handed to the control-flow callback is not handed back: every
    condition becomes 0. *)
Theorem C39_condition_refuted : forall v f l old, cb_tainted_cf proc_start v f l old = Ok (0, old, proc_start).
Proof. reflexivity. Qed.

(** The libc wrappers are not guarded: before initialisation they use storage that holds no
    object. *)
Theorem C39_wrappers_refuted :
  (forall path fd size, (0 <= fd)%Z -> w_open proc_start path fd size = UB) /\
  (forall fd buff pos ret, (pos < 2 ^ 54 -> 0 < ret -> w_read proc_start fd buff pos ret = UB)%Z) /\
  (forall pad fd buff pos ret, (pos < 2 ^ 54 -> 0 < ret -> w_write pad proc_start fd buff pos ret = UB)%Z).
Proof.
  split; [|split].
  - intros path fd size H. unfold w_open. destruct (Z.leb_spec 0 fd); [reflexivity|lia].
  - intros fd buff pos ret H1 H2. unfold w_read. rewrite (proj2 (from_off_t_ok pos (offset_of pos))) by (split; [reflexivity|lia]).
    unfold taint_source_buffer, from_returned_size. destruct (Z.ltb_spec 0 ret); [reflexivity|lia].
  - intros pad fd buff pos ret H1 H2. unfold w_write. rewrite (proj2 (from_off_t_ok pos (offset_of pos))) by (split; [reflexivity|lia]).
    unfold impl_taint_sink, from_returned_size. destruct (Z.ltb_spec 0 ret); [reflexivity|lia].
Qed.

(** ** C50: after the end *)
(** polytracker_end leaves the initialised flag set, so every callback that records
    anything, and a second polytracker_end, uses the destroyed object. *)
Theorem C50_after_end_refuted : forall p r fo fe, p_flag p = true -> p_tdag p = Live r ->
  exists p', polytracker_end p fo fe = Ok p' /\ p_flag p' = true /\
    (forall k, match k with
               | KBranch _ l => 0 < l
               | KTainted _ _ l _ => 0 < l
               | KArgv _ argv => p_argv p = true /\ argv <> []
               | _ => True
               end -> undefined p' k) /\
    forall fo' fe', polytracker_end p' fo' fe' = UB.
Proof.
  intros p r fo fe F T. unfold polytracker_end at 1. unfold get_tdag. rewrite T. cbn [bind]. eexists. split; [reflexivity|].
  split; [exact F|]. split; [|reflexivity].
  intros k H. destruct k; cbn [undefined]; intros;
    unfold cb_func_entry, cb_func_exit, cb_union, cb_dfsw_cond_branch, cb_cond_branch, cb_tainted_cf, cb_enter, cb_leave, taint_argv; cbn [p_flag p_argv]; rewrite ?F;
    cbn [negb get_tdag p_tdag bind]; try reflexivity.
  - apply N.ltb_lt in H. rewrite H. reflexivity.
  - apply N.ltb_lt in H. rewrite H. reflexivity.
  - destruct H as (H1 & H2). rewrite H1. destruct argv; [congruence|reflexivity].
Qed.

Definition started (x : Res proc) : bool :=
  match x with Ok (mkProc true _ (Live _)) => true | _ => false end.
Example C50_case : exists p r, cb_start proc_start (mkEnv (Some [49]) None None None) 8192 1 2 0 None None None = Ok p /\
  p_flag p = true /\ p_tdag p = Live r.
Proof.
  assert (T : started (cb_start proc_start (mkEnv (Some [49]) None None None) 8192 1 2 0 None None None) = true) by (vm_compute; reflexivity).
  destruct (cb_start _ _ _ _ _ _ _ _ _) as [[[|] a [|r|]]| | |]; try discriminate T. exists (mkProc true a (Live r)), r. auto.
Qed.

(** ** C42: lengths and offsets *)
Theorem C42_returned_size : forall ret n, from_returned_size ret = Some n <-> (0 < ret)%Z /\ Z.of_N n = ret.
Proof.
  intros ret n. unfold from_returned_size. destruct (Z.ltb_spec 0 ret); split; intros Q; try discriminate; try lia.
  - inversion Q. lia.
  - destruct Q as [_ <-]. now rewrite N2Z.id.
Qed.

Theorem C42_size_count : forall size n, size < 2 ^ 64 -> n < 2 ^ 64 ->
  (from_returned_size_count size n = Exit <-> 2 ^ 64 <= size * n) /\
  (from_returned_size_count size n = Ok None <-> size * n = 0) /\
  (forall k, from_returned_size_count size n = Ok (Some k) <-> k = size * n /\ 0 < k < 2 ^ 64).
Proof.
  intros size n H1 H2. rewrite (size_count_ok size n H1 H2). change (2 ^ 64) with two64.
  destruct (N.leb_spec two64 (size * n)) as [L|L].
  - split; [tauto|]. split; [split; [discriminate|intros E; rewrite E in L; unfold two64 in L; lia]|].
    intros k. split; [discriminate|]. intros [-> Hk]. lia.
  - split; [split; [discriminate|lia]|]. destruct (N.eqb_spec (size * n) 0) as [Z|Z].
    + split; [tauto|]. intros k. split; [discriminate|lia].
    + split; [split; [discriminate|contradiction]|]. intros k. split; [intros Q; inversion Q; lia|intros [-> _]; reflexivity].
Qed.

Theorem C42_offset : forall pos,
  (from_off_t pos = Ok None <-> (pos < 0)%Z) /\
  (from_off_t pos = Exit <-> (2 ^ 54 <= pos)%Z) /\
  (forall o, from_off_t pos = Ok (Some o) <-> (0 <= pos < 2 ^ 54)%Z /\ Z.of_N o = pos).
Proof.
  intros pos. unfold from_off_t. change (Z.of_N max_source_offset) with (2 ^ 54 - 1)%Z.
  destruct (Z.ltb_spec pos 0); [|destruct (Z.ltb_spec (2 ^ 54 - 1) pos)].
  - split; [tauto|]. split; [split; [discriminate|lia]|]. intros o. split; [discriminate|lia].
  - split; [split; [discriminate|lia]|]. split; [split; [lia|reflexivity]|]. intros o. split; [discriminate|lia].
  - split; [split; [discriminate|lia]|]. split; [split; [discriminate|lia]|]. intros o. split; intros Q; [inversion Q; lia|].
    destruct Q as [_ <-]. now rewrite N2Z.id.
Qed.

Theorem C42_returned_string : forall app p,
  (forall fuel, from_returned_string fuel app None = Ok None) /\
  (forall fuel k, from_returned_string fuel app (Some p) = Ok (Some k) <-> c_string app p k /\ (N.to_nat k < fuel)%nat).
Proof.
  intros app p. split; [reflexivity|]. intros fuel k. rewrite <- (c_strlen_ok app fuel p k). cbn [from_returned_string].
  destruct (c_strlen fuel app p); cbn [bind]; split; congruence.
Qed.

(** A string of no characters gives a valid length, although no bytes stand behind it. *)
Theorem C42_empty_string_refuted : exists app p, c_string app p 0 /\ from_returned_string 1 app (Some p) = Ok (Some 0).
Proof. exists (fun _ => 0), 1000. split; [split; [reflexivity|intros i Hi; lia]|reflexivity]. Qed.

Example C42_case : from_returned_size_count (2 ^ 32) (2 ^ 32) = Exit /\ from_returned_size_count 3 5 = Ok (Some 15).
Proof. split; reflexivity. Qed.

(** ** C40: reads *)
(** A read (recv, recvfrom) that returned [ret], the descriptor having been at position
    [pos] before; [pos] is negative for streams, then bytes are counted per source. *)
Theorem C40_read : forall base h r s p fd buff pos ret,
  mapped base shipped -> api_run base h r s -> p_tdag p = Live r ->
  fd_ok s fd -> (pos < 2 ^ 54)%Z -> transfer_ok s (a_rd s) fd (offset_of pos) (Z.to_N ret) -> room r (Z.to_N ret) ->
  exists p', w_read p fd buff pos ret = Ok (ret, 0, p') /\
    (forall i, (0 < ret)%Z -> most_recent (registered h) fd i ->
       exists r', p' = set_rt p r' /\ tainted r r' buff (Z.to_N ret) i (position (a_rd s) i (offset_of pos))) /\
    ((ret <= 0)%Z \/ untracked h fd -> p' = p).
Proof.
  intros base h r s p fd buff pos ret M R Lv F Hp T Rm. unfold w_read.
  rewrite (proj2 (from_off_t_ok pos (offset_of pos))) by (split; [reflexivity|lia]). cbn [bind].
  unfold from_returned_size. destruct (Z.ltb_spec 0 ret) as [P|P]; cbn [taint_source_buffer].
  - unfold get_tdag. rewrite Lv. cbn [bind].
    destruct (read_call base h r s fd buff (offset_of pos) (Z.to_N ret) M R F T Rm) as (x & r' & E & Q1 & Q2).
    rewrite E. cbn [bind snd]. eexists. split; [reflexivity|]. split.
    + intros i _ Mi. exists r'. split; [reflexivity|]. now apply Q1.
    + intros [Z|U]; [lia|]. rewrite (Q2 U). now apply set_rt_same.
  - cbn [bind]. eexists. split; [reflexivity|]. split; [intros; lia|reflexivity].
Qed.

(** pread reads at the given offset. *)
Theorem C40_pread : forall base h r s p fd buff offset ret,
  mapped base shipped -> api_run base h r s -> p_tdag p = Live r ->
  fd_ok s fd -> (0 <= offset < 2 ^ 54)%Z -> transfer_ok s (a_rd s) fd (Some (Z.to_N offset)) (Z.to_N ret) -> room r (Z.to_N ret) ->
  exists p', w_pread p fd buff offset ret = Ok (ret, 0, p') /\
    (forall i, (0 < ret)%Z -> most_recent (registered h) fd i ->
       exists r', p' = set_rt p r' /\ tainted r r' buff (Z.to_N ret) i (Z.to_N offset)) /\
    ((ret <= 0)%Z \/ untracked h fd -> p' = p).
Proof.
  intros base h r s p fd buff offset ret M R Lv F Hp T Rm.
  assert (O : offset_of offset = Some (Z.to_N offset)) by (unfold offset_of; destruct (Z.leb_spec 0 offset); [reflexivity|lia]).
  rewrite <- O in T. destruct (C40_read base h r s p fd buff offset ret M R Lv F ltac:(lia) T Rm) as (p' & E & Q). exists p'.
  rewrite O in Q. exact (conj E Q).
Qed.

(** fread and fread_unlocked of [ret] complete items. *)
Theorem C40_fread : forall base h r s p fd buff size pos ret,
  mapped base shipped -> api_run base h r s -> p_tdag p = Live r -> size < 2 ^ 64 -> ret < 2 ^ 64 -> size * ret < 2 ^ 64 ->
  fd_ok s fd -> (pos < 2 ^ 54)%Z -> transfer_ok s (a_rd s) fd (offset_of pos) (size * ret) -> room r (size * ret) ->
  exists p', w_fread p fd buff size pos ret = Ok (ret, 0, p') /\
    (forall i, 0 < size * ret -> most_recent (registered h) fd i ->
       exists r', p' = set_rt p r' /\ tainted r r' buff (size * ret) i (position (a_rd s) i (offset_of pos))) /\
    (size * ret = 0 \/ untracked h fd -> p' = p).
Proof.
  intros base h r s p fd buff size pos ret M R Lv S1 S2 S3 F Hp T Rm. unfold w_fread.
  rewrite (proj2 (from_off_t_ok pos (offset_of pos))) by (split; [reflexivity|lia]). cbn [bind].
  rewrite (size_count_ok size ret S1 S2). destruct (N.leb_spec two64 (size * ret)) as [L|L]; [change (2 ^ 64) with two64 in S3; lia|]. cbn [bind].
  destruct (N.eqb_spec (size * ret) 0) as [Z|Z]; cbn [taint_source_buffer].
  - cbn [bind]. eexists. split; [reflexivity|]. split; [intros; lia|reflexivity].
  - unfold get_tdag. rewrite Lv. cbn [bind].
    destruct (read_call base h r s fd buff (offset_of pos) (size * ret) M R F T Rm) as (x & r' & E & Q1 & Q2).
    rewrite E. cbn [bind snd]. eexists. split; [reflexivity|]. split.
    + intros i _ Mi. exists r'. split; [reflexivity|]. now apply Q1.
    + intros [Z'|U]; [lia|]. rewrite (Q2 U). now apply set_rt_same.
Qed.

(** getc and its relatives return a label for the character that was read. *)
Theorem C40_getc : forall base h r s p fd pos c,
  mapped base shipped -> api_run base h r s -> p_tdag p = Live r ->
  fd_ok s fd -> (pos < 2 ^ 54)%Z -> transfer_ok s (a_rd s) fd (offset_of pos) 1 -> room r 1 ->
  exists l p', w_getc p fd pos c = Ok (c, l, p') /\
    (forall i, c <> (-1)%Z -> most_recent (registered h) fd i ->
       exists r', p' = set_rt p r' /\ r_shadow r' = r_shadow r /\ stands_for r' l (i, position (a_rd s) i (offset_of pos))) /\
    (c = (-1)%Z \/ untracked h fd -> l = 0 /\ p' = p).
Proof.
  intros base h r s p fd pos c M R Lv F Hp T Rm. unfold w_getc.
  rewrite (proj2 (from_off_t_ok pos (offset_of pos))) by (split; [reflexivity|lia]). cbn [bind].
  destruct (Z.eqb_spec c (-1)) as [E|E].
  - exists 0, p. split; [reflexivity|]. split; [intros; contradiction|auto].
  - unfold get_tdag. rewrite Lv. cbn [bind].
    destruct (range_call base h r s fd (offset_of pos) 1 M R F T Rm ltac:(lia)) as (x & r' & Ex & Sh & Q1 & Q2).
    rewrite Ex. cbn [bind fst snd]. do 2 eexists. split; [reflexivity|]. split.
    + intros i _ Mi. destruct (Q1 i Mi) as (f & la & -> & _ & St). exists r'. split; [reflexivity|]. split; [exact Sh|].
      specialize (St 0 ltac:(lia)). now rewrite !N.add_0_r in St.
    + intros [Z|U]; [contradiction|]. destruct (Q2 U) as (-> & ->). split; [reflexivity|]. now apply set_rt_same.
Qed.

(** fgets and gets: the characters of the string that is in memory afterwards; the label of
    the returned pointer is that of the argument. *)
Theorem C40_fgets : forall base h r s p fuel app fd str n pos lab,
  mapped base shipped -> api_run base h r s -> p_tdag p = Live r -> c_string app str n -> (N.to_nat n < fuel)%nat ->
  fd_ok s fd -> (pos < 2 ^ 54)%Z -> transfer_ok s (a_rd s) fd (offset_of pos) n -> room r n ->
  w_fgets fuel app p fd str pos false lab = Ok (false, 0, p) /\
  exists p', w_fgets fuel app p fd str pos true lab = Ok (true, lab, p') /\
    (forall i, most_recent (registered h) fd i ->
       exists r', p' = set_rt p r' /\ tainted r r' str n i (position (a_rd s) i (offset_of pos))) /\
    (untracked h fd -> p' = p).
Proof.
  intros base h r s p fuel app fd str n pos lab M R Lv Cs Fu F Hp T Rm. unfold w_fgets.
  rewrite (proj2 (from_off_t_ok pos (offset_of pos))) by (split; [reflexivity|lia]). cbn [bind from_returned_string taint_source_buffer].
  split; [reflexivity|]. rewrite (proj2 (c_strlen_ok app fuel str n) (conj Cs Fu)). cbn [bind taint_source_buffer].
  unfold get_tdag. rewrite Lv. cbn [bind].
  destruct (read_call base h r s fd str (offset_of pos) n M R F T Rm) as (x & r' & E & Q1 & Q2).
  rewrite E. cbn [bind snd]. eexists. split; [reflexivity|]. split.
  - intros i Mi. exists r'. split; [reflexivity|]. now apply Q1.
  - intros U. rewrite (Q2 U). now apply set_rt_same.
Qed.

(** getdelim (getline): [line] is the buffer after the call. *)
Theorem C40_getdelim : forall base h r s p fd line pos ret,
  mapped base shipped -> api_run base h r s -> p_tdag p = Live r ->
  fd_ok s fd -> (pos < 2 ^ 54)%Z -> transfer_ok s (a_rd s) fd (offset_of pos) (Z.to_N ret) -> room r (Z.to_N ret) ->
  exists p', w_getdelim p fd line pos ret = Ok (ret, 0, p') /\
    (forall i, (0 < ret)%Z -> most_recent (registered h) fd i ->
       exists r', p' = set_rt p r' /\ tainted r r' line (Z.to_N ret) i (position (a_rd s) i (offset_of pos))) /\
    ((ret <= 0)%Z \/ untracked h fd -> p' = p).
Proof. exact C40_read. Qed.

(** mmap labels all [n] bytes of the mapping, and the rest of its pages lose their labels. *)
Theorem C40_mmap : forall base h r s p fd n offset addr,
  mapped base shipped -> api_run base h r s -> p_tdag p = Live r ->
  fd_ok s fd -> (0 <= offset < 2 ^ 54)%Z -> transfer_ok s (a_rd s) fd (Some (Z.to_N offset)) n -> room r n ->
  w_mmap p n fd offset None = Ok (None, 0, p) /\
  exists p', w_mmap p n fd offset (Some addr) = Ok (Some addr, 0, p') /\
    (forall i, most_recent (registered h) fd i ->
       exists r1 r', p' = set_rt p r' /\ unlabelled r r1 addr (pages n) /\ tainted r1 r' addr n i (Z.to_N offset)) /\
    (untracked h fd -> exists r', p' = set_rt p r' /\ unlabelled r r' addr (pages n)).
Proof.
  intros base h r s p fd n offset addr M R Lv F Hp T Rm. unfold w_mmap.
  rewrite (proj2 (from_off_t_ok offset (offset_of offset))) by (split; [reflexivity|lia]). cbn [bind].
  assert (O : offset_of offset = Some (Z.to_N offset)) by (unfold offset_of; destruct (Z.leb_spec 0 offset); [reflexivity|lia]).
  rewrite O. split; [reflexivity|]. unfold get_tdag, clear. rewrite Lv. cbn [set_rt p_tdag bind].
  set (r1 := clear_bytes r addr (N.to_nat (M_Dfsan.round_up n))). assert (U1 : unlabelled r r1 addr (pages n)).
  { rewrite <- round_up_pages. rewrite <- (Nnat.N2Nat.id (M_Dfsan.round_up n)) at 1. apply clear_shadow_of. }
  destruct (clear_run base (N.to_nat (M_Dfsan.round_up n)) h r s addr R) as (h1 & f & R1 & G1). fold r1 in R1.
  assert (Rm1 : room r1 n) by (unfold room, r1; rewrite clear_table; exact Rm).
  destruct (read_call base (h ++ h1) r1 (with_mem s f) fd addr (Some (Z.to_N offset)) n M R1 F T Rm1) as (x & r' & E & Q1 & Q2). rewrite G1 in Q1.
  rewrite E. cbn [bind snd]. eexists. split; [reflexivity|]. split.
  - intros i Mi. exists r1, r'. split; [reflexivity|]. split; [exact U1|]. exact (Q1 i Mi).
  - intros U. exists r'. split; [reflexivity|]. rewrite (Q2 ltac:(unfold untracked; rewrite G1; exact U)). exact U1.
Qed.

(** A failed or empty read never aborts, whatever the descriptor and the state. *)
Theorem C40_failed : forall p fd buff pos ret, (ret <= 0)%Z -> (pos < 2 ^ 54)%Z -> w_read p fd buff pos ret = Ok (ret, 0, p).
Proof.
  intros p fd buff pos ret H1 H2. unfold w_read. rewrite (proj2 (from_off_t_ok pos (offset_of pos))) by (split; [reflexivity|lia]).
  unfold from_returned_size. destruct (Z.ltb_spec 0 ret); [lia|reflexivity].
Qed.

(** The state of a process that made the given calls. *)
Definition live (r : rt) : proc := mkProc true false (Live r).
Definition label_in (x : Res (proc)) (a : N) : option N :=
  match x with Ok p => match p_tdag p with Live r => Some (r_shadow r a) | _ => None end | _ => None end.
Definition process {A B} (x : Res (A * B * proc)) : Res proc := match x with Ok (_, _, p) => Ok p | _ => UB end.

(** Bytes of an incomplete item that fread has stored are not labelled: of the 7 bytes read
    into items of 4, the last 3. *)
Theorem C40_fread_incomplete_refuted : exists h r s, api_run 8192 h r s /\ most_recent (registered h) 3 0 /\
  let x := process (w_fread (live r) 3 1000 4 0 (7 / 4)) in
  label_in x 1003 = Some 4 /\ label_in x 1004 = Some 0 /\ label_in x 1006 = Some 0.
Proof.
  destruct (demo_run 8192 [COpen 3 [97] None] (fun h r s =>
     let x := process (w_fread (live r) 3 1000 4 0 (7 / 4)) in
     match last_with (registered h) 3, label_in x 1003, label_in x 1004, label_in x 1006 with
     | Some 0, Some 4, Some 0, Some 0 => true | _, _, _, _ => false end)) as (h & r & s & R & C & T); [vm_compute; reflexivity|].
  cbv zeta in T. exists h, r, s. split; [exact R|]. cbv zeta.
  destruct (last_with (registered h) 3) as [[|q]|] eqn:L; try discriminate T. split; [now apply last_with_most_recent|].
  destruct (label_in _ 1003) as [[|[q|[q|[q|q|]|]|]]|]; try discriminate T; destruct (label_in _ 1004) as [[|q]|]; try discriminate T;
  destruct (label_in _ 1006) as [[|q]|]; try discriminate T. auto.
Qed.

(** What follows a NUL character read by fgets is not labelled: memory holds "a\0b\n\0". *)
Theorem C40_fgets_nul_refuted : exists h r s app, api_run 8192 h r s /\ most_recent (registered h) 3 0 /\
  map app [1000; 1001; 1002; 1003; 1004] = [97; 0; 98; 10; 0] /\
  let x := process (w_fgets 10 app (live r) 3 1000 0 true 0) in
  label_in x 1000 = Some 1 /\ label_in x 1001 = Some 0 /\ label_in x 1002 = Some 0 /\ label_in x 1003 = Some 0.
Proof.
  set (app := fun a => if a =? 1000 then 97 else if a =? 1002 then 98 else if a =? 1003 then 10 else 0).
  destruct (demo_run 8192 [COpen 3 [97] None] (fun h r s =>
     let x := process (w_fgets 10 app (live r) 3 1000 0 true 0) in
     match last_with (registered h) 3, map (label_in x) [1000; 1001; 1002; 1003] with
     | Some 0, [Some 1; Some 0; Some 0; Some 0] => true | _, _ => false end)) as (h & r & s & R & C & T); [vm_compute; reflexivity|].
  cbv zeta in T. exists h, r, s, app. split; [exact R|]. cbv zeta.
  destruct (last_with (registered h) 3) as [[|q]|] eqn:L; try discriminate T. split; [now apply last_with_most_recent|].
  split; [reflexivity|]. cbn [map] in T.
  destruct (label_in _ 1000) as [[|[q|q|]]|]; try discriminate T; destruct (label_in _ 1001) as [[|q]|]; try discriminate T;
  destruct (label_in _ 1002) as [[|q]|]; try discriminate T; destruct (label_in _ 1003) as [[|q]|]; try discriminate T. auto.
Qed.

(** mmap labels bytes that the file does not have: the mapping of a file of 3 bytes is 8
    bytes long. *)
Theorem C40_mmap_beyond_end_refuted : exists h r s, api_run 8192 h r s /\
  registered h = [mkReg [97] (Some 3%Z) (Some 3)] /\
  exists p' r', process (w_mmap (live r) 8 3 0 (Some 1000)) = Ok p' /\ p_tdag p' = Live r' /\
    read_label (r_tab r') (r_shadow r' 1007) = Ok (TSource false 0 7).
Proof.
  destruct (demo_run 8192 [COpen 3 [97] (Some 3)] (fun h r s =>
     match process (w_mmap (live r) 8 3 0 (Some 1000)) with
     | Ok (mkProc _ _ (Live r')) => match read_label (r_tab r') (r_shadow r' 1007) with Ok (TSource false 0 7) => true | _ => false end
     | _ => false end)) as (h & r & s & R & C & T); [vm_compute; reflexivity|].
  exists h, r, s. split; [exact R|]. split.
  { destruct h as [|[c1 x1] [|]]; try discriminate C. inversion C; subst c1. reflexivity. }
  destruct (process _) as [[f a [|r'|]]| | |]; try discriminate T. exists (mkProc f a (Live r')), r'. split; [reflexivity|]. split; [reflexivity|].
  destruct (read_label _ _) as [[cf i o| |]| | |]; try discriminate T. destruct cf; [discriminate T|]. destruct i; [|discriminate T].
  repeat (match type of T with (match ?z with _ => _ end) = true => destruct z; try discriminate T; try reflexivity end).
Qed.

(** A named source (a command line argument) is stored under descriptor -1, which is what a
    program passes to mmap for anonymous memory: the fresh zero bytes are labelled as bytes
    of the last argument, even beyond its end (here it has 2 bytes). *)
Theorem C40_anonymous_mmap_refuted : exists h r s, api_run 8192 h r s /\
  registered h = [mkReg (argv_name 0) None None] /\
  exists p' r', process (w_mmap (live r) 4 (-1) 0 (Some 1000)) = Ok p' /\ p_tdag p' = Live r' /\
    read_label (r_tab r') (r_shadow r' 1000) = Ok (TSource false 0 0) /\
    read_label (r_tab r') (r_shadow r' 1003) = Ok (TSource false 0 3).
Proof.
  destruct (demo_run 8192 [CNamed (argv_name 0) 500 2] (fun h r s =>
     match process (w_mmap (live r) 4 (-1) 0 (Some 1000)) with
     | Ok (mkProc _ _ (Live r')) =>
         match read_label (r_tab r') (r_shadow r' 1000), read_label (r_tab r') (r_shadow r' 1003) with
         | Ok (TSource false 0 0), Ok (TSource false 0 3) => true | _, _ => false end
     | _ => false end)) as (h & r & s & R & C & T); [vm_compute; reflexivity|].
  exists h, r, s. split; [exact R|]. split.
  { destruct h as [|[c1 x1] [|]]; try discriminate C. inversion C; subst c1. reflexivity. }
  destruct (process _) as [[f a [|r'|]]| | |]; try discriminate T. exists (mkProc f a (Live r')), r'. split; [reflexivity|]. split; [reflexivity|].
  destruct (read_label _ (r_shadow r' 1000)) as [[cf i o| |]| | |]; try discriminate T. destruct cf; [discriminate T|]. destruct i; [|discriminate T].
  destruct o; [|discriminate T]. split; [reflexivity|].
  destruct (read_label _ _) as [[cf i o| |]| | |]; try discriminate T. destruct cf; [discriminate T|]. destruct i; [|discriminate T].
  repeat (match type of T with (match ?z with _ => _ end) = true => destruct z; try discriminate T; try reflexivity end).
Qed.

(** Overwriting labelled memory by a read from an untracked descriptor keeps the old labels. *)
Theorem C40_untracked_keeps_refuted : exists h r s, api_run 8192 h r s /\ untracked h 9 /\
  r_shadow r 1000 = 1 /\ label_in (process (w_read (live r) 9 1000 (-1) 1)) 1000 = Some 1.
Proof.
  destruct (demo_run 8192 [COpen 3 [97] None; CReadMem 3 1000 (Some 0) 1] (fun h r s =>
     match last_with (registered h) 9, r_shadow r 1000, label_in (process (w_read (live r) 9 1000 (-1) 1)) 1000 with
     | None, 1, Some 1 => true | _, _, _ => false end)) as (h & r & s & R & C & T); [vm_compute; reflexivity|].
  exists h, r, s. split; [exact R|]. destruct (last_with (registered h) 9) eqn:L; [discriminate T|].
  split; [intros i Mi; apply last_with_most_recent in Mi; congruence|].
  destruct (r_shadow r 1000) as [|[q|q|]]; try discriminate T. destruct (label_in _ _) as [[|[q|q|]]|]; try discriminate T. auto.
Qed.

(** munmap drops the labels of memory that stays mapped because the call failed. *)
Theorem C40_munmap_failure_refuted : exists h r s, api_run 8192 h r s /\
  r_shadow r 1000 = 1 /\ label_in (process (w_munmap (live r) 1000 1 (-1))) 1000 = Some 0.
Proof.
  destruct (demo_run 8192 [COpen 3 [97] None; CReadMem 3 1000 (Some 0) 1] (fun h r s =>
     match r_shadow r 1000, label_in (process (w_munmap (live r) 1000 1 (-1))) 1000 with
     | 1, Some 0 => true | _, _ => false end)) as (h & r & s & R & C & T); [vm_compute; reflexivity|].
  exists h, r, s. split; [exact R|].
  destruct (r_shadow r 1000) as [|[q|q|]]; try discriminate T. destruct (label_in _ _) as [[|q]|]; try discriminate T. auto.
Qed.

Example C40_case : exists h r s, api_run 8192 h r s /\ fd_ok s 3 /\ transfer_ok s (a_rd s) 3 (offset_of 5) 2 /\ room r 2 /\
  most_recent (registered h) 3 1 /\ label_in (process (w_read (live r) 3 1000 5 2)) 1001 = Some 3.
Proof.
  destruct (demo_run 8192 [COpen 3 [97] None; COpen 3 [98] None; CReadMem 3 1000 None 1] (fun h r s =>
     fd_okb s 3 && transfer_okb s (a_rd s) 3 (Some 5) 2 && (len (r_tab r) + 2 <=? 2147483584) &&
     match last_with (registered h) 3, label_in (process (w_read (live r) 3 1000 5 2)) 1001 with
     | Some 1, Some 3 => true | _, _ => false end)) as (h & r & s & R & C & T); [vm_compute; reflexivity|].
  apply andb_true_iff in T as [T T4]. apply andb_true_iff in T as [T T3]. apply andb_true_iff in T as [T1 T2].
  exists h, r, s. split; [exact R|]. split; [now apply fd_okb_ok|]. split; [now apply transfer_okb_ok|]. split; [now apply N.leb_le|].
  destruct (last_with (registered h) 3) as [[|[q|q|]]|] eqn:L; try discriminate T4. split; [now apply last_with_most_recent|].
  destruct (label_in _ _) as [[|[[q|q|]|q|]]|]; try discriminate T4. reflexivity.
Qed.

(** ** C41: writes *)
(** A write (send) that returned [ret]; the records are those of the labels memory carries
    ([logged], S_History), appended to the log. *)
Theorem C41_write : forall base h r s p pad fd buff pos ret,
  mapped base shipped -> api_run base h r s -> p_tdag p = Live r -> (forall i, is_bytes (pad i)) ->
  fd_ok s fd -> (pos < 2 ^ 54)%Z -> transfer_ok s (a_wr s) fd (offset_of pos) (Z.to_N ret) ->
  within_limits (astep s (CWriteMem fd (offset_of pos) buff (Z.to_N ret)) RNone) ->
  exists p', w_write pad p fd buff pos ret = Ok (ret, 0, p') /\
    (forall i, (0 < ret)%Z -> most_recent (registered h) fd i ->
       exists r' old, p' = set_rt p r' /\ py_sinks (content (r_mem r) (r_sink r)) = Ok old /\
         py_sinks (content (r_mem r') (r_sink r')) =
           Ok (old ++ logged (r_shadow r) i buff (position (a_wr s) i (offset_of pos)) (N.to_nat (Z.to_N ret)))) /\
    ((ret <= 0)%Z \/ untracked h fd -> p' = p).
Proof.
  intros base h r s p pad fd buff pos ret M R Lv Pb F Hp T L. unfold w_write.
  rewrite (proj2 (from_off_t_ok pos (offset_of pos))) by (split; [reflexivity|lia]). cbn [bind].
  unfold from_returned_size. destruct (Z.ltb_spec 0 ret) as [P|P]; cbn [impl_taint_sink].
  - unfold get_tdag. rewrite Lv. cbn [bind].
    destruct (write_call base h r s pad fd (offset_of pos) buff (Z.to_N ret) M R Pb F T L) as (r' & E & Q1 & Q2).
    rewrite E. cbn [bind snd]. eexists. split; [reflexivity|]. split.
    + intros i _ Mi. destruct (Q1 i Mi) as (old & O1 & O2). exists r', old. auto.
    + intros [Z|U]; [lia|]. rewrite (Q2 U). now apply set_rt_same.
  - cbn [bind]. eexists. split; [reflexivity|]. split; [intros; lia|reflexivity].
Qed.

Theorem C41_fwrite : forall base h r s p pad fd buff size pos ret,
  mapped base shipped -> api_run base h r s -> p_tdag p = Live r -> (forall i, is_bytes (pad i)) ->
  size < 2 ^ 64 -> ret < 2 ^ 64 -> size * ret < 2 ^ 64 ->
  fd_ok s fd -> (pos < 2 ^ 54)%Z -> transfer_ok s (a_wr s) fd (offset_of pos) (size * ret) ->
  within_limits (astep s (CWriteMem fd (offset_of pos) buff (size * ret)) RNone) ->
  exists p', w_fwrite pad p fd buff size pos ret = Ok (ret, 0, p') /\
    (forall i, 0 < size * ret -> most_recent (registered h) fd i ->
       exists r' old, p' = set_rt p r' /\ py_sinks (content (r_mem r) (r_sink r)) = Ok old /\
         py_sinks (content (r_mem r') (r_sink r')) =
           Ok (old ++ logged (r_shadow r) i buff (position (a_wr s) i (offset_of pos)) (N.to_nat (size * ret)))) /\
    (size * ret = 0 \/ untracked h fd -> p' = p).
Proof.
  intros base h r s p pad fd buff size pos ret M R Lv Pb S1 S2 S3 F Hp T L. unfold w_fwrite.
  rewrite (proj2 (from_off_t_ok pos (offset_of pos))) by (split; [reflexivity|lia]). cbn [bind].
  rewrite (size_count_ok size ret S1 S2). destruct (N.leb_spec two64 (size * ret)) as [Q|Q]; [change (2 ^ 64) with two64 in S3; lia|]. cbn [bind].
  destruct (N.eqb_spec (size * ret) 0) as [Z|Z]; cbn [impl_taint_sink].
  - cbn [bind]. eexists. split; [reflexivity|]. split; [intros; lia|reflexivity].
  - unfold get_tdag. rewrite Lv. cbn [bind].
    destruct (write_call base h r s pad fd (offset_of pos) buff (size * ret) M R Pb F T L) as (r' & E & Q1 & Q2).
    rewrite E. cbn [bind snd]. eexists. split; [reflexivity|]. split.
    + intros i _ Mi. destruct (Q1 i Mi) as (old & O1 & O2). exists r', old. auto.
    + intros [Z'|U]; [lia|]. rewrite (Q2 U). now apply set_rt_same.
Qed.

(** putc and fputc of a character code 0 .. 255 carrying label [l]. *)
Theorem C41_putc : forall base h r s p pad ch failed fd pos l,
  mapped base shipped -> api_run base h r s -> p_tdag p = Live r -> (forall i, is_bytes (pad i)) -> (0 <= ch < 256)%Z ->
  fd_ok s fd -> (pos < 2 ^ 54)%Z -> transfer_ok s (a_wr s) fd (offset_of pos) 1 -> l = 0 \/ S_Api.known s l ->
  within_limits (astep s (CWriteVal fd (offset_of pos) l 1) RNone) ->
  let ret := putc_result ch failed in
  exists p', w_putc pad p ch fd pos ret l = Ok (ret, 0, p') /\
    (forall i, failed = false -> most_recent (registered h) fd i ->
       exists r' old, p' = set_rt p r' /\ py_sinks (content (r_mem r) (r_sink r)) = Ok old /\
         py_sinks (content (r_mem r') (r_sink r')) =
           Ok (old ++ logged (fun _ => l) i 0 (position (a_wr s) i (offset_of pos)) 1)) /\
    (failed = true \/ untracked h fd -> p' = p).
Proof.
  intros base h r s p pad ch failed fd pos l M R Lv Pb Hc F Hp T Kn L ret. unfold w_putc.
  rewrite (proj2 (from_off_t_ok pos (offset_of pos))) by (split; [reflexivity|lia]). cbn [bind].
  unfold ret, putc_result. destruct failed.
  - destruct (Z.eqb_spec (-1) ch); [lia|]. cbn [bind]. eexists. split; [reflexivity|]. split; [discriminate|reflexivity].
  - rewrite Z.mod_small by lia. rewrite Z.eqb_refl. unfold get_tdag. rewrite Lv. cbn [bind].
    destruct (write_value_call base h r s pad fd (offset_of pos) l 1 M R Pb F T Kn L) as (r' & E & Q1 & Q2).
    rewrite E. cbn [bind snd]. eexists. split; [reflexivity|]. split.
    + intros i _ Mi. destruct (Q1 i Mi) as (old & O1 & O2). exists r', old. auto.
    + intros [Z|U]; [discriminate|]. rewrite (Q2 U). now apply set_rt_same.
Qed.

Definition sinks_in (x : Res proc) : option (list py_sink) :=
  match x with
  | Ok p => match p_tdag p with
            | Live r => match py_sinks (content (r_mem r) (r_sink r)) with Ok l => Some l | _ => None end
            | _ => None end
  | _ => None end.

Definition sinks_are (x : option (list py_sink)) (l : list py_sink) : bool :=
  match x with
  | Some m => list_eqb (fun a b => (sk_offset a =? sk_offset b)%Z && (sk_label a =? sk_label b) && (sk_fdidx a =? sk_fdidx b)) m l
  | None => false end.
Lemma sinks_are_ok x l : sinks_are x l = true -> x = Some l.
Proof.
  destruct x as [m|]; [|discriminate]. cbn [sinks_are]. intros H. f_equal. revert H. apply list_eqb_eq.
  intros [a b c] [a' b' c'] H. cbn in H. apply andb_true_iff in H as [H H3]. apply andb_true_iff in H as [H1 H2].
  apply Z.eqb_eq in H1. apply N.eqb_eq in H2, H3. now subst.
Qed.

(** A character passed as a negative int (a signed char): written but not logged; and when
    putc(-1, ..) fails, nothing is written but a byte is logged. *)
Theorem C41_putc_signed_refuted : exists h r s, api_run 8192 h r s /\ most_recent (registered h) 3 0 /\
  putc_result (-1) false = 255%Z /\
  sinks_in (process (w_putc pad0 (live r) (-1) 3 0 (putc_result (-1) false) 1)) = Some [] /\
  putc_result (-1) true = (-1)%Z /\
  sinks_in (process (w_putc pad0 (live r) (-1) 3 0 (putc_result (-1) true) 1)) = Some [mkSink 0 1 0].
Proof.
  destruct (demo_run 8192 [COpen 3 [97] None; CReadMem 3 1000 (Some 0) 1] (fun h r s =>
     match last_with (registered h) 3 with Some 0 => true | _ => false end &&
     sinks_are (sinks_in (process (w_putc pad0 (live r) (-1) 3 0 (putc_result (-1) false) 1))) [] &&
     sinks_are (sinks_in (process (w_putc pad0 (live r) (-1) 3 0 (putc_result (-1) true) 1))) [mkSink 0 1 0])) as (h & r & s & R & C & T); [vm_compute; reflexivity|].
  apply andb_true_iff in T as [T T3]. apply andb_true_iff in T as [T1 T2].
  exists h, r, s. split; [exact R|].
  destruct (last_with (registered h) 3) as [[|q]|] eqn:L; try discriminate T1. split; [now apply last_with_most_recent|].
  split; [reflexivity|]. split; [now apply sinks_are_ok|]. split; [reflexivity|]. now apply sinks_are_ok.
Qed.

(** _putc, which its wrapper forwards without logging. *)
Theorem C41_underscore_putc_refuted : forall p ret, w_underscore_putc p ret = Ok (ret, 0, p).
Proof. reflexivity. Qed.

(** A file opened for appending is at position 0 although writes go to its end: the log has
    the wrong output offset. *)
Theorem C41_append_refuted : exists h r s, api_run 8192 h r s /\ most_recent (registered h) 3 0 /\
  registered h = [mkReg [97] (Some 3%Z) (Some 10)] /\
  sinks_in (process (w_write pad0 (live r) 3 1000 0 1)) = Some [mkSink 0 1 0] /\ landing true 0 10 = 10.
Proof.
  destruct (demo_run 8192 [COpen 3 [97] (Some 10); CReadMem 3 1000 (Some 0) 1] (fun h r s =>
     match last_with (registered h) 3 with Some 0 => true | _ => false end &&
     sinks_are (sinks_in (process (w_write pad0 (live r) 3 1000 0 1))) [mkSink 0 1 0])) as (h & r & s & R & C & T); [vm_compute; reflexivity|].
  apply andb_true_iff in T as [T1 T2].
  exists h, r, s. split; [exact R|].
  destruct (last_with (registered h) 3) as [[|q]|] eqn:L; try discriminate T1. split; [now apply last_with_most_recent|].
  split; [destruct h as [|[c1 x1] [|[c2 x2] [|]]]; try discriminate C; inversion C; subst c1 c2; reflexivity|].
  split; [now apply sinks_are_ok|reflexivity].
Qed.

Example C41_case : exists h r s, api_run 8192 h r s /\ fd_ok s 4 /\ transfer_ok s (a_wr s) 4 (offset_of (-1)) 3 /\
  most_recent (registered h) 4 1 /\ sinks_in (process (w_write pad0 (live r) 4 999 (-1) 3)) = Some [mkSink 1 1 1; mkSink 2 2 1].
Proof.
  destruct (demo_run 8192 [COpen 3 [97] None; COpen 4 [98] None; CReadMem 3 1000 None 2] (fun h r s =>
     fd_okb s 4 && transfer_okb s (a_wr s) 4 None 3 && match last_with (registered h) 4 with Some 1 => true | _ => false end &&
     sinks_are (sinks_in (process (w_write pad0 (live r) 4 999 (-1) 3))) [mkSink 1 1 1; mkSink 2 2 1])) as (h & r & s & R & C & T); [vm_compute; reflexivity|].
  apply andb_true_iff in T as [T T4]. apply andb_true_iff in T as [T T3]. apply andb_true_iff in T as [T1 T2].
  exists h, r, s. split; [exact R|]. split; [now apply fd_okb_ok|]. split; [now apply transfer_okb_ok|].
  destruct (last_with (registered h) 4) as [[|[q|q|]]|] eqn:L; try discriminate T3. split; [now apply last_with_most_recent|].
  now apply sinks_are_ok.
Qed.

(** ** C43: the command line *)
Theorem C43_disabled : forall fuel app p argv, p_argv p = false -> taint_argv fuel app p argv = Ok p.
Proof. intros fuel app p argv H. unfold taint_argv. now rewrite H. Qed.

(** [args]: address and length of every argument.  The i-th becomes the registration
    number [len (registered h) + i]. *)
Theorem C43_argv : forall base h r s p fuel app args,
  mapped base shipped -> api_run base h r s -> p_tdag p = Live r -> p_argv p = true -> len args < 2 ^ 31 ->
  Forall (fun an => c_string app (fst an) (snd an) /\ snd an <= 2 ^ 54 /\ (N.to_nat (snd an) < fuel)%nat) args -> apart args ->
  within_limits (p_args s 0 args) -> room r (fold_right N.add 0 (map snd args)) ->
  exists r', taint_argv fuel app p (map fst args) = Ok (set_rt p r') /\
    (forall i a n j, get args i = Some (a, n) -> j < n -> stands_for r' (r_shadow r' (a + j)) (len (registered h) + i, j)) /\
    (forall x, outside args x -> r_shadow r' x = r_shadow r x) /\
    exists h' s', api_run base (h ++ h') r' s' /\
      Forall2 (fun i g => is_argv_name i (reg_name g) /\ reg_fd g = None) (nseq 0 (length args)) (registered h').
Proof.
  intros base h r s p fuel app args M R Lv Ar Li F Ap L Rm.
  destruct (argv_total base app fuel args M 0 h r s R ltac:(lia) F L Rm) as (r' & E & Rm').
  assert (F' : Forall (fun an => c_string app (fst an) (snd an) /\ snd an <= 2 ^ 54) args).
  { eapply Forall_impl; [|exact F]. intros x (X1 & X2 & _). auto. }
  destruct (argv_loop base app fuel args M 0 h r s r' R ltac:(lia) F' L E Rm') as (h' & s' & R' & Em & Al & _ & Sh & _).
  exists r'. split.
  { unfold taint_argv. rewrite Ar. cbn [negb]. destruct args as [|[a n] args]; cbn [map fst]; [|].
    - cbn [map taint_argv_loop] in E. inversion E; subst r'. now rewrite set_rt_same.
    - unfold get_tdag. rewrite Lv. cbn [bind]. cbn [map fst] in E. rewrite E. reflexivity. }
  split; [|split; [exact Sh|]].
  - intros i a n j G Hj.
    assert (Am : a_mem s' (a + j) = [(len (registered h) + i, j)]).
    { rewrite Em, <- (run_regs _ _ _ _ R). clear - Ap G Hj. revert i G.
      assert (Gen : forall args s k, apart args ->
        (forall x, outside args x -> a_mem (p_args s k args) x = a_mem s x) /\
        (forall i a n j, get args i = Some (a, n) -> j < n -> a_mem (p_args s k args) (a + j) = [(len (a_regs s) + i, j)])).
      { clear. induction args as [|[a n] args IH]; intros s k Ap.
        - split; [reflexivity|]. intros i a n j G. unfold get in G. destruct (N.to_nat i); discriminate.
        - assert (Ap' : apart args).
          { intros i j a1 n1 b m Ne G1 G2. apply (Ap (i + 1) (j + 1)); [lia|now rewrite get_cons_succ..]. }
          cbn [p_args]. cbv zeta.
          set (s1 := with_mem _ _). destruct (IH s1 (k + 1) Ap') as (I1 & I2). split.
          + intros x O. rewrite I1.
            * unfold s1. cbn [with_mem a_mem]. unfold add_bytes. destruct (O 0 a n eq_refl) as [O1|O1].
              -- destruct (N.leb_spec a x); [lia|reflexivity].
              -- destruct (N.ltb_spec x (a + n)); [lia|]. now rewrite andb_false_r.
            * intros i a1 n1 G. apply (O (i + 1)). now rewrite get_cons_succ.
          + intros i a1 n1 j G Hj. destruct (N.eq_dec i 0) as [->|Ne].
            * unfold get in G. cbn in G. inversion G; subst a1 n1. rewrite I1.
              -- unfold s1. cbn [with_mem a_mem]. unfold add_bytes. destruct (N.leb_spec a (a + j)); [|lia].
                 destruct (N.ltb_spec (a + j) (a + n)); [|lia]. cbn [andb]. rewrite N.add_0_r. do 2 f_equal. lia.
              -- intros i b m Gi. destruct (Ap 0 (i + 1) a n b m ltac:(lia) eq_refl ltac:(now rewrite get_cons_succ)); lia.
            * replace i with (i - 1 + 1) in G by lia. rewrite get_cons_succ in G. rewrite (I2 _ _ _ _ G Hj).
              unfold s1. cbn [with_mem with_reg a_regs]. rewrite len_app, len_cons, len_nil. do 2 f_equal. lia. }
      intros i G. exact (proj2 (Gen args s 0 Ap) i a n j G Hj). }
    destruct (api_run_inv base _ r' s' M R') as (g & A). destruct (ai_mm _ _ _ _ A (a + j)) as [[_ Z]|[U Sm]].
    + rewrite Am in Z. discriminate.
    + split; [destruct U; lia|]. intros b. rewrite <- (proj2 (ai_lab _ _ _ _ A) _ b U). rewrite <- (Sm b), Am. cbn [In].
      split; [intros [<-|[]]; reflexivity|]. intros ->. now left.
  - exists h', s'. split; [exact R'|].
    assert (Rg := run_regs _ _ _ _ R'). rewrite <- (al_regs _ _ Al) in Rg. unfold registered in Rg. rewrite flat_map_app in Rg.
    fold (registered h) in Rg. fold (registered h') in Rg. rewrite <- (run_regs _ _ _ _ R) in Rg.
    assert (Gen : forall args s k, k + len args < 2 ^ 31 -> exists gs, a_regs (p_args s k args) = a_regs s ++ gs /\
       Forall2 (fun i g => is_argv_name i (reg_name g) /\ reg_fd g = None) (nseq k (length args)) gs).
    { clear. induction args as [|[a n] args IH]; intros s k Lk; cbn [p_args length nseq].
      - exists []. rewrite app_nil_r. split; [reflexivity|constructor].
      - cbv zeta. rewrite len_cons in Lk. set (s1 := with_mem _ _). destruct (IH s1 (k + 1) ltac:(lia)) as (gs & E & Fg). rewrite E.
        exists (mkReg (argv_name k) None None :: gs). unfold s1. cbn [with_mem with_reg a_regs]. rewrite <- app_assoc. split; [reflexivity|].
        constructor; [|exact Fg]. split; [|reflexivity]. cbn [reg_name]. apply argv_name_spec. lia. }
    destruct (Gen args s 0 ltac:(lia)) as (gs & E1 & Fg). rewrite E1 in Rg. apply app_inv_head in Rg. subst gs. exact Fg.
Qed.

Definition case_app (a : N) : N := if (a =? 1002) || (a =? 1004) then 0 else 65.
Definition case_args : list (N * N) := [(1000, 2); (1003, 1)].
Example C43_case : exists h r s, api_run 8192 h r s /\ len (registered h) = 1 /\ apart case_args /\
  Forall (fun an => c_string case_app (fst an) (snd an) /\ snd an <= 2 ^ 54 /\ (N.to_nat (snd an) < 5)%nat) case_args /\
  within_limits (p_args s 0 case_args) /\ room r (fold_right N.add 0 (map snd case_args)) /\
  label_in (taint_argv 5 case_app (mkProc true true (Live r)) (map fst case_args)) 1003 = Some 3 /\
  argv_name 1 = [97; 114; 103; 118; 91; 49; 93].
Proof.
  destruct (demo_run 8192 [COpen 3 [97] None] (fun h r s =>
     (len (registered h) =? 1) && within_limitsb (p_args s 0 case_args) && (len (r_tab r) + fold_right N.add 0 (map snd case_args) <=? 2147483584) &&
     match label_in (taint_argv 5 case_app (mkProc true true (Live r)) (map fst case_args)) 1003 with Some 3 => true | _ => false end))
     as (h & r & s & R & C & T); [vm_compute; reflexivity|].
  apply andb_true_iff in T as [T T4]. apply andb_true_iff in T as [T T3]. apply andb_true_iff in T as [T1 T2].
  exists h, r, s. split; [exact R|]. split; [now apply N.eqb_eq|].
  split.
  { intros i j a n b m Ne G1 G2. unfold get, case_args in *.
    destruct (N.to_nat i) as [|[|x]] eqn:Ei; destruct (N.to_nat j) as [|[|y]] eqn:Ej; cbn in G1, G2; try (destruct x; discriminate); try (destruct y; discriminate);
      try lia; inversion G1; inversion G2; subst; lia. }
  split.
  { unfold case_app. repeat constructor; cbn [fst snd]; try reflexivity; try (cbn; lia); intros i Hi.
    - destruct (N.eqb_spec (1000 + i) 1002); [lia|]. destruct (N.eqb_spec (1000 + i) 1004); [lia|]. cbn. lia.
    - destruct (N.eqb_spec (1003 + i) 1002); [lia|]. destruct (N.eqb_spec (1003 + i) 1004); [lia|]. cbn. lia. }
  split.
  { unfold within_limitsb in T2. apply andb_true_iff in T2 as [T2 W4]. apply andb_true_iff in T2 as [T2 W3]. apply andb_true_iff in T2 as [W1 W2].
    apply N.leb_le in W1, W2, W3, W4. exact (conj W1 (conj W2 (conj W3 W4))). }
  split; [now apply N.leb_le|]. split; [|reflexivity].
  destruct (label_in _ _) as [[|[[q|q|]|q|]]|]; try discriminate T4. reflexivity.
Qed.

Print Assumptions C39_no_recording.
Print Assumptions C39_callbacks_return.
Print Assumptions C39_condition_refuted.
Print Assumptions C39_wrappers_refuted.
Print Assumptions C50_after_end_refuted.
Print Assumptions C42_returned_size.
Print Assumptions C42_size_count.
Print Assumptions C42_offset.
Print Assumptions C42_returned_string.
Print Assumptions C42_empty_string_refuted.
Print Assumptions C40_read.
Print Assumptions C40_pread.
Print Assumptions C40_fread.
Print Assumptions C40_getc.
Print Assumptions C40_fgets.
Print Assumptions C40_getdelim.
Print Assumptions C40_mmap.
Print Assumptions C40_failed.
Print Assumptions C40_fread_incomplete_refuted.
Print Assumptions C40_fgets_nul_refuted.
Print Assumptions C40_mmap_beyond_end_refuted.
Print Assumptions C40_anonymous_mmap_refuted.
Print Assumptions C40_untracked_keeps_refuted.
Print Assumptions C40_munmap_failure_refuted.
Print Assumptions C41_write.
Print Assumptions C41_fwrite.
Print Assumptions C41_putc.
Print Assumptions C41_putc_signed_refuted.
Print Assumptions C41_underscore_putc_refuted.
Print Assumptions C41_append_refuted.
Print Assumptions C43_disabled.
Print Assumptions C43_argv.
