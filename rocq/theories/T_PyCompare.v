(** C92, C93: comparing the traces of two runs. *)
From Coq Require Import NArith ZArith List Bool Lia Sorted.
From Verif Require Import M_Base M_Encoding M_Memory M_Labels M_CfLog M_OutputFile M_PyNode M_PySections M_PyFile M_PyAnalysis M_PyCompare M_Api
  S_Provenance S_Labels S_Strings S_CallStack S_OutputFile S_Api S_PyAnalysis S_History S_Compare
  P_Base P_History P_Api P_ApiFile P_ApiRun P_ApiDemo P_PyCompare P_PyCompareRun.
Import ListNotations.
Open Scope N_scope.

(** ** C92: the control-flow logs *)

(** Two runs whose logs are nested calls and returns: the comparison shows their tainted records,
    each with its call stack and the offsets of the bytes the decision depended on. *)
Theorem C92_runs : forall base h r s paths fnames ids rs active base' h' r' s' paths' fnames' ids' rs' active' demangle,
  mapped base shipped -> api_run base h r s ->
  are_texts (map reg_name (registered h)) paths -> are_texts (a_names s) fnames ->
  run_stack (get (map demangle ids)) [] (a_log s) rs active -> (forall l f, In (CfTainted l f) (a_log s) -> a_lab s l <> []) ->
  mapped base' shipped -> api_run base' h' r' s' ->
  are_texts (map reg_name (registered h')) paths' -> are_texts (a_names s') fnames' ->
  run_stack (get (map demangle ids')) [] (a_log s') rs' active' -> (forall l f, In (CfTainted l f) (a_log s') -> a_lab s' l <> []) ->
  exists d d' fuel0 es es' rows, py_open (trace_file base r) = Ok d /\ py_open (trace_file base' r') = Ok d' /\
    records s (tainted_of rs) es /\ records s' (tainted_of rs') es' /\ shows es es' rows /\
    forall fuel, (fuel0 <= fuel)%nat -> compare_cflog fuel demangle ids ids' d d' = Ok rows.
Proof.
  intros base h r s paths fnames ids rs active base' h' r' s' paths' fnames' ids' rs' active' demangle M R T1 T2 Rs K M' R' T1' T2' Rs' K'.
  rewrite <- (run_regs _ _ _ _ R) in T1. rewrite <- (run_regs _ _ _ _ R') in T1'.
  destruct (run_opened base h r s paths fnames M R T1 T2) as (g & d & bits & A & E & O).
  destruct (run_opened base' h' r' s' paths' fnames' M' R' T1' T2') as (g' & d' & bits' & A' & E' & O').
  destruct (run_entries _ _ _ _ _ _ _ _ demangle ids rs active A O Rs K) as (F & es & X & Y).
  destruct (run_entries _ _ _ _ _ _ _ _ demangle ids' rs' active' A' O' Rs' K') as (F' & es' & X' & Y').
  destruct (compare_shows (length es + length es') es es' (le_n _)) as (rows & C & Sh).
  exists d, d', (F + F' + length es + length es')%nat, es, es', rows. do 5 (split; [assumption|]).
  intros fuel L. unfold compare_cflog. rewrite X by lia. cbn [bind]. rewrite X' by lia. cbn [bind].
  assert (Lf : (length es + length es' <= fuel)%nat) by lia. destruct (compare_shows fuel es es' Lf) as (rows2 & C2 & _). rewrite C2.
  f_equal. exact (compare_more _ _ _ _ _ _ C2 C).
Qed.

(** Any two logs: the lines show both. *)
Theorem C92_shows : forall dbg rel fuel, (length dbg + length rel <= fuel)%nat ->
  exists rows, compare_loop fuel dbg rel = Ok rows /\ shows dbg rel rows.
Proof. intros dbg rel fuel L. exact (compare_shows fuel dbg rel L). Qed.

(** Logs with the same offsets throughout are shown side by side. *)
Theorem C92_same : forall dbg rel fuel, map fst dbg = map fst rel -> (length dbg + length rel <= fuel)%nat ->
  compare_loop fuel dbg rel = Ok (map (fun p => (Offsets (fst (fst p)), Offsets (fst (snd p)), stacks_differ (snd (fst p)) (snd (snd p)))) (combine dbg rel)).
Proof.
  intros dbg rel fuel. revert dbg rel. unfold entry. induction fuel as [|f IH]; intros [|[o s] dbg] [|[o' s'] rel] E L; cbn [map length] in *; try discriminate; try lia; try reflexivity.
  injection E as <- E. cbn [compare_loop combine map fst snd]. rewrite (proj2 (offs_eqb o o) eq_refl), IH; [reflexivity|exact E|lia].
Qed.

(** One log is the other with records put in whose offsets are new, before each old record no
    more than there are old records from it on (after it, if the longer log is on the left): the
    old records are side by side.  Missing: more records put in; see the refutation. *)
Theorem C92_inserted_partial : forall l fuel, fresh l -> (length (old_log l) + length (new_log l) <= fuel)%nat ->
  (sparse (fun k => k + 1) l -> compare_loop fuel (old_log l) (new_log l) = Ok (rows_left l)) /\
  (sparse (fun k => k) l -> compare_loop fuel (new_log l) (old_log l) = Ok (rows_right l)).
Proof. intros l fuel F L. split; intros Sp; [now apply compare_left|now apply compare_right]. Qed.

(** Two records put in before the only one of the other log: it is not found again. *)
Theorem C92_inserted_refuted : forall s1 s2 s3 s4,
  compare_loop 4 [([7], s1)] [([1], s2); ([2], s3); ([7], s4)] =
  Ok [(Offsets [7], Blank, Stack s1); (Blank, Whole ([1], s2), Nothing); (Blank, Whole ([2], s3), Nothing); (Blank, Whole ([7], s4), Nothing)].
Proof. intros. reflexivity. Qed.

Example C92_inserted_case : fresh [New [3] [[97]]; Same [1; 2] [[97]] [[98]]; Same [4] [] []] /\
  sparse (fun k => k) [New [3] [[97]]; Same [1; 2] [[97]] [[98]]; Same [4] [] []] /\
  rows_left [New [3] [[97]]; Same [1; 2] [[97]] [[98]]; Same [4] [] []] =
  [(Blank, Offsets [3], Stack [[97]]); (Offsets [1; 2], Offsets [1; 2], Differ [[97]] [[98]]); (Offsets [4], Offsets [4], Nothing)].
Proof.
  split; [|split; [|reflexivity]].
  - intros o s e [I|[I|[I|[]]]] [J|[J|[]]]; try discriminate; injection I as <- <-; subst e; discriminate.
  - intros pre new o s s' post E. destruct pre as [|a [|b [|c pre]]].
    + destruct new as [|x [|y new]]; cbn [app map] in E; unfold put in E; try discriminate. injection E as _ _ _ _ _ <-. cbn. lia.
    + destruct new as [|x new]; cbn [app map] in E; unfold put in E; try discriminate. cbn. lia.
    + destruct new as [|x new]; cbn [app map] in E; unfold put in E; try discriminate. cbn. lia.
    + injection E as _ _ _ E. destruct pre; [|discriminate]. destruct new; discriminate.
Qed.

(** ** Runs for the refutations *)
Definition logged_file (os : list N) (f : file) : bool :=
  match py_open f with
  | Ok d => match cflog_entries 50 (fun n => n) [[109]] d with
            | Ok [(o, st)] => list_eqb N.eqb o os && list_eqb (list_eqb N.eqb) st [[109]]
            | _ => false
            end
  | _ => false
  end.
Lemma logged_file_ok os f : logged_file os f = true ->
  exists d, py_open f = Ok d /\ cflog_entries 50 (fun n => n) [[109]] d = Ok [(os, [[109]])].
Proof.
  unfold logged_file. destruct (py_open f) as [d| | |]; try discriminate.
  destruct (cflog_entries 50 (fun n => n) [[109]] d) as [[|[o st] [|? ?]]| | |] eqn:E; try discriminate.
  rewrite andb_true_iff, offs_eqb, stack_eqb. intros [-> ->]. exists d. auto.
Qed.
Definition byte_eqb (a b : N * N) : bool := (fst a =? fst b) && (snd a =? snd b).
Lemma bytes_same a b : list_eqb byte_eqb a b = true -> a = b.
Proof.
  apply (list_eqb_spec byte_eqb). intros [x y] [x' y']. unfold byte_eqb. cbn [fst snd]. rewrite andb_true_iff, !N.eqb_eq.
  split; [now intros [-> ->]|]. intros E. injection E as -> ->. auto.
Qed.
Definition log_is (l : N) (s : ast) : bool :=
  match a_log s with [CfEnter 0; CfTainted l' 0] => l' =? l | _ => false end.
Lemma log_is_ok l s : log_is l s = true -> a_log s = [CfEnter 0; CfTainted l 0].
Proof.
  unfold log_is. destruct (a_log s) as [|[[|]|?|? ?] [|[?|?|l' [|]] [|? ?]]]; try discriminate. intros H. apply N.eqb_eq in H as ->. reflexivity.
Qed.
(** A run of these calls whose log has one tainted record, in a function m, on label [l] that
    stands for the bytes [bs]; the tool sees the offsets [os]. *)
Definition one_record (calls : list call) (l : N) (bs : list byte_id) (os : list N) : Prop :=
  exists h r s d, api_run 8192 h r s /\ map fst h = calls /\ a_log s = [CfEnter 0; CfTainted l 0] /\ a_lab s l = bs /\
    py_open (trace_file 8192 r) = Ok d /\ cflog_entries 50 (fun n => n) [[109]] d = Ok [(os, [[109]])].
Lemma one_record_ok calls l bs os :
  match exec_run 8192 calls with
  | Ok (h, r, s) => log_is l s && list_eqb byte_eqb (a_lab s l) bs && logged_file os (trace_file 8192 r)
  | _ => false
  end = true -> one_record calls l bs os.
Proof.
  intros H. destruct (demo_run 8192 calls (fun h r s => log_is l s && list_eqb byte_eqb (a_lab s l) bs && logged_file os (trace_file 8192 r)) H)
    as (h & r & s & R & C & T).
  apply andb_true_iff in T as [T T3]. apply andb_true_iff in T as [T1 T2]. apply log_is_ok in T1. apply bytes_same in T2.
  destruct (logged_file_ok _ _ T3) as (d & E1 & E2). exists h, r, s, d. auto 10.
Qed.

(** Decisions on the same two input bytes, one of them read once and read twice, count as different. *)
Definition once_calls : list call :=
  [COpen 3 [97] None; CReadVal 3 (Some 0) 2; CUnion 1 2; CLog (CfEnter 0); CLog (CfTainted 3 0)].
Definition twice_calls : list call :=
  [COpen 3 [97] None; CReadVal 3 (Some 0) 2; CReadVal 3 (Some 0) 1; CUnion 1 2; CUnion 4 3; CLog (CfEnter 0); CLog (CfTainted 5 0)].
Theorem C92_same_bytes_refuted :
  one_record once_calls 3 [(0, 0); (0, 1)] [0; 1] /\ one_record twice_calls 5 [(0, 0); (0, 1); (0, 0)] [0; 0; 1] /\
  forall d d', cflog_entries 50 (fun n => n) [[109]] d = Ok [([0; 1], [[109]])] -> cflog_entries 50 (fun n => n) [[109]] d' = Ok [([0; 0; 1], [[109]])] ->
    compare_cflog 50 (fun n => n) [[109]] [[109]] d d' = Ok [(Blank, Offsets [0; 0; 1], Stack [[109]]); (Whole ([0; 1], [[109]]), Blank, Nothing)].
Proof.
  split; [apply one_record_ok; vm_compute; reflexivity|]. split; [apply one_record_ok; vm_compute; reflexivity|].
  intros d d' E E'. unfold compare_cflog. rewrite E, E'. reflexivity.
Qed.

(** Decisions on bytes of different files count as the same. *)
Definition file_calls (fd : Z) : list call :=
  [COpen 3 [97] None; COpen 4 [98] None; CReadVal fd (Some 0) 1; CLog (CfEnter 0); CLog (CfTainted 1 0)].
Theorem C92_files_refuted :
  one_record (file_calls 3) 1 [(0, 0)] [0] /\ one_record (file_calls 4) 1 [(1, 0)] [0] /\
  forall d d', cflog_entries 50 (fun n => n) [[109]] d = Ok [([0], [[109]])] -> cflog_entries 50 (fun n => n) [[109]] d' = Ok [([0], [[109]])] ->
    compare_cflog 50 (fun n => n) [[109]] [[109]] d d' = Ok [(Offsets [0], Offsets [0], Nothing)].
Proof.
  split; [apply one_record_ok; vm_compute; reflexivity|]. split; [apply one_record_ok; vm_compute; reflexivity|].
  intros d d' E E'. unfold compare_cflog. rewrite E, E'. reflexivity.
Qed.

(** The log of the first of these runs meets the hypotheses of C92_runs. *)
Example C92_case : mapped 8192 shipped /\ run_stack (get (map (fun n : list N => n) [[109]])) [] [CfEnter 0; CfTainted 3 0]
  [PyEnter [[109]]; PyTainted [[109]] 3] [[109]] /\ tainted_of [PyEnter [[109]]; PyTainted [[109]] 3] = [([[109]], 3)].
Proof.
  split; [split; vm_compute; reflexivity|]. split; [|reflexivity].
  apply (run_enter _ [] 0 [109]); [reflexivity|]. apply (run_tainted _ [] 0 [109]); [reflexivity|]. constructor.
Qed.

(** ** C93: the relation of inputs and outputs *)

(** For each position of an output of the first run that depends on other input bytes in the
    second, a report with the bytes in both; and the same for input bytes. *)
Theorem C93_values_partial : forall base h r s paths fnames base' h' r' s' paths' fnames',
  mapped base shipped -> api_run base h r s ->
  are_texts (map reg_name (registered h)) paths -> are_texts (a_names s) fnames ->
  mapped base' shipped -> api_run base' h' r' s' ->
  are_texts (map reg_name (registered h')) paths' -> are_texts (a_names s') fnames' ->
  exists d d' fuel0 m m' io io', py_open (trace_file base r) = Ok d /\ py_open (trace_file base' r') = Ok d' /\
    (forall fuel, (fuel0 <= fuel)%nat -> oi_mapping fuel d = Ok m /\ oi_mapping fuel d' = Ok m' /\
       py_mapping fuel d = Ok io /\ py_mapping fuel d' = Ok io') /\
    tells (inputs_of s paths) (inputs_of s' paths') (value_diff pos_eqb in_pos_eqb m m') /\
    tells (outputs_of s paths) (outputs_of s' paths') (value_diff in_pos_eqb pos_eqb io io') /\
    (forall k, In k (key_diff pos_eqb m m') <-> (exists v, inputs_of s paths k v) /\ ~ exists v, inputs_of s' paths' k v) /\
    (forall k, In k (key_diff in_pos_eqb io io') <-> (exists v, outputs_of s paths k v) /\ ~ exists v, outputs_of s' paths' k v).
Proof.
  intros base h r s paths fnames base' h' r' s' paths' fnames' M R T1 T2 M' R' T1' T2'.
  rewrite <- (run_regs _ _ _ _ R) in T1. rewrite <- (run_regs _ _ _ _ R') in T1'.
  destruct (run_opened base h r s paths fnames M R T1 T2) as (g & d & bits & A & E & O).
  destruct (run_opened base' h' r' s' paths' fnames' M' R' T1' T2') as (g' & d' & bits' & A' & E' & O').
  destruct (run_mapping base r s g d paths fnames bits A O T1) as (F & io & X & Y).
  destruct (run_mapping base' r' s' g' d' paths' fnames' bits' A' O' T1') as (F' & io' & X' & Y').
  assert (P : forall k v, In (k, v) io <-> outputs_of s paths k v) by (intros [np no] [sp so]; apply X).
  assert (P' : forall k v, In (k, v) io' <-> outputs_of s' paths' k v) by (intros [np no] [sp so]; apply X').
  assert (Q : forall (m : list (file_offset_in * file_offset_out)) k v, In (k, v) (map swap m) <-> In (v, k) m).
  { clear. intros m k v. rewrite in_map_iff. split.
    - intros ([a b] & H & I). unfold swap in H. cbn [fst snd] in H. injection H as -> ->. exact I.
    - intros I. exists (v, k). auto. }
  assert (P2 : forall k v, In (k, v) (map swap io) <-> inputs_of s paths k v) by (intros k v; rewrite Q; apply P).
  assert (P2' : forall k v, In (k, v) (map swap io') <-> inputs_of s' paths' k v) by (intros k v; rewrite Q; apply P').
  exists d, d', (F + F')%nat, (map swap io), (map swap io'), io, io'. split; [exact E|]. split; [exact E'|]. split; [|split; [|split; [|split]]].
  - intros fuel L. assert (Z := Y fuel ltac:(lia)). assert (Z' := Y' fuel ltac:(lia)). auto using oi_swap.
  - apply value_diff_tells; auto using pos_eqb_ok, in_pos_eqb_ok.
  - apply value_diff_tells; auto using pos_eqb_ok, in_pos_eqb_ok.
  - intros k. rewrite (key_diff_ok pos_eqb pos_eqb_ok). split; intros [(v & H) N]; (split; [exists v; now apply P2|]); intros (w & I); apply N; exists w; now apply P2'.
  - intros k. rewrite (key_diff_ok in_pos_eqb in_pos_eqb_ok). split; intros [(v & H) N]; (split; [exists v; now apply P|]); intros (w & I); apply N; exists w; now apply P'.
Qed.

(** A run and the mapping the tool makes of it. *)
Definition mapped_file (m : oi_map) (f : file) : bool :=
  match py_open f with
  | Ok d => match oi_mapping 50 d with
            | Ok m' => list_eqb (fun a b => pos_eqb (fst a) (fst b) && in_pos_eqb (snd a) (snd b)) m' m
            | _ => false
            end
  | _ => false
  end.
Lemma mapped_file_ok m f : mapped_file m f = true -> exists d, py_open f = Ok d /\ oi_mapping 50 d = Ok m.
Proof.
  unfold mapped_file. destruct (py_open f) as [d| | |]; try discriminate. destruct (oi_mapping 50 d) as [m'| | |] eqn:E; try discriminate.
  intros H. exists d. split; [reflexivity|]. rewrite E. f_equal. revert H. apply list_eqb_spec. intros [a b] [a' b']. cbn [fst snd].
  rewrite andb_true_iff, pos_eqb_ok, in_pos_eqb_ok. split; [now intros [-> ->]|]. intros X. injection X as -> ->. auto.
Qed.
Definition one_mapping (calls : list call) (m : oi_map) : Prop :=
  exists h r s d, api_run 8192 h r s /\ map fst h = calls /\ py_open (trace_file 8192 r) = Ok d /\ oi_mapping 50 d = Ok m.
Lemma one_mapping_ok calls m :
  match exec_run 8192 calls with Ok (h, r, s) => mapped_file m (trace_file 8192 r) | _ => false end = true -> one_mapping calls m.
Proof.
  intros H. destruct (demo_run 8192 calls (fun h r s => mapped_file m (trace_file 8192 r)) H) as (h & r & s & R & C & T).
  destruct (mapped_file_ok _ _ T) as (d & E1 & E2). exists h, r, s, d. auto.
Qed.

(** The second run writes its input and the first does not: nothing is reported. *)
Definition silent_calls : list call := [COpen 3 [97] None; COpen 4 [98] None; CReadMem 3 1000 (Some 0) 1].
Definition copy_calls (pos : N) : list call :=
  [COpen 3 [97] None; COpen 4 [98] None; CReadMem 3 1000 (Some 0) 1; CWriteMem 4 (Some pos) 1000 1].
Theorem C93_only_second_refuted :
  one_mapping silent_calls [] /\ one_mapping (copy_calls 0) [((([], [[98]]), 0%Z), (([], [[97]]), 0))] /\
  let m' := [((([], [[98]]), 0%Z), (([], [[97]]), 0))] in
  value_diff pos_eqb in_pos_eqb [] m' = [] /\ key_diff pos_eqb [] m' = [].
Proof.
  split; [apply one_mapping_ok; vm_compute; reflexivity|]. split; [apply one_mapping_ok; vm_compute; reflexivity|]. split; reflexivity.
Qed.

(** Both runs use input byte 0 only; the comparison of the inputs used finds that the second
    also uses 5, which is where it writes. *)
Theorem C93_inputs_used_refuted :
  one_mapping (copy_calls 0) [((([], [[98]]), 0%Z), (([], [[97]]), 0))] /\
  one_mapping (copy_calls 5) [((([], [[98]]), 5%Z), (([], [[97]]), 0))] /\
  inputs_used_diff [((([], [[98]]), 0%Z), (([], [[97]]), 0))] [((([], [[98]]), 5%Z), (([], [[97]]), 0))] = [5%Z].
Proof.
  split; [apply one_mapping_ok; vm_compute; reflexivity|]. split; [apply one_mapping_ok; vm_compute; reflexivity|]. reflexivity.
Qed.

Example C93_case :
  let a := ([], [[97]]) : py_path in
  value_diff pos_eqb in_pos_eqb [((a, 0%Z), (a, 1)); ((a, 1%Z), (a, 2)); ((a, 0%Z), (a, 2))] [((a, 0%Z), (a, 2)); ((a, 1%Z), (a, 2))] =
  [((a, 0%Z), [(a, 1); (a, 2)], [(a, 2)])].
Proof. vm_compute. reflexivity. Qed.

Print Assumptions C92_runs.
Print Assumptions C92_shows.
Print Assumptions C92_same.
Print Assumptions C92_inserted_partial.
Print Assumptions C92_inserted_refuted.
Print Assumptions C92_same_bytes_refuted.
Print Assumptions C92_files_refuted.
Print Assumptions C93_values_partial.
Print Assumptions C93_only_second_refuted.
Print Assumptions C93_inputs_used_refuted.
