(** C91: compressing a trace file keeps what is in it. *)
From Coq Require Import NArith ZArith List Bool Lia.
From Verif Require Import M_Base M_Memory M_OutputFile M_PyNode M_PySections M_PyFile M_PyAnalysis M_PyCompress M_Api S_Strings S_OutputFile S_Api
  S_PyAnalysis S_Compress P_Base P_ApiMem P_Api P_ApiFile P_ApiRun P_ApiDemo P_PyCompress P_Compressed.
Import ListNotations.
Open Scope N_scope.

(** Any file whose sections fit the roundings of the tool is kept: the reader finds the same
    in the result, and the result is no longer than the header, the sections and one alignment
    for each of them.  Missing: the other files; see the refutations. *)
Theorem C91_compress_partial : forall copied f hs stop,
  section_headers f hs -> sound_file f hs -> spaced (8 + 24 * len hs) hs stop -> stop < 2 ^ 64 ->
  (forall h, In h hs -> copied (sm_size h) = sm_size h) ->
  exists c, compress copied f = Ok c /\ py_open c = py_open f /\
    f_len c <= 8 + 24 * len hs + fold_right N.add 0 (map (fun h => sm_size h + sm_align h) hs).
Proof.
  intros copied f hs stop H S P B C. destruct (compress_keeps copied f hs stop C H S P B) as (c & E & O & L & _).
  exists c. split; [exact E|]. split; [exact O|]. eapply N.le_trans; [exact L|].
  destruct (compact_placed _ _ _ P) as (os & _ & Q). exact (placed_bound _ _ _ _ Q).
Qed.

(** In the result every section starts at a multiple of its alignment, after the header and
    after the section before it. *)
Theorem C91_aligned : forall copied f hs stop,
  section_headers f hs -> sound_file f hs -> spaced (8 + 24 * len hs) hs stop -> stop < 2 ^ 64 ->
  (forall h, In h hs -> copied (sm_size h) = sm_size h) ->
  exists c os, compress copied f = Ok c /\ section_headers c os /\ len os = len hs /\
    (forall i h o, get hs i = Some h -> get os i = Some o ->
       sm_tag o = sm_tag h /\ sm_size o = sm_size h /\ sm_align o = sm_align h /\ sm_offset o mod sm_align h = 0 /\ 8 + 24 * len hs <= sm_offset o) /\
    (forall i o o', get os i = Some o -> get os (i + 1) = Some o' -> sm_offset o + sm_size o <= sm_offset o').
Proof.
  intros copied f hs stop H S P B C. destruct (compress_keeps copied f hs stop C H S P B) as (c & E & _ & _ & Hc & _).
  destruct (compact_placed _ _ _ P) as (os & Eo & Q). rewrite Eo in Hc. exists c, os. split; [exact E|]. split; [exact Hc|].
  assert (Lo := placed_len _ _ _ _ Q). split; [unfold len; now rewrite Lo|]. clear - Q.
  split.
  - revert Q. generalize (8 + 24 * len hs) as a. revert os. induction hs as [|h hs IH]; intros [|o os] a Q i h' o' G1 G2; cbn [placed] in Q; try contradiction.
    + unfold get in G1. destruct (N.to_nat i); discriminate.
    + destruct Q as (Q1 & _ & Q2 & Q3 & Q4 & Q5 & Q). unfold get in *. destruct (N.to_nat i) as [|k] eqn:K; cbn [nth_error] in G1, G2.
      * injection G1 as <-. injection G2 as <-. auto.
      * destruct (IH os _ Q (N.of_nat k) h' o') as (X1 & X2 & X3 & X4 & X5); [now rewrite Nat2N.id..|]. repeat (split; [assumption|]). lia.
  - revert Q. generalize (8 + 24 * len hs) as a. revert os. induction hs as [|h hs IH]; intros [|o os] a Q i p p' G1 G2; cbn [placed] in Q; try contradiction.
    + unfold get in G1. destruct (N.to_nat i); discriminate.
    + destruct Q as (Q1 & _ & Q2 & Q3 & Q4 & Q5 & Q). unfold get in *. replace (N.to_nat (i + 1)) with (S (N.to_nat i)) in G2 by lia.
      destruct (N.to_nat i) as [|k] eqn:K; cbn [nth_error] in G1, G2.
      * injection G1 as <-. destruct os as [|o2 os]; [discriminate|]. injection G2 as <-. destruct hs as [|h2 hs]; cbn [placed] in Q; [contradiction|].
        destruct Q as (Q6 & _). lia.
      * apply (IH os _ Q (N.of_nat k) p p'); [now rewrite Nat2N.id|]. replace (N.to_nat (N.of_nat k + 1)) with (S k) by lia. exact G2.
Qed.

(** The file of any run whose names take a multiple of eight bytes, or two less: every section
    is kept, and of the space between them at most two bytes are.  Missing: the names that take
    two or four bytes more than a multiple of eight. *)
Theorem C91_recorded_partial : forall base h r s copied d names,
  mapped base shipped -> api_run base h r s -> py_open (trace_file base r) = Ok d ->
  py_by_type (td_sections d) 3 = Ok names -> len names mod 8 = 0 \/ len names mod 8 = 6 ->
  (forall tag bytes, In (tag, bytes) (td_sections d) -> copied (len bytes) = len bytes) ->
  exists c, compress copied (trace_file base r) = Ok c /\ py_open c = Ok d /\
    f_len c <= 202 + fold_right N.add 0 (map (fun q => len (snd q)) (td_sections d)).
Proof.
  intros base h r s copied d names M R O T N8 C. destruct (api_run_inv base h r s M R) as (g & A).
  exact (run_compressed base r s g M A copied d names O T N8 C).
Qed.

(** ** Refutations *)
Definition copy_all_of (n : N) : N := n.
Definition twice_opened (copied : N -> N) (f : file) : option (tdfile * tdfile) :=
  match py_open f, compress copied f with
  | Ok d, Ok c => match py_open c with Ok d' => Some (d, d') | _ => None end
  | _, _ => None
  end.
Lemma twice_opened_ok copied f d d' : twice_opened copied f = Some (d, d') ->
  py_open f = Ok d /\ exists c, compress copied f = Ok c /\ py_open c = Ok d'.
Proof.
  unfold twice_opened. destruct (py_open f) as [a| | |]; try discriminate. destruct (compress copied f) as [c| | |]; try discriminate.
  destruct (py_open c) as [a'| | |] eqn:E; try discriminate. intros H. injection H as <- <-. eauto.
Qed.
Definition twice_check (copied : N -> N) (check : tdfile -> tdfile -> bool) (f : file) : bool :=
  match twice_opened copied f with Some (d, d') => check d d' | None => false end.
Lemma twice_check_ok copied check f : twice_check copied check f = true ->
  exists d c d', py_open f = Ok d /\ compress copied f = Ok c /\ py_open c = Ok d' /\ check d d' = true.
Proof.
  unfold twice_check. destruct (twice_opened copied f) as [[d d']|] eqn:E; [|discriminate]. intros H.
  destruct (twice_opened_ok _ _ _ _ E) as (X & c & Y & Z). exists d, c, d'. auto.
Qed.
Definition path_eqb (p q : py_path) : bool := list_eqb N.eqb (fst p) (fst q) && list_eqb (list_eqb N.eqb) (snd p) (snd q).
Lemma path_eqb_eq p q : path_eqb p q = true -> p = q.
Proof.
  destruct p as [a b], q as [a' b']. unfold path_eqb. cbn [fst snd]. rewrite andb_true_iff. intros [H1 H2].
  apply names_eqb_eq in H2. subst. f_equal. assert (X : [a] = [a']) by (apply names_eqb_eq; cbn [list_eqb]; now rewrite H1). now injection X.
Qed.

(** A run reads three bytes of a file named abcdefgh and writes one: the section of the
    outputs is put over the last two bytes of the name. *)
Definition overlap_calls : list call :=
  [COpen 3 [97; 98; 99; 100; 101; 102; 103; 104] None; CReadMem 3 1000 None 3; CWriteMem 3 None 1001 1].
Definition overlap_check (d d' : tdfile) : bool :=
  match map fst (td_fd_headers d), map fst (td_fd_headers d') with
  | [p], [q] => path_eqb p ([], [[97; 98; 99; 100; 101; 102; 103; 104]]) && path_eqb q ([], [[97; 98; 99; 100; 101; 102; 0; 0]])
  | _, _ => false
  end.
Theorem C91_recorded_refuted : exists h r s d c d', mapped 8192 shipped /\ api_run 8192 h r s /\ map fst h = overlap_calls /\
  py_open (trace_file 8192 r) = Ok d /\ compress copy_all_of (trace_file 8192 r) = Ok c /\ py_open c = Ok d' /\
  map fst (td_fd_headers d) = [([], [[97; 98; 99; 100; 101; 102; 103; 104]])] /\
  map fst (td_fd_headers d') = [([], [[97; 98; 99; 100; 101; 102; 0; 0]])].
Proof.
  destruct (demo_run 8192 overlap_calls (fun h r s => twice_check copy_all_of overlap_check (trace_file 8192 r))) as (h & r & s & R & C & T); [vm_compute; reflexivity|].
  destruct (twice_check_ok _ _ _ T) as (d & c & d' & E1 & E2 & E3 & K). exists h, r, s, d, c, d'.
  split; [split; vm_compute; reflexivity|]. split; [exact R|]. split; [exact C|]. split; [exact E1|]. split; [exact E2|]. split; [exact E3|].
  clear - K. unfold overlap_check in K.
  destruct (map fst (td_fd_headers d)) as [|p [|p2 l]]; try discriminate. destruct (map fst (td_fd_headers d')) as [|q [|q2 l']]; try discriminate.
  apply andb_true_iff in K as [T1 T2]. apply path_eqb_eq in T1, T2. now subst.
Qed.

(** A run whose file is kept if each copy is complete: eight bytes of names. *)
Definition kept_calls : list call :=
  [COpen 3 [97; 98; 99; 100; 101; 102] None; CReadMem 3 1000 None 3; CUnion 1 2; CWriteMem 3 None 1001 1].

(** The system call may copy less than it is asked to; the tool does not look.  Here it
    copies at most sixteen bytes, and the result has other labels. *)
Definition copy_sixteen (n : N) : N := N.min n 16.
Definition labels_check (d d' : tdfile) : bool :=
  match py_by_type (td_sections d) 2, py_by_type (td_sections d') 2 with Ok a, Ok b => negb (list_eqb N.eqb a b) | _, _ => false end.
Theorem C91_short_copy_refuted : exists h r s d c d', mapped 8192 shipped /\ api_run 8192 h r s /\ map fst h = kept_calls /\
  py_open (trace_file 8192 r) = Ok d /\ compress copy_sixteen (trace_file 8192 r) = Ok c /\ py_open c = Ok d' /\
  py_by_type (td_sections d) 2 <> py_by_type (td_sections d') 2.
Proof.
  destruct (demo_run 8192 kept_calls (fun h r s => twice_check copy_sixteen labels_check (trace_file 8192 r))) as (h & r & s & R & C & T); [vm_compute; reflexivity|].
  destruct (twice_check_ok _ _ _ T) as (d & c & d' & E1 & E2 & E3 & K). exists h, r, s, d, c, d'.
  split; [split; vm_compute; reflexivity|]. split; [exact R|]. split; [exact C|]. split; [exact E1|]. split; [exact E2|]. split; [exact E3|].
  clear - K. unfold labels_check in K.
  destruct (py_by_type (td_sections d) 2) as [a| | |]; try discriminate. destruct (py_by_type (td_sections d') 2) as [b| | |]; try discriminate.
  intros X. injection X as ->. assert (Y : list_eqb N.eqb b b = true); [|rewrite Y in K; discriminate].
  clear. induction b as [|x b IH]; [reflexivity|]. cbn [list_eqb]. now rewrite N.eqb_refl, IH.
Qed.

Definition kept_check (f : file) : bool :=
  match py_open f with
  | Ok d => match py_by_type (td_sections d) 3 with Ok names => len names =? 8 | _ => false end &&
            (fold_right N.add 0 (map (fun q => len (snd q)) (td_sections d)) <? 290)
  | _ => false
  end.
Lemma kept_check_ok f : kept_check f = true -> exists d names, py_open f = Ok d /\ py_by_type (td_sections d) 3 = Ok names /\ len names = 8 /\
  fold_right N.add 0 (map (fun q => len (snd q)) (td_sections d)) < 290.
Proof.
  unfold kept_check. destruct (py_open f) as [d| | |]; try discriminate. intros T. apply andb_true_iff in T as [T1 T2].
  destruct (py_by_type (td_sections d) 3) as [names| | |] eqn:E2; try discriminate. apply N.eqb_eq in T1. apply N.ltb_lt in T2. eauto 8.
Qed.

(** The hypotheses of C91_recorded_partial are met by a run that reads, combines and writes. *)
Example C91_case : exists h r s d names, mapped 8192 shipped /\ api_run 8192 h r s /\ map fst h = kept_calls /\
  py_open (trace_file 8192 r) = Ok d /\ py_by_type (td_sections d) 3 = Ok names /\ len names = 8 /\
  exists c, compress copy_all_of (trace_file 8192 r) = Ok c /\ py_open c = Ok d /\ f_len c < 500 /\ 2 ^ 35 < f_len (trace_file 8192 r).
Proof.
  destruct (demo_run 8192 kept_calls (fun h r s => kept_check (trace_file 8192 r))) as (h & r & s & R & C & T); [vm_compute; reflexivity|].
  destruct (kept_check_ok _ T) as (d & names & E1 & E2 & T1 & T2).
  assert (M : mapped 8192 shipped) by (split; vm_compute; reflexivity).
  exists h, r, s, d, names. split; [exact M|]. split; [exact R|]. split; [exact C|]. split; [exact E1|]. split; [exact E2|]. split; [exact T1|].
  destruct (C91_recorded_partial 8192 h r s copy_all_of d names M R E1 E2) as (c & K1 & K2 & K3); [left; rewrite T1; reflexivity|reflexivity|].
  exists c. split; [exact K1|]. split; [exact K2|]. split; [|vm_compute; reflexivity].
  apply N.le_lt_trans with (1 := K3). apply N.lt_le_trans with (202 + 290); [apply N.add_lt_mono_l; exact T2|discriminate].
Qed.

Print Assumptions C91_compress_partial.
Print Assumptions C91_aligned.
Print Assumptions C91_recorded_partial.
Print Assumptions C91_recorded_refuted.
Print Assumptions C91_short_copy_refuted.
Print Assumptions C91_case.
