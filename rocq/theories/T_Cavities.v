(** C32: file cavities, as computed from the trace file of any run.  The vocabulary is in
    S_Cavities and S_Api. *)
From Coq Require Import NArith ZArith List Bool Lia Sorted.
From Verif Require Import M_Base M_Encoding M_Labels M_PyNode M_PySections M_PyFile M_PyAnalysis M_OutputFile M_Api S_Provenance S_Labels S_Strings S_OutputFile
  S_Api S_PyAnalysis S_History S_Cavities P_Base P_Labels P_PyNode P_History P_ApiMem P_Api P_ApiFile P_PyAnalysis P_ApiRun P_ApiDemo P_Forest P_Cavities T_Api T_Forest.
Import ListNotations.
Open Scope N_scope.

(** The result has one entry per path that was read.  The ranges of a path are the maximal
    runs of offsets that are inside every registration of the path that was read, and that
    no registration of the path used. *)
Theorem C32_cavities : forall base h r s paths fnames d, opened_trace base h r s paths fnames d ->
  exists fuel0 res, (forall fuel, (fuel0 <= fuel)%nat -> file_cavities fuel d = Ok res) /\
    NoDup (map fst res) /\
    (forall p, In p (map fst res) <-> exists i, was_read s i /\ path_at paths i p) /\
    forall p rs, In (p, rs) res ->
      maximal_runs (fun o => (forall i, was_read s i -> path_at paths i p -> inside s i o) /\
                            (forall i, path_at paths i p -> ~ used s i o)) rs.
Proof.
  facts. assert (I0 := reachable_inv _ (ai_tr _ _ _ _ A)). assert (Dec := op_dec _ _ _ _ _ _ _ O).
  set (size := fun i => match get (a_regs s) i with Some q => reg_size q | None => None end).
  assert (T1'' := T1' _ _ _ _ _ R T1).
  assert (Fd : forall l cf i o, view (r_tab r) l = Some (TSource cf i o) -> exists hd, td_fd_header d i = Ok hd /\
      size i = if fd_invalid_size (snd hd) then None else Some (fd_size (snd hd))).
  { intros l cf i o V. destruct (source_reg base r s g l cf i o A V) as (_ & L & _).
    destruct (header_at r s g d paths fnames bits i O T1'' L) as (q & text & hd & Gq & _ & Hd & _ & Sz).
    exists (py_path_of text, hd). split; [exact Hd|]. cbn [snd]. unfold size. rewrite Gq. unfold fd_invalid_size. rewrite Sz. unfold recorded_size.
    destruct (reg_size q) as [n|] eqn:Sn; [|reflexivity]. assert (Q := ai_regs _ _ _ _ A). rewrite Forall_forall in Q.
    assert (Rq : reg_ok q) by (apply Q; unfold get in Gq; now apply nth_error_In in Gq). apply (proj2 Rq) in Sn.
    destruct (N.eqb_spec n 18446744073709551615); [change (2 ^ 64 - 1) with 18446744073709551615 in Sn; lia|reflexivity]. }
  destruct (sources_spec d (r_tab r) size Dec Fd bits [] (fun _ _ => False) (fun _ => False)) as (ms0 & E0 & Mk0).
  { constructor; cbn [map]; try (intros; discriminate); try contradiction; [constructor|]. intros i. split; [intros (m & H); discriminate|intros (o & [])]. }
  { intros l Hl. now apply (op_bits _ _ _ _ _ _ _ O). }
  set (P := fun i o => exists l cf, view (r_tab r) l = Some (TSource cf i o)).
  assert (Mk0' : marks size ms0 P (cf_byte (r_tab r))).
  { eapply marks_ext; [| |exact Mk0].
    - intros i o. unfold P. split; [intros [[]|(l & cf & _ & V)]; eauto|]. intros (l & cf & V). right. exists l, cf. split; [|exact V]. apply (op_bits _ _ _ _ _ _ _ O). eauto.
    - intros b. unfold cf_byte. split; [intros [[]|(l & _ & V)]; eauto|]. intros (l & V). right. exists l. split; [|exact V]. apply (op_bits _ _ _ _ _ _ _ O). eauto. }
  assert (Out := ai_out _ _ _ _ A).
  destruct (sinks_spec d (r_tab r) size I0 Dec Fd P (fun i o => iff_refl _) (map sink_of (g_recs g))) with (K0 := cf_byte (r_tab r)) (seen := @nil N) (ms := ms0)
    as (F & ms & Run & Mk); [|auto|exact Mk0'|intros x []|].
  { apply Forall_forall. intros k Hk. apply in_map_iff in Hk as ([[[pad o] l] i] & <- & Hk).
    destruct (Forall2_in_l _ _ _ _ Out Hk) as ([[i' o'] bs] & _ & (-> & -> & U & _)). exact U. }
  set (path := fun i => match td_fd_header d i with Ok hd => fst hd | _ => ([], []) end).
  assert (Pth : forall i, i < len (a_regs s) -> forall p, path_at paths i p <-> path i = p).
  { intros i L p. destruct (header_at r s g d paths fnames bits i O T1'' L) as (q & text & hd & Gq & Gt & Hd & _). unfold path. rewrite Hd. cbn [fst].
    unfold path_at. split; [intros (tx & Gt' & ->); congruence|]. intros <-. eauto. }
  assert (Pr : forall i, (exists o, P i o) <-> was_read s i).
  { intros i. split.
    - intros (o & l & cf & V). exists l, o. apply (source_reg _ _ _ _ _ _ _ _ A V).
    - intros (l & o & Hb). assert (U : in_use (r_tab r) l) by (apply (proj1 (ai_lab _ _ _ _ A)); intros Q; rewrite Q in Hb; exact Hb).
      apply (proj2 (ai_lab _ _ _ _ A) l _ U) in Hb as (k & cf & _ & V). exists o, k, cf. exact V. }
  assert (Po : forall i o, P i o <-> exists l, In (i, o) (a_lab s l)).
  { intros i o. split.
    - intros (l & cf & V). exists l. apply (source_reg _ _ _ _ _ _ _ _ A V).
    - intros (l & Hb). assert (U : in_use (r_tab r) l) by (apply (proj1 (ai_lab _ _ _ _ A)); intros Q; rewrite Q in Hb; exact Hb).
      apply (proj2 (ai_lab _ _ _ _ A) l _ U) in Hb as (k & cf & _ & V). exists k, cf. exact V. }
  assert (Lt : forall i, was_read s i -> i < len (a_regs s)).
  { intros i (l & o & Hb). exact (proj1 (ai_byt _ _ _ _ A _ _ Hb)). }
  destruct Mk as [M1 M2 M3 M4 M5].
  assert (InMs : forall k m, In (k, m) ms <-> nget ms k = Some m).
  { assert (X : forall (l : markers_t), NoDup (map fst l) -> forall k m, In (k, m) l <-> nget l k = Some m).
    { unfold nget. induction l as [|[k0 m0] l IHl]; cbn [map fst dict_get]; intros Nd k m; [split; [intros []|discriminate]|].
      inversion Nd as [|? ? N1 N2]; subst. destruct (N.eqb_spec k0 k) as [->|Ne].
      - split; [intros [E1|E1]; [congruence|exfalso; apply N1; change k with (fst (k, m)); now apply in_map]|intros E1; left; congruence].
      - rewrite <- (IHl N2). split; [intros [E1|E1]; [congruence|exact E1]|now right]. }
    now apply X. }
  destruct (merge_spec d path ms) with (mg := @nil (py_path * list N)) (done := @nil (N * list N)) as (mg & Em & Mi).
  { intros k m Hin. apply InMs in Hin. destruct (proj1 (M2 k)) as (o & l & cf & V); [eauto|]. destruct (Fd l cf k o V) as (hd & Hd & _).
    exists hd. split; [exact Hd|]. unfold path. now rewrite Hd. }
  { constructor; cbn [map dict_get]; try (intros; discriminate); [constructor|]. intros p. split; [congruence|intros (k & m & [] & _)]. }
  rewrite app_nil_l in Mi. destruct Mi as [G1 G2 G3 G4].
  exists F, (map (fun kv => (fst kv, marker_to_ranges (snd kv))) mg). split; [|split; [|split]].
  - intros fuel Hf. unfold file_cavities. rewrite (op_labels _ _ _ _ _ _ _ O). cbn [bind]. rewrite E0. cbn [bind].
    rewrite (op_sinks _ _ _ _ _ _ _ O). cbn [bind]. rewrite Run by exact Hf. cbn [bind]. rewrite Em. reflexivity.
  - rewrite map_map. cbn [fst]. exact G1.
  - intros p. rewrite map_map. cbn [fst]. rewrite <- (dict_in path_eqb path_eqb_iff), G2. split.
    + intros (k & m & Hin & Ep). apply InMs in Hin. exists k. assert (Wr : was_read s k) by (apply Pr, M2; eauto). split; [exact Wr|]. apply Pth; auto.
    + intros (i & Wr & Pa). assert (L := Lt i Wr). apply Pr, M2 in Wr as (m & Gm). exists i, m. split; [now apply InMs|]. now apply Pth.
  - intros p rs Hin. apply in_map_iff in Hin as ([p' v] & E & Hin). cbn [fst snd] in E. inversion E; subst p' rs. clear E.
    assert (Gv : dict_get path_eqb mg p = Some v).
    { clear - G1 Hin. induction mg as [|[k0 m0] l IHl]; cbn [map fst dict_get] in *; [destruct Hin|]. inversion G1 as [|? ? N1 N2]; subst.
      destruct Hin as [E|Hin]; [inversion E; subst; now rewrite (proj2 (path_eqb_iff p p) eq_refl)|].
      destruct (path_eqb k0 p) eqn:E; [apply path_eqb_iff in E; subst; exfalso; apply N1; change p with (fst (p, v)); now apply in_map|auto]. }
    destruct (marker_runs v) as [Ap Cov]. split; [exact Ap|]. intros o. rewrite Cov.
    assert (HL := G3 p v Gv o). assert (HV := G4 p v o).
    assert (Ins : forall k m, nget ms k = Some m -> (o < len m <-> inside s k o)).
    { intros k m Gm. rewrite (M3 k m Gm). unfold inside, size. split.
      - intros [(n & Sn & Ln)|(o' & Pk & Lo)].
        + left. destruct (get (a_regs s) k) as [q|] eqn:Gq; [|discriminate]. exists q, n. auto.
        + right. apply Po in Pk as (l & Hl). exists l, o'. auto.
      - intros [(q & n & Gq & Sn & Ln)|(l & o' & Hl & Lo)].
        + left. rewrite Gq. eauto.
        + right. exists o'. split; [apply Po; eauto|exact Lo]. }
    assert (Usd : forall k m y, nget ms k = Some m -> get m o = Some y -> (y <> 0 <-> used s k o)).
    { intros k m y Gm Gy. rewrite (M4 k m o y Gm Gy). unfold used. split.
      - intros [(l & V)|(k' & Hk & Dv)].
        + left. apply (ai_cf _ _ _ _ A). exists l. exact V.
        + right. apply in_map_iff in Hk as ([[[pad pos] l] j] & <- & Hk).
          destruct (Forall2_in_l _ _ _ _ Out Hk) as ([[j' pos'] bs] & Ho & (-> & -> & U & Sm & _)). cbn [sink_of sk_label] in *.
          exists j', pos', bs. split; [exact Ho|]. apply Sm. apply (proj2 (ai_lab _ _ _ _ A)); assumption.
      - intros [Hc|(j & pos & bs & Ho & Hb)].
        + left. apply (ai_cf _ _ _ _ A) in Hc as (l & V). exists l. exact V.
        + right. destruct (Forall2_in_r _ _ _ _ Out Ho) as ([[[pad pos'] l] j'] & Hk & (-> & -> & U & Sm & _)).
          exists (sink_of (pad, pos, l, j)). split; [apply in_map_iff; exists (pad, pos, l, j); auto|]. cbn [sink_of sk_label].
          apply (proj2 (ai_lab _ _ _ _ A)); [exact U|]. now apply Sm. }
    split.
    + intros G0. assert (L : o < len v) by (now apply get_some in G0). split.
      * intros i Wr Pa. assert (Li := Lt i Wr). apply Pr, M2 in Wr as (m & Gm). apply (Ins i m Gm). apply (proj1 HL L i m); [now apply InMs|]. now apply Pth.
      * intros i Pa Us. assert (Wr : was_read s i).
        { destruct Us as [Hc|(j & pos & bs & Ho & Hb)].
          - apply (ai_cf _ _ _ _ A) in Hc as (l & V). cbn [fst snd] in V. exists l, o. apply (source_reg _ _ _ _ _ _ _ _ A V).
          - destruct (Forall2_in_r _ _ _ _ Out Ho) as ([[[pad pos'] l] j'] & Hk & (-> & -> & U & Sm & _)). exists l, o. now apply Sm. }
        assert (Li := Lt i Wr). apply Pr, M2 in Wr as (m & Gm). assert (Pi : path i = p) by now apply Pth.
        assert (Lm : o < len m) by (apply (proj1 HL L i m); [now apply InMs|exact Pi]). destruct (get_lt m o Lm) as (y & Gy).
        apply (proj2 (HV 0 Gv G0)); [|reflexivity]. exists i, m, y. split; [now apply InMs|]. split; [exact Pi|]. split; [exact Gy|]. now apply (Usd i m y Gm Gy).
    + intros [Hin' Hun]. assert (L : o < len v).
      { apply HL. intros k m Hk Hp. apply InMs in Hk. apply (Ins k m Hk). assert (Wr : was_read s k) by (apply Pr, M2; eauto).
        apply Hin'; [exact Wr|]. apply Pth; auto. }
      destruct (get_lt v o L) as (x & Gx). rewrite Gx. f_equal. destruct (N.eq_dec x 0) as [->|Nx]; [reflexivity|exfalso].
      apply (HV x Gv Gx) in Nx as (k & m & y & Hk & Hp & Gy & Ny). apply InMs in Hk. assert (Wr : was_read s k) by (apply Pr, M2; eauto).
      apply (Hun k); [apply Pth; auto|]. now apply (Usd k m y Hk Gy).
Qed.

(** A file that was registered once, with a size that covers all reads: the cavities are the
    maximal runs of unused offsets below the size. *)
Theorem C32_single_registration : forall base h r s paths fnames d, opened_trace base h r s paths fnames d ->
  forall i p g n, was_read s i -> path_at paths i p -> (forall j, path_at paths j p -> j = i) ->
  get (a_regs s) i = Some g -> reg_size g = Some n -> (forall l o, In (i, o) (a_lab s l) -> o < n) ->
  exists fuel0 res rs, (forall fuel, (fuel0 <= fuel)%nat -> file_cavities fuel d = Ok res) /\ In (p, rs) res /\
    (forall rs', In (p, rs') res -> rs' = rs) /\
    maximal_runs (fun o => o < n /\ ~ used s i o) rs.
Proof.
  intros base h r s paths fnames d Ot i p q n Wr Pa One Gq Sn Rd.
  destruct (C32_cavities _ _ _ _ _ _ _ Ot) as (F & res & Run & Nd & Keys & Runs).
  assert (Hp : In p (map fst res)) by (apply Keys; eauto). apply in_map_iff in Hp as ([p' rs] & E & Hp). cbn [fst] in E. subst p'.
  exists F, res, rs. split; [exact Run|]. split; [exact Hp|]. split.
  - intros rs' Hp'. clear - Nd Hp Hp'. induction res as [|[k v] res IH]; [destruct Hp|]. cbn [map fst] in Nd. inversion Nd as [|? ? N1 N2]; subst.
    destruct Hp as [E|Hp], Hp' as [E'|Hp']; [congruence| | |auto]; exfalso; apply N1.
    + inversion E; subst. change p with (fst (p, rs')). now apply in_map.
    + inversion E'; subst. change p with (fst (p, rs)). now apply in_map.
  - destruct (Runs p rs Hp) as [Ap Cov]. split; [exact Ap|]. intros o. rewrite Cov. split.
    + intros [H1 H2]. split; [|now apply H2]. destruct (H1 i Wr Pa) as [(q' & n' & Gq' & Sn' & L)|(l & o' & Hl & L)]; [congruence|]. apply Rd in Hl. lia.
    + intros [L Nu]. split.
      * intros j _ Pj. rewrite (One j Pj). left. eauto.
      * intros j Pj. now rewrite (One j Pj).
Qed.

(** ** Two registrations of one file *)
(** The file "a" is opened with size 3, then again with size 10; one byte is read each time
    and nothing is used. *)
Definition twice_calls : list call :=
  [COpen 3 [97] (Some 3); CReadVal 3 None 1; COpen 4 [97] (Some 10); CReadVal 4 None 1].
Definition pair_eqb (x y : N * N) : bool := (fst x =? fst y) && (snd x =? snd y).
Definition res_eqb (x y : list (py_path * list (N * N))) : bool :=
  list_eqb (fun a b => path_eqb (fst a) (fst b) && list_eqb pair_eqb (snd a) (snd b)) x y.
Lemma pair_eqb_eq x y : pair_eqb x y = true -> x = y.
Proof. unfold pair_eqb. intros H. apply andb_true_iff in H as [H1 H2]. apply N.eqb_eq in H1, H2. destruct x, y; cbn [fst snd] in *. congruence. Qed.
Lemma res_eqb_eq x y : res_eqb x y = true -> x = y.
Proof.
  apply list_eqb_eq. intros [p rs] [q rs'] H. cbn [fst snd] in H. apply andb_true_iff in H as [H1 H2]. apply path_eqb_iff in H1.
  apply list_eqb_eq in H2; [congruence|exact pair_eqb_eq].
Qed.
Definition cavity_check (r : rt) (expected : list (py_path * list (N * N))) : bool :=
  match py_open (trace_file 8192 r) with
  | Ok d => match file_cavities 100 d with Ok res => res_eqb res expected | _ => false end
  | _ => false
  end.
Lemma cavity_check_opens r expected : cavity_check r expected = true -> exists d, py_open (trace_file 8192 r) = Ok d /\
  exists fuel, file_cavities fuel d = Ok expected.
Proof.
  unfold cavity_check. destruct (py_open (trace_file 8192 r)) as [d| | |]; try discriminate. intros H. exists d. split; [reflexivity|].
  exists 100%nat. destruct (file_cavities 100 d) as [res| | |]; try discriminate H. apply res_eqb_eq in H. now rewrite H.
Qed.
Definition reg_sizes (s : ast) : list N := map (fun g => match reg_size g with Some n => n | None => 0 end) (a_regs s).

(** "Every unused byte below the size of some registration of the file is in a cavity" does
    not hold: byte 5 is inside the second registration and unused, but is not reported. *)
Theorem C32_several_sizes_refuted :
  exists base h r s paths fnames d fuel res i o p,
    opened_trace base h r s paths fnames d /\ file_cavities fuel d = Ok res /\
    was_read s i /\ path_at paths i p /\ inside s i o /\ (forall j, path_at paths j p -> ~ used s j o) /\
    forall rs a b, In (p, rs) res -> In (a, b) rs -> ~ a <= o < b.
Proof.
  destruct (demo_run 8192 twice_calls (fun h r s => cavity_check r [(py_path_of [97], [(0, 3)])] &&
     list_eqb (list_eqb N.eqb) (map reg_name (registered h)) [[97]; [97]] &&
     list_eqb (list_eqb N.eqb) (a_names s) [] &&
     (list_eqb N.eqb (reg_sizes s) [3; 10] && list_eqb pair_eqb (a_lab s 2) [(1, 0)] && (len (a_cf s) =? 0) && (len (a_out s) =? 0)))) as (h & r & s & R & C & T).
  { vm_compute. reflexivity. }
  apply andb_true_iff in T as [T T3]. apply andb_true_iff in T as [T T2]. apply andb_true_iff in T as [T T1].
  apply names_eqb_eq in T1, T2. destruct (cavity_check_opens r _ T) as (d & E & fuel & Ec).
  apply andb_true_iff in T3 as [T3 Eo]. apply andb_true_iff in T3 as [T3 Ecf]. apply andb_true_iff in T3 as [Er El].
  apply list_eqb_eq in Er; [|intros x y; apply N.eqb_eq]. apply list_eqb_eq in El; [|exact pair_eqb_eq].
  assert (Z : forall {A} (l : list A), (len l =? 0) = true -> l = []) by (intros B [|x l] H; [reflexivity|discriminate H]).
  apply Z in Eo, Ecf. clear Z.
  exists 8192, h, r, s, [[97]; [97]], [], d, fuel, [(py_path_of [97], [(0, 3)])], 1, 5, (py_path_of [97]).
  split; [|split; [exact Ec|split; [|split; [|split; [|split]]]]].
  - split; [split; vm_compute; reflexivity|]. split; [exact R|]. rewrite T1, T2.
    split; [|split; [constructor|exact E]]. repeat (apply Forall2_cons || apply Forall2_nil); (split; [repeat (apply Forall_cons || apply Forall_nil); unfold scalar; lia|reflexivity]).
  - exists 2, 0. rewrite El. now left.
  - exists [97]. split; reflexivity.
  - left. unfold reg_sizes in Er. destruct (a_regs s) as [|g0 [|[nm fd sz] [|]]]; try discriminate Er. exists (mkReg nm fd sz), 10.
    cbn [map reg_size] in *. split; [reflexivity|]. split; [destruct sz; congruence|lia].
  - intros j _ [H|(j' & pos & bs & H & _)]; [rewrite Ecf in H|rewrite Eo in H]; destruct H.
  - intros rs a b [Ea|[]] Hab. inversion Ea; subst. destruct Hab as [Eb|[]]. inversion Eb; subst. lia.
Qed.

(** ** A concrete run *)
(** A file of 10 bytes: bytes 0-3 are read, bytes 0 and 1 affect control flow, byte 3 is
    written; cavities are 2 and 4-9. *)
Definition cavity_calls : list call :=
  [COpen 3 [97] (Some 10); CReadMem 3 1000 None 4; CUnion 1 2; CAffects 5; COpen 5 [111] None; CWriteMem 5 None 1003 1].
Example C32_case : exists h r s, api_run 8192 h r s /\ map fst h = cavity_calls /\ cavity_check r [(py_path_of [97], [(2, 3); (4, 10)])] = true /\
  map reg_name (registered h) = [[97]; [111]] /\ a_names s = [].
Proof.
  destruct (demo_run 8192 cavity_calls (fun h r s => cavity_check r [(py_path_of [97], [(2, 3); (4, 10)])] &&
     list_eqb (list_eqb N.eqb) (map reg_name (registered h)) [[97]; [111]] && list_eqb (list_eqb N.eqb) (a_names s) [])) as (h & r & s & R & C & T).
  - vm_compute. reflexivity.
  - apply andb_true_iff in T as [T T2]. apply andb_true_iff in T as [T T1]. apply names_eqb_eq in T1, T2. exists h, r, s. auto.
Qed.

Print Assumptions C32_cavities.
Print Assumptions C32_single_registration.
Print Assumptions C32_several_sizes_refuted.
