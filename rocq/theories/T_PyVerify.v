(** C113: the verification of a file whose cavities were all mutated.  C114: the summary of many
    verifications. *)
From Coq Require Import NArith ZArith QArith List Bool Lia.
From Verif Require Import M_Base M_PyMutate M_PyVerify S_Verify P_Base P_PyVerify.
Import ListNotations.
Local Open Scope Z_scope.

(** C113.  "OK" is reported exactly if there is an output of the original file, some cavity was
    mutated, and the tool makes an output of the mutated file with the same checksum; "checksums
    differ" and "did not generate output" likewise; no file but the mutated one and its output is
    touched.  (Missing: inputs without an extension, and outputs left from an earlier run; for
    both the claim is false.) *)
Theorem C113_verdict_partial : forall checksum tool ext d nm base sfx data csv m limit skip,
  named nm base sfx -> extension ext -> sfx <> ext ->
  let mutated_name := base ++ mut_tag ++ method_name m in
  d (mutated_name ++ ext) = None ->
  let '(lines, d') := verify_cavities checksum tool ext d nm data csv m limit skip in
  let ran_on mutated orig :=
    d (base ++ ext) = Some orig /\ orig <> [] /\ mutate_cavities data nm csv m limit skip = Some mutated /\
    checksum data <> checksum mutated in
  (In LOk lines <-> exists mutated orig o, ran_on mutated orig /\ ran_output (tool mutated) = Some o /\ checksum o = checksum orig) /\
  (In LDiffer lines <-> exists mutated orig o, ran_on mutated orig /\ ran_output (tool mutated) = Some o /\ checksum o <> checksum orig) /\
  (In LNoOutput lines <-> exists mutated orig, ran_on mutated orig /\ ran_output (tool mutated) = None) /\
  (In LTimeout lines <-> exists mutated orig, ran_on mutated orig /\ ran_code (tool mutated) = 124) /\
  (forall x, x <> mutated_name ++ sfx -> x <> mutated_name ++ ext -> d' x = d x).
Proof.
  intros checksum tool ext d nm base sfx data csv m limit skip Nm Ex Ne mn Old.
  assert (B : base <> []) by (destruct Nm as (_ & B & _); exact B).
  assert (Es : extension sfx) by (destruct Nm as (_ & _ & E); exact E).
  unfold verify_cavities. unfold target_path.
  rewrite (stem_named _ _ _ Nm), (suffix_named _ _ _ Nm). unfold result_file.
  rewrite (stem_named _ _ _ Nm).
  rewrite (stem_named _ _ _ (named_target base sfx m B Es)).
  replace ((base ++ mut_tag ++ method_name m) ++ ext) with (mn ++ ext) by reflexivity.
  assert (N1 : mn ++ ext <> base ++ mut_tag ++ method_name m ++ sfx).
  { unfold mn. rewrite <- !app_assoc. intros H. do 3 apply app_inv_head in H. congruence. }
  assert (N2 : base ++ ext <> base ++ mut_tag ++ method_name m ++ sfx) by now apply two_dots.
  assert (N3 : base ++ ext <> mn ++ ext).
  { unfold mn. rewrite <- !app_assoc. apply tag_grows. }
  assert (N4 : base ++ mut_tag ++ method_name m ++ sfx = mn ++ sfx) by (unfold mn; now rewrite <- !app_assoc).
  rewrite N4 in *.
  destruct (d (base ++ ext)) as [[|x orig]|] eqn:Do.
  - (* empty *) cbv zeta. split; [|split; [|split; [|split]]]; try reflexivity;
      (split; [cbn; intros [H|[]]; discriminate|]).
    + intros (mu & og & o & (H1 & H2 & _) & _). congruence.
    + intros (mu & og & o & (H1 & H2 & _) & _). congruence.
    + intros (mu & og & (H1 & H2 & _) & _). congruence.
    + intros (mu & og & (H1 & H2 & _) & _). congruence.
  - destruct (mutate_cavities data nm csv m limit skip) as [mu|] eqn:Mu.
    2:{ cbv zeta. split; [|split; [|split; [|split]]]; try reflexivity;
      (split; [cbn; intros [H|[]]; discriminate|]).
      - intros (mu & og & o & (H1 & H2 & H3 & _) & _). congruence.
      - intros (mu & og & o & (H1 & H2 & H3 & _) & _). congruence.
      - intros (mu & og & (H1 & H2 & H3 & _) & _). congruence.
      - intros (mu & og & (H1 & H2 & H3 & _) & _). congruence. }
    destruct (N.eqb_spec (checksum data) (checksum mu)) as [Eq|Nq].
    { cbv zeta. split; [|split; [|split; [|split]]];
      [| | | |intros; now apply put_other]; (split; [cbn; intros [H|[]]; discriminate|]).
      - intros (mu' & og & o & (H1 & H2 & H3 & H4) & _). congruence.
      - intros (mu' & og & o & (H1 & H2 & H3 & H4) & _). congruence.
      - intros (mu' & og & (H1 & H2 & H3 & H4) & _). congruence.
      - intros (mu' & og & (H1 & H2 & H3 & H4) & _). congruence. }
    set (w := (if is_timeout (tool mu) then [LTimeout] else []) ++ (if is_failure (tool mu) then [LFailure] else [])).
    assert (Wt : In LTimeout w <-> ran_code (tool mu) = 124).
    { unfold w, is_timeout, is_failure, is_timeout. destruct (Z.eqb_spec (ran_code (tool mu)) 124) as [E|E]; cbn [negb andb].
      - split; [auto|]. intros _. now left.
      - split; [|contradiction]. cbn [app]. destruct (existsb (Z.eqb (ran_code (tool mu))) [125; 126; 127]); cbn; [intros [H|[]]; discriminate|intros []]. }
    assert (Wo : forall y, y = LOk \/ y = LDiffer \/ y = LNoOutput -> ~ In y w).
    { intros y Y I. apply warnings_only in I. destruct I as [->| ->], Y as [Y|[Y|Y]]; discriminate. }
    assert (R : forall mu' og, (Some (x :: orig) = Some og /\ og <> [] /\ Some mu = Some mu' /\ checksum data <> checksum mu') <-> mu' = mu /\ og = x :: orig).
    { intros mu' og. split; [intros (H1 & _ & H2 & _); split; congruence|]. intros [-> ->]. repeat split; congruence. }
    assert (Tm : forall z, In LTimeout (w ++ [z]) <-> In LTimeout w \/ z = LTimeout).
    { intros z. rewrite in_app_iff. cbn. intuition. }
    destruct (ran_output (tool mu)) as [o|] eqn:Ro.
    + rewrite put_same. rewrite put_other by exact N3. rewrite put_other by exact N2. rewrite Do.
      assert (Fr : forall y, y <> mn ++ sfx -> y <> mn ++ ext -> put (put d (mn ++ sfx) mu) (mn ++ ext) o y = d y).
      { intros y Y1 Y2. rewrite put_other by exact Y2. now apply put_other. }
      destruct (N.eqb_spec (checksum (x :: orig)) (checksum o)) as [Q|Q]; cbv zeta.
      * rewrite !in_last by (apply Wo; auto). rewrite Tm, Wt. split; [|split; [|split; [|split]]]; [| | | |exact Fr].
        -- split; [|reflexivity]. intros _. exists mu, (x :: orig), o. rewrite R. auto.
        -- split; [discriminate|]. intros (mu' & og & o' & H & H2 & H3). apply R in H. destruct H as [-> ->]. rewrite Ro in H2. congruence.
        -- split; [discriminate|]. intros (mu' & og & H & H2). apply R in H. destruct H as [-> ->]. congruence.
        -- split; [intros [H|H]; [|discriminate]; exists mu, (x :: orig); rewrite R; auto|].
           intros (mu' & og & H & H2). apply R in H. destruct H as [-> ->]. auto.
      * rewrite !in_last by (apply Wo; auto). rewrite Tm, Wt. split; [|split; [|split; [|split]]]; [| | | |exact Fr].
        -- split; [discriminate|]. intros (mu' & og & o' & H & H2 & H3). apply R in H. destruct H as [-> ->]. rewrite Ro in H2. congruence.
        -- split; [|reflexivity]. intros _. exists mu, (x :: orig), o. rewrite R. auto.
        -- split; [discriminate|]. intros (mu' & og & H & H2). apply R in H. destruct H as [-> ->]. congruence.
        -- split; [intros [H|H]; [|discriminate]; exists mu, (x :: orig); rewrite R; auto|].
           intros (mu' & og & H & H2). apply R in H. destruct H as [-> ->]. auto.
    + rewrite put_other by exact N1. rewrite Old. cbv zeta.
      rewrite !in_last by (apply Wo; auto). rewrite Tm, Wt. split; [|split; [|split; [|split]]].
      -- split; [discriminate|]. intros (mu' & og & o' & H & H2 & H3). apply R in H. destruct H as [-> ->]. congruence.
      -- split; [discriminate|]. intros (mu' & og & o' & H & H2 & H3). apply R in H. destruct H as [-> ->]. congruence.
      -- split; [|reflexivity]. intros _. exists mu, (x :: orig). rewrite R. auto.
      -- split; [intros [H|H]; [|discriminate]; exists mu, (x :: orig); rewrite R; auto|].
           intros (mu' & og & H & H2). apply R in H. destruct H as [-> ->]. auto.
      -- intros y Y1 Y2. now apply put_other.
  - cbv zeta. split; [|split; [|split; [|split]]]; try reflexivity;
      (split; [cbn; intros [H|[]]; discriminate|]).
    + intros (mu & og & o & (H1 & H2 & _) & _). congruence.
    + intros (mu & og & o & (H1 & H2 & _) & _). congruence.
    + intros (mu & og & (H1 & H2 & _) & _). congruence.
    + intros (mu & og & (H1 & H2 & _) & _). congruence.
Qed.
Print Assumptions C113_verdict_partial.

(** A tool that copies its input up to the first byte 9, and fails on files that hold a 0; the
    output's extension is ".o", the input is "a.i". *)
Fixpoint upto9 (l : list N) : list N := match l with [] => [] | x :: r => if (x =? 9)%N then [] else x :: upto9 r end.
Definition demo_tool (l : list N) : ran := if existsb (N.eqb 0) l then mkRan 1 None else mkRan 0 (Some (upto9 l)).
Definition demo_sum (l : list N) : N := fold_left (fun a x => (a * 256 + x)%N) l 1%N.
Definition nm_ai : name := [97; 46; 105]%N.
Definition ext_o : name := [46; 111]%N.
Definition demo_data : list N := [1; 2; 9; 255; 4]%N.
Definition demo_dir : dir := put (fun _ => None) [97; 46; 111]%N [1; 2]%N.
Example C113_case :
  named nm_ai [97]%N [46; 105]%N /\ extension ext_o /\
  fst (verify_cavities demo_sum demo_tool ext_o demo_dir nm_ai demo_data [(nm_ai, 4, 4)] MFlip (-1) 0) = [LOk] /\
  fst (verify_cavities demo_sum demo_tool ext_o demo_dir nm_ai demo_data [(nm_ai, 1, 1)] MFlip (-1) 0) = [LDiffer] /\
  fst (verify_cavities demo_sum demo_tool ext_o demo_dir nm_ai demo_data [(nm_ai, 3, 3)] MFlip (-1) 0) = [LNoOutput] /\
  fst (verify_cavities demo_sum demo_tool ext_o demo_dir nm_ai demo_data [] MFlip (-1) 0) = [LNoCavities].
Proof.
  split; [split; [reflexivity|]; split; [discriminate|]; exists 105%N, []; split; [reflexivity|intros [H|[]]; discriminate]|].
  split; [exists 111%N, []; split; [reflexivity|intros [H|[]]; discriminate]|].
  repeat split; vm_compute; reflexivity.
Qed.

(** An output left from an earlier run is taken for the output of this one: with --limit 1 and
    then --skip 1 --limit 1 the second cavity is reported as OK, although the tool makes no
    output when it is mutated. *)
Theorem C113_stale_refuted : exists checksum tool ext nm data csv m mutated,
  let '(lines1, d1) := verify_cavities checksum tool ext demo_dir nm data csv m 1 0 in
  let '(lines2, d2) := verify_cavities checksum tool ext d1 nm data csv m 1 1 in
  lines1 = [LOk] /\ lines2 = [LOk] /\
  mutate_cavities data nm csv m 1 1 = Some mutated /\ ran_output (tool mutated) = None.
Proof.
  exists demo_sum, demo_tool, ext_o, nm_ai, demo_data, [(nm_ai, 4, 4); (nm_ai, 3, 3)], MFlip, [1; 2; 9; 0; 4]%N.
  vm_compute. auto.
Qed.
Print Assumptions C113_stale_refuted.

(** For an input without an extension every output is reported as OK, and it replaces the output
    of the original file. *)
Theorem C113_no_extension_refuted : forall checksum tool ext d nm data csv m limit skip orig mutated o,
  nm <> [] -> ~ In 46%N nm ->
  d (nm ++ ext) = Some orig -> orig <> [] -> mutate_cavities data nm csv m limit skip = Some mutated ->
  checksum data <> checksum mutated -> ran_output (tool mutated) = Some o ->
  let '(lines, d') := verify_cavities checksum tool ext d nm data csv m limit skip in
  In LOk lines /\ d' (nm ++ ext) = Some o.
Proof.
  intros checksum tool ext d nm data csv m limit skip orig mu o Ne Nd D O Mu C R.
  destruct (stem_plain nm Nd) as [St Sf].
  unfold verify_cavities, target_path, result_file. rewrite St, Sf, app_nil_r.
  assert (T : stem (nm ++ mut_tag ++ method_name m) = nm).
  { apply stem_named with (e := mut_tag ++ method_name m). split; [reflexivity|]. split; [exact Ne|apply extension_tag]. }
  rewrite T, D. destruct orig as [|x orig]; [congruence|]. rewrite Mu.
  destruct (N.eqb_spec (checksum data) (checksum mu)); [contradiction|]. rewrite R. rewrite !put_same.
  rewrite N.eqb_refl. split; [|apply put_same]. apply in_or_app. right. now left.
Qed.
Print Assumptions C113_no_extension_refuted.

Example C113_no_extension_case : exists d',
  verify_cavities demo_sum demo_tool ext_o (put (fun _ => None) [97; 46; 111]%N [1; 2]%N) [97]%N demo_data [([97]%N, 1, 1)] MFlip (-1) 0 = ([LOk], d') /\
  ran_output (demo_tool [1; 253; 9; 255; 4]%N) = Some [1; 253]%N.
Proof. eexists. split; [vm_compute; reflexivity|reflexivity]. Qed.

(** C114.  If every file was verified, holds bytes, and cavity and other bytes were mutated
    somewhere, then the summary shows the number of files, the sums and averages over all files
    and the percentages of all mutations.  (Missing: files with errors, and the cases without
    mutations or with an empty file; for those the claim is false.) *)
Theorem C114_summary_partial : forall rs, rs <> [] ->
  (forall r, In r rs -> is_stats r = true /\ size_of r <> 0%N) ->
  sum (cavity_of st_count) rs <> 0%N -> sum (other_of st_count) rs <> 0%N ->
  let files := NQ (len rs) in
  exists lines, summary rs = (lines, true) /\ Forall2 same_line lines
    [ PFiles (len rs); PNoCavities 0; PErrors 0; PSize (sum size_of rs);
      PAvgSize (NQ (sum size_of rs) / files);
      PCavityBytes (sum (cavity_of st_count) rs); POtherBytes (sum (other_of st_count) rs);
      PAvgCavity (NQ (sum (cavity_of st_count) rs) / files);
      PAvgFraction (sumQ fraction_of rs / files);
      PCavityEq (100 * NQ (sum (cavity_of st_eq) rs) / NQ (sum (cavity_of st_count) rs))
                (sum (cavity_of st_eq) rs) (sum (cavity_of st_count) rs);
      PCavityNoOutput (100 * NQ (sum (cavity_of st_no_output) rs) / NQ (sum (cavity_of st_count) rs));
      POtherEq (100 * NQ (sum (other_of st_eq) rs) / NQ (sum (other_of st_count) rs));
      POtherAffected (100 * (NQ (sum (other_of st_diff) rs) + NQ (sum (other_of st_no_output) rs)) / NQ (sum (other_of st_count) rs)) ].
Proof.
  intros rs Ne A C O files.
  destruct (summary_totals rs) as (t & -> & T1 & T2 & T3 & T4 & T5 & T6).
  { apply Forall_forall. intros r I. destruct (A r I) as [_ S]. destruct r; cbn in *; auto. }
  assert (L : len rs <> 0%N) by (destruct rs; [congruence|unfold len; cbn [length]; lia]).
  assert (Z1 : sum (fun r => if is_empty_error r then 1%N else 0%N) rs = 0%N).
  { clear - A. induction rs as [|r rs IH]; [reflexivity|]. rewrite sum_cons, IH by (intros; apply A; now right).
    destruct (A r) as [S _]; [now left|]. destruct r; [discriminate|reflexivity]. }
  assert (Z2 : sum (fun r => if is_other_error r then 1%N else 0%N) rs = 0%N).
  { clear - A. induction rs as [|r rs IH]; [reflexivity|]. rewrite sum_cons, IH by (intros; apply A; now right).
    destruct (A r) as [S _]; [now left|]. destruct r; [discriminate|reflexivity]. }
  destruct (T5 st_count) as [K1 K2]; [now left|].
  destruct (T5 st_no_output) as [K3 K4]; [right; now left|].
  destruct (T5 st_eq) as [K5 K6]; [right; right; now left|].
  destruct (T5 st_diff) as [_ K8]; [right; right; right; now left|].
  unfold print_totals. rewrite T1, T2, T3, T4, K1, K2, K3, K4, K5, K6, K8, Z1, Z2.
  rewrite !div_ok by assumption. cbn [bind print_all]. eexists. split; [reflexivity|].
  repeat constructor; cbn [same_line]; try reflexivity.
  rewrite T6. reflexivity.
Qed.
Print Assumptions C114_summary_partial.

(** The shares of the other bytes add up to all of them, if each file's counts do. *)
Theorem C114_hundred : forall rs lines a b,
  (forall n c o, In (RStats n c o) rs -> st_count o = (st_no_output o + st_eq o + st_diff o)%N) ->
  summary rs = (lines, true) -> In (POtherEq a) lines -> In (POtherAffected b) lines -> (a + b == 100)%Q.
Proof.
  intros rs lines a b H E Ia Ib.
  destruct (Forall_dec sized (fun r => match r with RStats n _ _ => match N.eq_dec n 0 with left e => right (fun f => f e) | right f => left f end | RError _ => left I end) rs) as [F|F].
  2:{ unfold summary in E. rewrite add_results_exit in E by exact F. discriminate. }
  destruct (summary_totals rs F) as (t & Es & T1 & T2 & T3 & T4 & T5 & T6). rewrite Es in E.
  destruct (T5 st_count) as [_ K2]; [now left|].
  destruct (T5 st_no_output) as [_ K4]; [right; now left|].
  destruct (T5 st_eq) as [_ K6]; [right; right; now left|].
  destruct (T5 st_diff) as [_ K8]; [right; right; right; now left|].
  pose proof (consistent_sum rs H) as Cs. rewrite <- K2, <- K4, <- K6, <- K8 in Cs.
  unfold print_totals in E.
  destruct (N.eq_dec (t_files t) 0) as [Z|Z]; [rewrite Z, div_zero in E; discriminate|].
  destruct (N.eq_dec (st_count (t_cavity t)) 0) as [Zc|Zc].
  { rewrite !(div_ok _ (t_files t)) in E by exact Z. rewrite Zc, !div_zero in E. discriminate. }
  destruct (N.eq_dec (st_count (t_other t)) 0) as [Zo|Zo].
  { rewrite !(div_ok _ (t_files t)), !(div_ok _ (st_count (t_cavity t))) in E by assumption. rewrite Zo, !div_zero in E. discriminate. }
  rewrite !div_ok in E by assumption. cbn [bind print_all] in E. injection E as <-.
  cbn [In] in Ia, Ib.
  repeat (destruct Ia as [Ia|Ia]; [try discriminate|]); [|destruct Ia]. injection Ia as <-.
  repeat (destruct Ib as [Ib|Ib]; [try discriminate|]); [|destruct Ib]. injection Ib as <-.
  assert (Q0 : ~ (NQ (st_count (t_other t)) == 0)%Q).
  { intros X. apply Qeq_bool_iff, NQ_zero in X. contradiction. }
  assert (S : (NQ (st_count (t_other t)) == NQ (st_no_output (t_other t)) + NQ (st_eq (t_other t)) + NQ (st_diff (t_other t)))%Q).
  { unfold NQ. rewrite <- !inject_Z_plus. rewrite Cs. rewrite !N2Z.inj_add. reflexivity. }
  transitivity (100 * (NQ (st_no_output (t_other t)) + NQ (st_eq (t_other t)) + NQ (st_diff (t_other t))) / NQ (st_count (t_other t)))%Q.
  - field. exact Q0.
  - rewrite <- S. field. exact Q0.
Qed.
Print Assumptions C114_hundred.

Definition demo_results : list result :=
  [RStats 100 (mkStats 10 0 9 1) (mkStats 2 0 1 1); RStats 300 (mkStats 30 0 30 0) (mkStats 2 1 0 1)].
Example C114_case : exists lines, summary demo_results = (lines, true) /\
  Forall2 same_line lines
    [PFiles 2; PNoCavities 0; PErrors 0; PSize 400; PAvgSize 200; PCavityBytes 40; POtherBytes 4; PAvgCavity 20; PAvgFraction 10;
     PCavityEq (975 # 10) 39 40; PCavityNoOutput 0; POtherEq 25; POtherAffected 75].
Proof. eexists. split; [vm_compute; reflexivity|]. repeat constructor. Qed.

(** Files with errors count in the averages: one file of 100 bytes and one that could not be
    verified give an average size of 50 bytes. *)
Theorem C114_errors_refuted : exists rs lines, summary rs = (lines, true) /\
  (forall r, In r rs -> is_stats r = true -> size_of r = 100%N) /\ In (PErrors 1) lines /\
  exists q, In (PAvgSize q) lines /\ (q == 50)%Q.
Proof.
  exists [RStats 100 (mkStats 10 0 9 1) (mkStats 1 0 1 0); RError false]. eexists.
  split; [vm_compute; reflexivity|]. split; [|split].
  - intros r [<-|[<-|[]]]; [reflexivity|discriminate].
  - cbn. auto.
  - eexists. split; [cbn; auto 10|reflexivity].
Qed.
Print Assumptions C114_errors_refuted.

(** Without cavities in any file, or if every file is too small for a sample of its other bytes,
    the summary breaks off before the percentages; one empty file and nothing is printed. *)
Theorem C114_breaks_off_refuted : forall rs, rs <> [] ->
  (~ Forall sized rs -> summary rs = ([], false)) /\
  (Forall sized rs -> sum (cavity_of st_count) rs = 0%N -> exists lines, summary rs = (lines, false) /\ length lines = 9%nat) /\
  (Forall sized rs -> sum (cavity_of st_count) rs <> 0%N -> sum (other_of st_count) rs = 0%N ->
     exists lines, summary rs = (lines, false) /\ length lines = 11%nat).
Proof.
  intros rs Ne. assert (L : len rs <> 0%N) by (destruct rs; [congruence|unfold len; cbn [length]; lia]).
  split; [|split].
  - intros F. unfold summary. now rewrite add_results_exit.
  - intros F C. destruct (summary_totals rs F) as (t & -> & T1 & T2 & T3 & T4 & T5 & T6).
    destruct (T5 st_count) as [K1 K2]; [now left|]. rewrite C in K1. unfold print_totals.
    rewrite T3, K1. rewrite !(div_ok _ (len rs)) by exact L. rewrite !div_zero. cbn [bind print_all]. eexists. split; reflexivity.
  - intros F C O. destruct (summary_totals rs F) as (t & -> & T1 & T2 & T3 & T4 & T5 & T6).
    destruct (T5 st_count) as [K1 K2]; [now left|]. rewrite O in K2. rewrite <- K1 in C. unfold print_totals.
    rewrite T3, K2. rewrite !(div_ok _ (len rs)) by exact L. rewrite !(div_ok _ (st_count (t_cavity t))) by exact C.
    rewrite !div_zero. cbn [bind print_all]. eexists. split; reflexivity.
Qed.
Print Assumptions C114_breaks_off_refuted.

Example C114_breaks_off_case :
  summary [RStats 50 (mkStats 0 0 0 0) (mkStats 0 0 0 0)] =
    ([PFiles 1; PNoCavities 0; PErrors 0; PSize 50; PAvgSize (NQ 50 / NQ 1); PCavityBytes 0; POtherBytes 0;
      PAvgCavity (NQ 0 / NQ 1); PAvgFraction ((0 + (NQ 0 * 100) / NQ 50) / NQ 1)], false).
Proof. vm_compute. reflexivity. Qed.
