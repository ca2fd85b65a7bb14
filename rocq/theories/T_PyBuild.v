(** C90: the programs made by instrument-targets. *)
From Coq Require Import NArith List Bool String Lia.
From Verif Require Import M_Base M_PyBuild S_Build P_Base P_PyBuild.
Import ListNotations.
Open Scope N_scope.
Open Scope list_scope.

(** No file is lost, and only the files written for the targets change. *)
Theorem C90_frame : forall v o journal targets f f',
  (forall t e p, In t targets -> builds journal t e p -> separate_output e /\ paths_are_paths v e) ->
  instrument_targets v o journal targets f = Ok f' ->
  forall q, f' q = f q \/ exists t e p b, In t targets /\ builds journal t e p /\ base_name t b /\ written (p_dir p) b q.
Proof.
  intros v o j ts. induction ts as [|t ts IH]; intros f f' Se H q; [left; cbn in H; congruence|]. cbn [instrument_targets] in H. apply bind_ok in H as (f1 & H1 & H2).
  destruct (target_ok _ _ _ _ _ _ H1) as (e & p & a & Bu & Tn & Fp). destruct (target_run v o j t f e p a Bu Tn Fp) as (pr & f4 & _ & R & Fr).
  destruct (Se t e p (or_introl eq_refl) Bu) as [S1 S2]. rewrite (lower_output v e _ S1 S2) in R.
  destruct (IH f1 f' (fun t' e' p' I => Se t' e' p' (or_intror I)) H2 q) as [E|(t' & e' & p' & b' & I & K)]; [|right; exists t', e', p', b'; split; [now right|exact K]].
  assert (E1 : f1 = write f4 (out_path (stem t)) pr) by congruence. rewrite E, E1.
  destruct (path_eqb_spec q (out_path (stem t))) as [->|Nq].
  - right. exists t, e, p, (stem t). split; [now left|]. split; [exact Bu|]. split; [apply stem_base|apply out_written].
  - rewrite write_other by exact Nq. destruct (Fr q) as [->|[W _]]; [now left|]. right. exists t, e, p, (stem t). split; [now left|]. split; [exact Bu|]. split; [apply stem_base|exact W].
Qed.

(** C90: if the targets have different names without extension, and names that do not clash
    with the files that are written, then the program made for each target is the one its own
    file, its own build command and the options determine, and the target itself is unchanged. *)
Theorem C90_programs_partial : forall v o journal targets f f',
  (forall t e p, In t targets -> builds journal t e p -> separate_output e /\ paths_are_paths v e) ->
  ForallOrdPairs (fun t u => forall b, base_name t b -> ~ base_name u b) targets ->
  Forall plain_name targets ->
  instrument_targets v o journal targets f = Ok f' ->
  forall t, In t targets -> exists e p b a program,
    builds journal t e p /\ base_name t b /\ f p = Some a /\
    instrumented v o e a program /\ f' (mkPath [] (b ++ lit ".instrumented")) = Some program /\ f' p = Some a.
Proof.
  intros v o j ts. induction ts as [|t ts IH]; intros f f' Se Di Pl H u [].
  - subst u. assert (H0 := H). cbn [instrument_targets] in H. apply bind_ok in H as (f1 & H1 & H2).
    destruct (target_ok _ _ _ _ _ _ H1) as (e & p & a & Bu & Tn & Fp). destruct (target_run v o j t f e p a Bu Tn Fp) as (pr & f4 & In1 & R & Fr).
    destruct (Se t e p (or_introl eq_refl) Bu) as [S1 S2]. rewrite (lower_output v e _ S1 S2) in R. assert (E1 : f1 = write f4 (out_path (stem t)) pr) by congruence.
    exists e, p, (stem t), a, pr. split; [exact Bu|]. split; [apply stem_base|]. split; [exact Fp|]. split; [exact In1|]. split.
    + destruct (C90_frame v o j ts f1 f' (fun t' e' p' I => Se t' e' p' (or_intror I)) H2 (out_path (stem t))) as [E|(t' & e' & p' & b' & I & Bu' & Ba & W)].
      * fold (out_path (stem t)). rewrite E, E1. apply write_same.
      * exfalso. revert W. apply out_not_written. intros <-. inversion Di as [|x l D1 D2]; subst. rewrite Forall_forall in D1. now apply (D1 t' I (stem t) (stem_base t)).
    + destruct (C90_frame v o j (t :: ts) f f' Se H0 p) as [E|(t' & e' & p' & b' & I & Bu' & Ba & W)]; [congruence|].
      exfalso. revert W. apply plain_not_written. rewrite (builds_name _ _ _ _ Bu). now inversion Pl.
  - rename H0 into I. assert (H0 := H). cbn [instrument_targets] in H. apply bind_ok in H as (f1 & H1 & H2).
    inversion Di as [|x l D1 D2]; subst. inversion Pl as [|x l P1 P2]; subst.
    destruct (IH f1 f' (fun t' e' p' I => Se t' e' p' (or_intror I)) D2 P2 H2 u I) as (e & p & b & a & pr & Bu & Ba & Fp & K1 & K2 & K3).
    exists e, p, b, a, pr. split; [exact Bu|]. split; [exact Ba|]. split; [|auto].
    assert (F1 : instrument_targets v o j [t] f = Ok f1) by (cbn [instrument_targets]; rewrite H1; reflexivity).
    destruct (C90_frame v o j [t] f f1 (fun t' e' p' I => Se t' e' p' (match I with or_introl E => or_introl E | or_intror F => match F with end end)) F1 p)
      as [E|(t' & e' & p' & b' & _ & _ & _ & W)]; [congruence|].
    exfalso. revert W. apply plain_not_written. rewrite (builds_name _ _ _ _ Bu). rewrite Forall_forall in P2. auto.
Qed.

(** It ends normally if every target is the output of a command of the journal
    and its file is there. *)
Theorem C90_total : forall v o journal targets f,
  (forall t, In t targets -> t <> [] /\ exists e p, builds journal t e p /\ f p <> None) ->
  exists f', instrument_targets v o journal targets f = Ok f'.
Proof.
  intros v o j ts. induction ts as [|t ts IH]; intros f H; [now exists f|]. destruct (H t (or_introl eq_refl)) as (Tn & e & p & Bu & Fp).
  destruct (f p) as [a|] eqn:Fa; [|congruence]. destruct (target_run v o j t f e p a Bu Tn Fa) as (pr & f4 & _ & R & Fr). cbn [instrument_targets]. rewrite R. cbn [bind].
  apply IH. intros u I. destruct (H u (or_intror I)) as (Un & e' & p' & Bu' & Fp'). split; [exact Un|]. exists e', p'. split; [exact Bu'|].
  destruct (path_eqb_spec p' (joined_output (lower_args v e) (out_path (stem t)))) as [->|N0]; [rewrite write_same; discriminate|]. rewrite write_other by exact N0.
  destruct (Fr p') as [->|[_ K]]; [exact Fp'|exact K].
Qed.
Theorem C90_missing : forall v o journal targets f t, In t targets -> (forall e p, ~ builds journal t e p) ->
  instrument_targets v o journal targets f = Exit.
Proof.
  intros v o j ts. induction ts as [|u ts IH]; intros f t I N0; [destruct I|]. cbn [instrument_targets].
  assert (X : (exists f', instrument_target v o j u f = Ok f') \/ instrument_target v o j u f = Exit).
  { unfold instrument_target. destruct (find_target u j) as [[e p]|] eqn:E; [|auto]. apply find_target_some in E.
    destruct (f p) as [a|] eqn:F.
    - destruct u as [|c u]; [right; rewrite (builds_name _ _ _ _ E); destruct (str_eqb_spec [] []); [reflexivity|congruence]|].
      destruct (target_run v o j (c :: u) f e p a E ltac:(discriminate) F) as (pr & f4 & _ & R & _). unfold instrument_target in R. apply find_target_some in E. rewrite E in R. left. eauto.
    - right. destruct (str_eqb (p_name p) []); [reflexivity|]. unfold extract_bitcode, exec. now rewrite F. }
  destruct X as [(f' & E)|E]; rewrite E; [|reflexivity]. cbn [bind]. destruct I as [->|I]; [|now apply IH with t].
  destruct (target_ok _ _ _ _ _ _ E) as (e & p & a & Bu & _). now destruct (N0 e p).
Qed.

(** ** A build *)
Definition env0 : env := mkEnv (lit "/cc") (lit "/cxx") (lit "/cc/lib/libdfsan.a").
Definition cmd_prog : entry := mkEntry (lit "clang") [lit "-g"; lit "main.o"; lit "libx.a"; lit "-o"; lit "prog"]
  [mkSource (lit "main.o") OtherKind (lit "/b/main.o"); mkSource (lit "libx.a") Static (lit "/b/libx.a")]
  [mkProduct (lit "prog") (lit "/b/prog")].
Definition cmd_lib (name : string) : entry := mkEntry (lit "clang") [lit "-shared"; lit "x.o"; lit "-o"; lit name]
  [mkSource (lit "x.o") OtherKind (lit "/b/x.o")] [mkProduct (lit name) (lit "/b/" ++ lit name)].
Definition all_files : files := fun p => Some (Original (N.of_nat (List.length (p_name p)))).
Definition opts : options := mkOptions true true true [lit "mine.txt"].

Definition sane (v : env) (e : entry) : bool :=
  forallb (fun x => match x with 45 :: 111 :: _ :: _ => false | _ => true end) (e_args e) &&
  forallb (fun x => match x with 45 :: _ => false | _ => true end) ([compiler_dir v; cxx_dir v; dfsan_lib v] ++ map i_path (e_inputs e)).
Lemma sane_check v e : sane v e = true -> separate_output e /\ paths_are_paths v e.
Proof.
  unfold sane. rewrite andb_true_iff, !forallb_forall. intros [H1 H2]. split.
  - intros x I. specialize (H1 x I). destruct (list_eq_dec N.eq_dec x (lit "-o")) as [->|N0]; [now left|]. right. intros (r & ->). destruct r; [now apply N0|discriminate].
  - assert (K : forall x, In x ([compiler_dir v; cxx_dir v; dfsan_lib v] ++ map i_path (e_inputs e)) -> no_flag x) by (intros x I r ->; specialize (H2 _ I); discriminate).
    split; [apply K; cbn; auto|]. split; [apply K; cbn; auto|]. split; [apply K; cbn; auto|]. intros i I. apply K. apply in_or_app. right. now apply in_map.
Qed.

Example C90_case :
  let targets := [lit "prog"; lit "libx.so"] in
  let journal := [cmd_prog; cmd_lib "libx.so"] in
  (forall t e p, In t targets -> builds journal t e p -> separate_output e /\ paths_are_paths env0 e) /\
  ForallOrdPairs (fun t u => forall b, base_name t b -> ~ base_name u b) targets /\ Forall plain_name targets /\
  (exists f', instrument_targets env0 opts journal targets all_files = Ok f' /\
     f' (mkPath [] (lit "prog.instrumented")) = Some (Linked (lit "clang")
        ([lit "-g"; lit "-pie"; lit "-Wl,--allow-multiple-definition"; lit "-Wl,--start-group"; lit "/b/libx.a"; lit "/cxx/poly_build/lib/libc++.a";
          lit "/cxx/poly_build/lib/libc++abi.a"; lit "/cc/lib/libPolytracker.a"; lit "-lm"; lit "-ltinfo"; lit "-lstdc++"; lit "/cc/lib/libdfsan.a"; lit "-ldl"; lit "-Wl,--end-group"])
        (Transformed (instrument_flags env0 [lit "mine.txt"] true true) (Transformed [lit "-O3"]
          (Transformed [lit "-load"; lit "/cc/pass/libPolytrackerPass.so"; lit "-load-pass-plugin"; lit "/cc/pass/libPolytrackerPass.so"; lit "-passes=pt-tcf"] (Bitcode (Original 4))))))).
Proof.
  cbv zeta. split; [|split; [|split]].
  - assert (S : forall e, e = cmd_prog \/ e = cmd_lib "libx.so" -> separate_output e /\ paths_are_paths env0 e).
    { intros e [-> | ->]; apply sane_check; reflexivity. }
    intros t e p _ (bf & af & outs & o & outs' & E & _). apply S. assert (I : In e [cmd_prog; cmd_lib "libx.so"]) by (rewrite E; apply in_or_app; right; now left).
    destruct I as [<-|[<-|[]]]; auto.
  - repeat constructor. intros b Ba Bb. rewrite <- (base_stem _ _ Ba) in Bb. apply base_stem in Bb. vm_compute in Bb. discriminate.
  - assert (P : forall n, match rev n with 112 :: _ => True | 111 :: _ => True | 103 :: _ => True | _ => False end -> plain_name n).
    { intros n H. split; intros (b & ->); rewrite rev_app_distr in H; vm_compute in H; exact H. }
    repeat constructor; apply P; exact I.
  - eexists. split; vm_compute; reflexivity.
Qed.

(** ** When targets clash *)
(** Two targets with the same name without extension: the second program replaces the first. *)
Theorem C90_same_stem_refuted : exists v o journal targets f f',
  NoDup targets /\ Forall plain_name targets /\
  (forall t e p, In t targets -> builds journal t e p -> separate_output e /\ paths_are_paths v e) /\
  instrument_targets v o journal targets f = Ok f' /\
  exists t e p b a, In t targets /\ builds journal t e p /\ base_name t b /\ f p = Some a /\
    forall program, instrumented v o e a program -> f' (mkPath [] (b ++ lit ".instrumented")) <> Some program.
Proof.
  exists env0, opts, [cmd_lib "libx.so"; cmd_lib "libx.dylib"], [lit "libx.so"; lit "libx.dylib"], all_files.
  eexists. split; [|split; [|split; [|split; [reflexivity|]]]].
  - repeat constructor; cbn [In]; intuition discriminate.
  - assert (P : forall n, match rev n with 111 :: _ => True | 98 :: 105 :: _ => True | _ => False end -> plain_name n).
    { intros n H. split; intros (b & ->); rewrite rev_app_distr in H; vm_compute in H; exact H. }
    repeat constructor; apply P; exact I.
  - assert (S : forall e, e = cmd_lib "libx.dylib" \/ e = cmd_lib "libx.so" -> separate_output e /\ paths_are_paths env0 e).
    { intros e [-> | ->]; apply sane_check; reflexivity. }
    intros t e p _ (bf & af & outs & o & outs' & E & _). apply S. assert (I : In e [cmd_lib "libx.so"; cmd_lib "libx.dylib"]) by (rewrite E; apply in_or_app; right; now left).
    destruct I as [<-|[<-|[]]]; auto.
  - exists (lit "libx.so"), (cmd_lib "libx.so"), (mkPath (lit "/b") (lit "libx.so")), (lit "libx"), (Original 7).
    split; [now left|]. split; [apply find_target_some; reflexivity|]. split; [apply (stem_base (lit "libx.so"))|]. split; [reflexivity|].
    intros pr (fl & args & _ & _ & ->) H. vm_compute in H. injection H as _ H. discriminate.
Qed.
(** A target called *.bc is overwritten by its own bitcode. *)
Theorem C90_bitcode_target_refuted : exists v o journal t f f' p a,
  instrument_targets v o journal [t] f = Ok f' /\ (exists e, builds journal t e p) /\ f p = Some a /\ f' p <> Some a.
Proof.
  exists env0, opts, [cmd_lib "x.bc"], (lit "x.bc"), all_files. eexists. exists (mkPath (lit "/b") (lit "x.bc")), (Original 4).
  split; [reflexivity|]. split; [exists (cmd_lib "x.bc"); apply find_target_some; reflexivity|]. split; [reflexivity|]. vm_compute. discriminate.
Qed.
(** A build command with "-oprog": the instrumented program replaces the target. *)
Definition cmd_joined : entry := mkEntry (lit "clang") [lit "main.o"; lit "-oprog"] [mkSource (lit "main.o") OtherKind (lit "/b/main.o")] [mkProduct (lit "prog") (lit "prog")].
Theorem C90_joined_output_refuted : exists v o journal t f f' p b a,
  plain_name t /\ base_name t b /\ instrument_targets v o journal [t] f = Ok f' /\ (exists e, builds journal t e p) /\ f p = Some a /\
  f (mkPath [] (b ++ lit ".instrumented")) = None /\ f' (mkPath [] (b ++ lit ".instrumented")) = None /\ f' p <> Some a.
Proof.
  exists env0, opts, [cmd_joined], (lit "prog"), (fun p => if path_eqb p (mkPath [] (lit "prog")) then Some (Original 1) else None). eexists.
  exists (mkPath [] (lit "prog")), (lit "prog"), (Original 1).
  split; [split; intros (b & H); apply (f_equal (@rev N)) in H; rewrite rev_app_distr in H; discriminate|]. split; [apply (stem_base (lit "prog"))|]. split; [reflexivity|].
  split; [exists cmd_joined; apply find_target_some; reflexivity|]. split; [reflexivity|]. split; [reflexivity|]. split; [reflexivity|]. vm_compute. discriminate.
Qed.

Print Assumptions C90_frame.
Print Assumptions C90_programs_partial.
Print Assumptions C90_total.
Print Assumptions C90_missing.
Print Assumptions C90_same_stem_refuted.
Print Assumptions C90_bitcode_target_refuted.
Print Assumptions C90_joined_output_refuted.
