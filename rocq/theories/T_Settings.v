(** C119: what the environment variables do and what is printed about them. *)
From Coq Require Import NArith ZArith List Bool Lia.
From Verif Require Import M_Base M_Memory M_StringTable M_Functions M_CfLog M_OutputFile M_Api M_Runtime M_Settings S_Settings P_Base.
Import ListNotations.
Open Scope N_scope.

Lemma bytes_eqb_iff a b : bytes_eqb a b = true <-> a = b.
Proof.
  revert b. induction a as [|x a IH]; intros [|y b]; cbn; try (split; congruence).
  rewrite andb_true_iff, N.eqb_eq, IH. split; [intros [-> ->]; reflexivity|intros E; injection E; auto].
Qed.
Lemma is_one_iff e name : is_one (getenv e name) = true <-> set_to_1 e name.
Proof.
  unfold is_one, set_to_1. destruct (getenv e name) as [s|]; [|split; discriminate].
  rewrite bytes_eqb_iff. split; [intros ->; reflexivity|intros E; now injection E].
Qed.
Lemma stream_spec e r name fd path size r' : start_stream r fd (getenv e name) path size = Ok r' -> stream_step e r name fd path size r'.
Proof.
  unfold start_stream. destruct ((0 <=? fd)%Z && is_one (getenv e name)) eqn:C; intros H.
  - apply andb_true_iff in C as [C1 C2]. apply stream_on; [now apply is_one_iff|now apply Z.leb_le|exact H].
  - injection H as <-. apply stream_off. intros [A B]. apply is_one_iff in A. apply Z.leb_le in B. rewrite A, B in C. discriminate.
Qed.

(** Exactly the streams set to 1 are opened; the arguments are tainted if the value of that
    variable starts with a 1; the trace goes to the file named, if a name is given. *)
Theorem C119_effects_partial : forall e base fo fe fi so se si text p',
  start_traced proc_start e base fo fe fi so se si = Ok (text, p') ->
  (exists r0 r1 r2 r3, rt_new base = Ok r0 /\ stream_step e r0 s_stdout fo dev_stdout so r1 /\
     stream_step e r1 s_stderr fe dev_stderr se r2 /\ stream_step e r2 s_stdin fi dev_stdin si r3 /\ p_tdag p' = Live r3) /\
  (p_argv p' = true <-> exists v, getenv e s_argv = Some (49 :: v)) /\
  (forall v, getenv e s_polydb = Some v -> v <> [] -> db_name e = v) /\
  (getenv e s_polydb = None \/ getenv e s_polydb = Some [] -> db_name e = s_default).
Proof.
  intros e base fo fe fi so se si text p' H. unfold start_traced, cb_start, taint_start in H. cbn [runtime_env e_stdout e_stderr e_stdin e_argv] in H.
  apply bind_ok in H as (q & H & E). apply bind_ok in H as (q' & H & E'). injection E' as <-.
  apply bind_ok in H as (r0 & H0 & H). apply bind_ok in H as (r1 & H1 & H). apply bind_ok in H as (r2 & H2 & H). apply bind_ok in H as (r3 & H3 & H).
  injection H as <-. injection E as <- <-. cbn [p_tdag p_argv]. split; [|split; [|split]].
  - exists r0, r1, r2, r3. split; [exact H0|]. split; [now apply stream_spec|]. split; [now apply stream_spec|]. split; [now apply stream_spec|reflexivity].
  - unfold starts_with_one. destruct (getenv e s_argv) as [[|x v]|]; cbn.
    + split; [discriminate|intros (v & E); discriminate].
    + rewrite N.eqb_eq. split; [intros ->; eauto|intros (w & E); injection E; auto].
    + split; [discriminate|intros (v & E); discriminate].
  - intros v E Ne. unfold db_name. rewrite E. destruct v; [contradiction|reflexivity].
  - intros [E|E]; unfold db_name; now rewrite E.
Qed.
Print Assumptions C119_effects_partial.

(** The settings are those of the first entries of the environment. *)
Theorem C119_first : forall e name v, getenv e name = Some v <-> first_value e name v.
Proof.
  intros e name v. unfold first_value. induction e as [|[n w] e IH]; cbn [getenv].
  - split; [discriminate|]. intros ([|] & after & E & _); discriminate.
  - destruct (bytes_eqb n name) eqn:B.
    + apply bytes_eqb_iff in B. subst n. split.
      * intros E. injection E as ->. exists [], e. split; [reflexivity|intros []].
      * intros ([|x before] & after & E & N1); [injection E; congruence|]. injection E as <- _. exfalso. apply N1. now left.
    + assert (D : n <> name) by (intros ->; rewrite (proj2 (bytes_eqb_iff name name) eq_refl) in B; discriminate). rewrite IH. split.
      * intros (before & after & -> & N1). exists ((n, w) :: before), after. split; [reflexivity|]. intros [H|H]; [exact (D H)|exact (N1 H)].
      * intros ([|x before] & after & E & N1); [injection E; congruence|]. injection E as <- ->. exists before, after. split; [reflexivity|].
        intros H. apply N1. now right.
Qed.
Print Assumptions C119_first.

Lemma no_newline s : forallb (fun x => negb (x =? 10)) s = true -> ~ In 10 s.
Proof. intros H I. rewrite forallb_forall in H. specialize (H 10 I). discriminate. Qed.
Lemma line_in_text a name v b : ~ In 10 name -> ~ In 10 v -> (a = [] \/ exists a', a = a' ++ [10]) ->
  has_line (a ++ setting_line name v ++ b) (name ++ [58; 32] ++ v).
Proof.
  intros N1 N2 A. split.
  - rewrite !in_app_iff. cbn. intros [H|[H|H]]; [auto| |auto]. destruct H as [H|[H|[]]]; discriminate.
  - exists a, b. split; [|exact A]. unfold setting_line. rewrite <- !app_assoc. reflexivity.
Qed.
Lemma ends_ok v name : line_if name v = [] \/ exists a', line_if name v = a' ++ [10].
Proof. destruct v as [[|x v]|]; cbn [line_if]; auto. right. unfold setting_line. exists (name ++ [58; 32] ++ x :: v). now rewrite <- !app_assoc. Qed.
Lemma ends_app a b : (a = [] \/ exists a', a = a' ++ [10]) -> (b = [] \/ exists b', b = b' ++ [10]) -> a ++ b = [] \/ exists c, a ++ b = c ++ [10].
Proof.
  intros A [->|(b' & ->)]; [now rewrite app_nil_r|]. right. exists (a ++ b'). apply app_assoc.
Qed.
Lemma ends_setting name v : exists a, setting_line name v = a ++ [10].
Proof. exists (name ++ [58; 32] ++ v). unfold setting_line. now rewrite <- !app_assoc. Qed.

(** Before anything the traced program prints, its output has a line with the name of the trace
    file, and one with each value given that is not empty. *)
Theorem C119_printed_partial : forall e base fo fe fi so se si text p',
  start_traced proc_start e base fo fe fi so se si = Ok (text, p') ->
  (forall name v, In name [s_polydb; s_stdout; s_stderr; s_stdin] -> getenv e name = Some v -> v <> [] -> ~ In 10 v ->
     has_line text (name ++ [58; 32] ++ v)) /\
  (getenv e s_polydb = None -> has_line text (s_polydb ++ [58; 32] ++ s_default)) /\
  (p_argv p' = true -> has_line text (s_argv ++ [58; 32; 49])).
Proof.
  intros e base fo fe fi so se si text p' H.
  assert (A : text = print_settings e (p_argv p')).
  { unfold start_traced, cb_start, taint_start in H. cbn [runtime_env e_stdout e_stderr e_stdin e_argv] in H.
    apply bind_ok in H as (q & H & E). apply bind_ok in H as (q' & H & E'). injection E' as <-.
    apply bind_ok in H as (r0 & _ & H). apply bind_ok in H as (r1 & _ & H). apply bind_ok in H as (r2 & _ & H). apply bind_ok in H as (r3 & _ & H).
    injection H as <-. injection E as <- <-. reflexivity. }
  clear H. subst text. unfold print_settings.
  assert (X0 : exists a', setting_line s_polydb (db_name e) = a' ++ [10]) by apply ends_setting.
  assert (X1 := ends_ok (getenv e s_stdout) s_stdout). assert (X2 := ends_ok (getenv e s_stderr) s_stderr). assert (X3 := ends_ok (getenv e s_stdin) s_stdin).
  split; [|split].
  - intros name v [<-|[<-|[<-|[<-|[]]]]] E Ne Nv.
    + replace (db_name e) with v by (unfold db_name; rewrite E; destruct v; [contradiction|reflexivity]).
      apply (line_in_text [] s_polydb v); [now apply no_newline|exact Nv|now left].
    + replace (line_if s_stdout (getenv e s_stdout)) with (setting_line s_stdout v) by (rewrite E; destruct v; [contradiction|reflexivity]).
      apply line_in_text; [now apply no_newline|exact Nv|now right].
    + replace (line_if s_stderr (getenv e s_stderr)) with (setting_line s_stderr v) by (rewrite E; destruct v; [contradiction|reflexivity]).
      rewrite (app_assoc (setting_line s_polydb _)). apply line_in_text; [now apply no_newline|exact Nv|]. apply ends_app; auto.
    + replace (line_if s_stdin (getenv e s_stdin)) with (setting_line s_stdin v) by (rewrite E; destruct v; [contradiction|reflexivity]).
      rewrite (app_assoc (line_if s_stdout _)), (app_assoc (setting_line s_polydb _)). apply line_in_text; [now apply no_newline|exact Nv|].
      apply ends_app; [now right|]. now apply ends_app.
  - intros E. replace (db_name e) with s_default by (unfold db_name; now rewrite E).
    apply (line_in_text [] s_polydb s_default); [now apply no_newline|now apply no_newline|now left].
  - intros ->. rewrite (app_assoc (line_if s_stderr _)), (app_assoc (line_if s_stdout _)), (app_assoc (setting_line s_polydb _)).
    rewrite <- (app_nil_r (setting_line s_argv [49])). apply (line_in_text _ s_argv [49]); [now apply no_newline|now apply no_newline|].
    apply ends_app; [now right|]. apply ends_app; [exact X1|]. now apply ends_app.
Qed.
Print Assumptions C119_printed_partial.

(** And nothing else is printed: the lines are the name of the trace file, values given that are
    not empty, and that of the arguments if they are tainted. *)
Theorem C119_only_printed : forall e base fo fe fi so se si text p',
  start_traced proc_start e base fo fe fi so se si = Ok (text, p') ->
  exists lines, text = text_of_lines ((s_polydb ++ [58; 32] ++ db_name e) :: lines) /\ (length lines <= 4)%nat /\
    forall l, In l lines ->
      (exists name v, In name [s_stdout; s_stderr; s_stdin] /\ getenv e name = Some v /\ v <> [] /\ l = name ++ [58; 32] ++ v) \/
      (p_argv p' = true /\ l = s_argv ++ [58; 32; 49]).
Proof.
  intros e base fo fe fi so se si text p' H.
  assert (A : text = print_settings e (p_argv p')).
  { unfold start_traced, cb_start, taint_start in H. cbn [runtime_env e_stdout e_stderr e_stdin e_argv] in H.
    apply bind_ok in H as (q & H & E). apply bind_ok in H as (q' & H & E'). injection E' as <-.
    apply bind_ok in H as (r0 & _ & H). apply bind_ok in H as (r1 & _ & H). apply bind_ok in H as (r2 & _ & H). apply bind_ok in H as (r3 & _ & H).
    injection H as <-. injection E as <- <-. reflexivity. }
  clear H. subst text.
  assert (L : forall name, In name [s_stdout; s_stderr; s_stdin] -> exists ls, line_if name (getenv e name) = text_of_lines ls /\ (length ls <= 1)%nat /\
     forall l, In l ls -> exists name v, In name [s_stdout; s_stderr; s_stdin] /\ getenv e name = Some v /\ v <> [] /\ l = name ++ [58; 32] ++ v).
  { intros name Hn. destruct (getenv e name) as [[|x v]|] eqn:E; cbn [line_if].
    - exists []. split; [reflexivity|]. split; [cbn; lia|intros l []].
    - exists [name ++ [58; 32] ++ x :: v]. split; [unfold text_of_lines, setting_line; cbn [flat_map]; rewrite app_nil_r, <- !app_assoc; reflexivity|].
      split; [cbn; lia|]. intros l [<-|[]]. exists name, (x :: v). repeat split; auto. discriminate.
    - exists []. split; [reflexivity|]. split; [cbn; lia|intros l []]. }
  destruct (L s_stdout) as (l1 & E1 & L1 & I1); [now left|]. destruct (L s_stderr) as (l2 & E2 & L2 & I2); [right; now left|].
  destruct (L s_stdin) as (l3 & E3 & L3 & I3); [right; right; now left|].
  exists (l1 ++ l2 ++ l3 ++ (if p_argv p' then [s_argv ++ [58; 32; 49]] else [])). split; [|split].
  - unfold print_settings. rewrite E1, E2, E3. unfold text_of_lines. cbn [flat_map]. rewrite !flat_map_app. unfold setting_line at 1. rewrite <- !app_assoc.
    do 4 f_equal. destruct (p_argv p'); reflexivity.
  - rewrite !app_length. destruct (p_argv p'); cbn [length]; lia.
  - intros l H. rewrite !in_app_iff in H. destruct H as [H|[H|[H|H]]]; [left; now apply I1|left; now apply I2|left; now apply I3|].
    destruct (p_argv p'); [|destruct H]. destruct H as [<-|[]]. right. auto.
Qed.
Print Assumptions C119_only_printed.

(** The program's standard output is never what it would be without tracing. *)
Theorem C119_output_refuted : forall e base fo fe fi so se si text p' own,
  start_traced proc_start e base fo fe fi so se si = Ok (text, p') -> text ++ own <> own.
Proof.
  intros e base fo fe fi so se si text p' own H E. unfold start_traced in H. apply bind_ok in H as (q & _ & E'). injection E' as <- _.
  apply (f_equal (@length N)) in E. rewrite app_length in E. unfold print_settings, setting_line in E. rewrite !app_length in E. cbn [s_polydb length] in E. lia.
Qed.
Print Assumptions C119_output_refuted.
(** A stream that is switched off with 0 is announced like one that is switched on, and has no
    effect; arguments are tainted, and announced as 1, for the value 10. *)
Theorem C119_values_refuted : exists text p',
  let e := [(s_stdout, [48]); (s_argv, [49; 48])] in
  start_traced proc_start e 8192 1 2 0 None None None = Ok (text, p') /\
  has_line text (s_stdout ++ [58; 32; 48]) /\ ~ set_to_1 e s_stdout /\
  has_line text (s_argv ++ [58; 32; 49]) /\ ~ set_to_1 e s_argv /\ p_argv p' = true.
Proof.
  pose (e := [(s_stdout, [48]); (s_argv, [49; 48])]).
  assert (W : exists text p', start_traced proc_start e 8192 1 2 0 None None None = Ok (text, p') /\ p_argv p' = true).
  { unfold start_traced, cb_start, taint_start. destruct (rt_new 8192) as [r| | |] eqn:R; try (vm_compute in R; discriminate).
    change (getenv e s_argv) with (Some [49; 48]). do 2 eexists. split; [|]; [cbn; reflexivity|reflexivity]. }
  destruct W as (text & p' & H & A). exists text, p'. cbv zeta. fold e. destruct (C119_printed_partial _ _ _ _ _ _ _ _ _ _ H) as (P & _ & Q).
  split; [exact H|]. split; [apply P; [right; now left|reflexivity|discriminate|now apply no_newline]|]. split; [discriminate|].
  split; [now apply Q|]. split; [discriminate|exact A].
Qed.
Print Assumptions C119_values_refuted.

Example C119_case : let e := [(s_stdin, [49]); (s_polydb, [120]); (s_stdin, [48])] in
  set_to_1 e s_stdin /\ db_name e = [120] /\
  print_settings e false = setting_line s_polydb [120] ++ setting_line s_stdin [49] /\
  exists text p', start_traced proc_start e 8192 1 2 0 None None None = Ok (text, p').
Proof.
  cbv zeta. split; [reflexivity|]. split; [reflexivity|]. split; [reflexivity|].
  assert (H : match start_traced proc_start [(s_stdin, [49]); (s_polydb, [120]); (s_stdin, [48])] 8192 1 2 0 None None None with Ok _ => true | _ => false end = true)
    by (vm_compute; reflexivity).
  destruct (start_traced _ _ _ _ _ _ _ _ _) as [[t p]| | |]; try discriminate. eauto.
Qed.
