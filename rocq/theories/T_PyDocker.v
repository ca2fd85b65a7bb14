(** Property C125: running a container. *)
From Coq Require Import NArith List Bool Lia.
From Verif Require Import M_Base M_PyDocker S_Docker P_Base.
Import ListNotations.
Open Scope N_scope.

Lemma cut_at_app : forall c a b, ~ In c a -> cut_at c (a ++ c :: b) = Some (a, b).
Proof.
  induction a as [|x a IH]; intros b H; cbn; [rewrite N.eqb_refl; reflexivity|].
  destruct (N.eqb_spec x c) as [->|D]; [exfalso; apply H; left; reflexivity|]. rewrite IH; [reflexivity|]. intro X. apply H. right. assumption.
Qed.
Lemma read_volume_ok : forall a b, ~ In 58 a -> ~ In 58 b -> read_volume (a ++ 58 :: b ++ w_cached) = Some (a, b, tl w_cached).
Proof.
  intros a b A B. unfold read_volume. cbn [app]. rewrite cut_at_app by assumption. change w_cached with (58 :: tl w_cached).
  rewrite cut_at_app by assumption. reflexivity.
Qed.
Lemma no_quotes : forall v, ~ In 34 v -> escape_quotes v = v.
Proof.
  induction v as [|x v IH]; intro H; cbn; [reflexivity|]. destruct (N.eqb_spec x 34) as [->|D]; [exfalso; apply H; left; reflexivity|].
  f_equal. apply IH. intro X. apply H. right. assumption.
Qed.
Lemma read_image : forall name args, name <> [] -> (forall r, name <> 45 :: r) ->
  read_run (name :: args) = Some (mkContainer [] false false [] [] name args).
Proof.
  intros name args H1 H2. destruct name as [|x name]; [contradiction|]. cbn [read_run]. unfold word_eqb.
  assert (D : x <> 45) by (intros ->; apply (H2 name); reflexivity).
  destruct (list_eq_dec N.eq_dec _ _) as [E|_]; [inversion E; congruence|].
  destruct (list_eq_dec N.eq_dec _ _) as [E|_]; [inversion E; congruence|].
  destruct (list_eq_dec N.eq_dec _ _) as [E|_]; [inversion E; congruence|].
  destruct (list_eq_dec N.eq_dec _ _) as [E|_]; [inversion E; congruence|].
  destruct (list_eq_dec N.eq_dec _ _) as [E|_]; [cbn in E; inversion E; congruence|].
  destruct (list_eq_dec N.eq_dec _ _) as [E|_]; [cbn in E; inversion E; congruence|]. reflexivity.
Qed.

Lemma read_variables : forall env name args c, (forall k v, In (k, v) env -> ~ In 61 k /\ ~ In 34 v) ->
  read_run (name :: args) = Some c ->
  read_run (flat_map variable_words env ++ [name] ++ args) =
    Some (mkContainer (workdir c) (tty c) (removed c) (volumes c) (env ++ variables c) (from_image c) (words c)).
Proof.
  induction env as [|[k v] env IH]; intros name args c H E; cbn [flat_map app]; [cbn [app] in *; rewrite E; destruct c; reflexivity|].
  unfold variable_words at 1. cbn [fst snd app]. destruct (H k v) as [H1 H2]; [left; reflexivity|]. rewrite no_quotes by assumption.
  change (read_run (w_e :: ?x :: ?r)) with (match read_variable x, read_run r with Some v, Some c => Some (with_variable v c) | _, _ => None end).
  unfold read_variable. cbn [app]. rewrite cut_at_app by assumption.
  cbn [app] in IH. rewrite (IH name args c); [reflexivity| |exact E]. intros k' v' X. apply H. right. assumption.
Qed.
Lemma read_volumes : forall mounts rest c, (forall a b, In (a, b) mounts -> ~ In 58 a /\ ~ In 58 b) ->
  read_run rest = Some c ->
  read_run (flat_map mount_words mounts ++ rest) =
    Some (mkContainer (workdir c) (tty c) (removed c) (map (fun m => (m, tl w_cached)) mounts ++ volumes c) (variables c) (from_image c) (words c)).
Proof.
  induction mounts as [|[a b] mounts IH]; intros rest c H E; cbn [flat_map app]; [rewrite E; destruct c; reflexivity|].
  unfold mount_words at 1. cbn [fst snd app]. destruct (H a b) as [H1 H2]; [left; reflexivity|].
  change (read_run (w_v :: ?x :: ?r)) with (match read_volume x, read_run r with Some v, Some c => Some (with_volume v c) | _, _ => None end).
  rewrite read_volume_ok by assumption. erewrite (IH rest c); [reflexivity| |exact E]. intros a' b' X. apply H. right. assumption.
Qed.

(** C125.  docker gets what run was called with, for every call: the mounts (the working
    directory by default) in order, the environment, the image, and the words of the command as
    they are, even if they look like options; in /workdir, interactive and removed as asked.
    (Missing: colons in mounts and quotes in values, for which it is false, see below.) *)
Theorem C125_command_partial : forall interactive remove cwd mounts env name args,
  name <> [] -> (forall r, name <> 45 :: r) ->
  (forall a b, In (a, b) (match mounts with Some l => l | None => [(cwd, [47; 119; 111; 114; 107; 100; 105; 114])] end) -> ~ In 58 a /\ ~ In 58 b) ->
  (forall k v, In (k, v) env -> ~ In 61 k /\ ~ In 34 v) ->
  read_command (cmd_args interactive remove cwd mounts env name args) =
    Some (mkContainer [47; 119; 111; 114; 107; 100; 105; 114] interactive remove
      (map (fun m => (m, [99; 97; 99; 104; 101; 100])) (match mounts with Some l => l | None => [(cwd, [47; 119; 111; 114; 107; 100; 105; 114])] end))
      env name args).
Proof.
  intros interactive remove cwd mounts env name args N1 N2 Hm He.
  pose proof (read_variables env name args _ He (read_image name args N1 N2)) as R1.
  change (match mounts with Some l => l | None => [(cwd, [47; 119; 111; 114; 107; 100; 105; 114])] end) with
    (match mounts with Some l => l | None => [(cwd, p_workdir)] end) in *.
  assert (Mo : (match mounts with Some l => l | None => [(cwd, p_workdir)] end) = mounts_of cwd mounts) by (destruct mounts; reflexivity).
  rewrite Mo in *. pose proof (read_volumes _ _ _ Hm R1) as R2. cbn [workdir tty removed volumes variables from_image words] in R2.
  rewrite !app_nil_r in R2. unfold cmd_args.
  change (read_command ([w_env; w_docker; w_run; w_workdir] ++ ?rest)) with
    (match read_run rest with Some c => Some (mkContainer p_workdir (tty c) (removed c) (volumes c) (variables c) (from_image c) (words c)) | None => None end).
  assert (R3 : read_run ((if remove then [w_rm] else []) ++ flat_map mount_words (mounts_of cwd mounts)
     ++ flat_map variable_words env ++ [name] ++ args) =
     Some (mkContainer [] false remove (map (fun m => (m, tl w_cached)) (mounts_of cwd mounts)) env name args)).
  { destruct remove; [|exact R2]. cbn [app].
    change (read_run (w_rm :: ?r)) with (match read_run r with Some c => Some (mkContainer (workdir c) (tty c) true (volumes c) (variables c) (from_image c) (words c)) | None => None end).
    cbn [app] in R2. rewrite R2. reflexivity. }
  destruct interactive.
  - cbn [app] in *.
    change (read_run (w_it :: ?r)) with (match read_run r with Some c => Some (mkContainer (workdir c) true (removed c) (volumes c) (variables c) (from_image c) (words c)) | None => None end).
    rewrite R3. reflexivity.
  - cbn [app] in *. rewrite R3. reflexivity.
Qed.
Print Assumptions C125_command_partial.

(** C125.  Whatever happened to the object and the files before: when a container is started,
    its image exists. *)
Theorem C125_exists : forall actions w w1, In (w1, Started) (act_all (None, w) actions) -> image w1 <> None.
Proof.
  intros actions w. generalize (@None (list source)) as c. revert w.
  induction actions as [|a actions IH]; intros w c w1 H; cbn [act_all] in H; [contradiction|].
  destruct (act (c, w) a) as [[c1 w2] out] eqn:E. apply in_app_or in H. destruct H as [H|H]; [|eapply IH; eassumption].
  destruct a as [now hub b ch| |]; cbn [act] in E; [|inversion E; subst; contradiction|inversion E; subst; contradiction].
  destruct (run_container c w now hub b ch) as [[c3 w3] o] eqn:R. inversion E; subst. destruct H as [H|[]]. inversion H; subst.
  unfold run_container in R. destruct (image w) as [t|] eqn:Ei.
  - destruct ch; [|inversion R; subst; congruence]. destruct (out_of_date c w) as [c4 l]. destruct l; inversion R; subst; congruence.
  - destruct b; [|discriminate]. destruct (if from_source w then rebuild w now else pull w hub) as [w4|]; [|discriminate].
    destruct (image w4) eqn:E4; inversion R; subst; congruence.
Qed.
Print Assumptions C125_exists.

(** C125.  The first checked run of an object with an image: it is refused exactly if PolyTracker
    was installed from source and a file other than Python code is newer than the image, and
    the error names exactly these files.  (Missing: Python code and later runs, for which it is
    false, see below.) *)
Theorem C125_checked_partial : forall w t now hub build, image w = Some t ->
  let newer s := In s (sources w) /\ t < smtime s /\ (forall p, skind s <> Below true p) /\ (forall p, skind s <> Below p true) in
  exists c, (run_container None w now hub build true = (c, w, Started) /\ ~ (from_source w = true /\ exists s, newer s)) \/
    (exists l, run_container None w now hub build true = (c, w, OutOfDate l) /\ from_source w = true /\ l <> [] /\ forall s, In s l <-> newer s).
Proof.
  intros w t now hub build E newer. unfold run_container, out_of_date, newer_sources. rewrite E. exists (Some (newer_sources w)). unfold newer_sources. rewrite E.
  assert (X : forall s, In s (filter (fun s => considered s && (t <? smtime s)) (sources w)) <-> newer s).
  { intro s. rewrite filter_In, andb_true_iff, N.ltb_lt. unfold considered, newer. destruct (skind s) as [|[] []]; cbn; split; intros H;
      repeat match goal with H : _ /\ _ |- _ => destruct H end; try discriminate;
      try (exfalso; match goal with H : forall p, _ <> Below true p |- _ => eapply H; reflexivity end);
      try (exfalso; match goal with H : forall p, _ <> Below p true |- _ => eapply H; reflexivity end);
      repeat split; try assumption; try (intros; discriminate). }
  destruct (from_source w) eqn:F.
  - destruct (filter _ (sources w)) as [|s l] eqn:L.
    + left. split; [reflexivity|]. intros (_ & s & H). apply X in H. destruct H.
    + right. exists (s :: l). split; [reflexivity|]. split; [reflexivity|]. split; [discriminate|exact X].
  - left. split; [reflexivity|]. intros [H _]. discriminate.
Qed.
Print Assumptions C125_checked_partial.

(** A call that meets the conditions, and a world with a newer file. *)
Example C125_case : read_command (cmd_args true true [47; 97] None [([72], [61; 32])] [112; 58; 49] [[45; 118]; [108; 115]]) =
    Some (mkContainer [47; 119; 111; 114; 107; 100; 105; 114] true true [([47; 97], [47; 119; 111; 114; 107; 100; 105; 114], [99; 97; 99; 104; 101; 100])]
      [([72], [61; 32])] [112; 58; 49] [[45; 118]; [108; 115]]) /\
  run_container None (mkWorld (Some 5) true [mkSource Top 4; mkSource (Below false false) 6]) 9 None true true =
    (Some [mkSource (Below false false) 6], mkWorld (Some 5) true [mkSource Top 4; mkSource (Below false false) 6], OutOfDate [mkSource (Below false false) 6]) /\
  In (mkWorld (Some 7) true [mkSource Top 4], Started) (act_all (None, mkWorld None true [mkSource Top 4]) [ARun 7 None true true]).
Proof. split; [vm_compute; reflexivity|]. split; [vm_compute; reflexivity|]. left. vm_compute. reflexivity. Qed.

(** Refuted: values with double quotes.  They are escaped though no shell reads them, so that
    the variable A in the container holds a backslash. *)
Theorem C125_quote_refuted : exists c, read_command (cmd_args true true [47] None [([65], [34])] [112] []) = Some c /\ variables c = [([65], [92; 34])].
Proof. eexists. split; vm_compute; reflexivity. Qed.
Print Assumptions C125_quote_refuted.
(** Refuted: directories with a colon; docker does not accept the words. *)
Theorem C125_colon_refuted : read_command (cmd_args true true [47; 97; 58; 98] None [] [112] []) = None.
Proof. vm_compute. reflexivity. Qed.
Print Assumptions C125_colon_refuted.
(** Refuted: that changed Python code is noticed. *)
Theorem C125_python_refuted : forall t, exists c, 
  run_container None (mkWorld (Some t) true [mkSource (Below true false) (t + 1)]) 0 None true true =
    (c, mkWorld (Some t) true [mkSource (Below true false) (t + 1)], Started).
Proof. intro t. eexists. reflexivity. Qed.
Print Assumptions C125_python_refuted.
(** Refuted: later runs of an object.  It refuses after the image was rebuilt, and it starts
    an old image after a file was changed, since the files are compared once. *)
Theorem C125_later_refuted :
  (exists l, map snd (act_all (None, mkWorld (Some 5) true [mkSource Top 6]) [ARun 7 None true true; ARebuild 8; ARun 9 None true true]) = [OutOfDate l; OutOfDate l]) /\
  act_all (None, mkWorld (Some 5) true [mkSource Top 4]) [ARun 7 None true true; AChange [mkSource Top 8]; ARun 9 None true true] =
    [(mkWorld (Some 5) true [mkSource Top 4], Started); (mkWorld (Some 5) true [mkSource Top 8], Started)].
Proof. split; [eexists|]; vm_compute; reflexivity. Qed.
Print Assumptions C125_later_refuted.
