(** Proofs about the commands of build.py. *)
From Coq Require Import NArith List Bool String Lia.
From Verif Require Import M_Base M_PyBuild S_Build P_Base.
Import ListNotations.
Open Scope N_scope.
Open Scope list_scope.

Lemma str_eqb_spec a b : reflect (a = b) (str_eqb a b).
Proof. unfold str_eqb. destruct (list_eq_dec N.eq_dec a b); now constructor. Qed.
Lemma path_eqb_spec a b : reflect (a = b) (path_eqb a b).
Proof.
  unfold path_eqb. destruct a as [d n], b as [d' n']. cbn [p_dir p_name]. destruct (str_eqb_spec d d'), (str_eqb_spec n n'); constructor; congruence.
Qed.
Lemma write_same f p a : write f p a p = Some a.
Proof. unfold write. destruct (path_eqb_spec p p); congruence. Qed.
Lemma write_other f p a q : q <> p -> write f p a q = f q.
Proof. unfold write. destruct (path_eqb_spec q p); congruence. Qed.

(** ** Names *)
Lemma split_last_none c s : split_last c s = None <-> ~ In c s.
Proof.
  induction s as [|x r IH]; [cbn; intuition|]. cbn [split_last In]. destruct (split_last c r) as [[b a]|].
  - split; [discriminate|]. intros H. destruct IH as [_ IH]. exfalso. assert (X : ~ In c r) by tauto. specialize (IH X). discriminate.
  - destruct (N.eqb_spec x c).
    + split; [discriminate|]. tauto.
    + split; [|reflexivity]. intros _ [|]; [auto|]. now apply IH.
Qed.
Lemma split_last_some c s b a : split_last c s = Some (b, a) <-> s = b ++ c :: a /\ ~ In c a.
Proof.
  revert b a. induction s as [|x r IH]; intros b a.
  - cbn. split; [discriminate|]. intros [E _]. destruct b; discriminate.
  - cbn [split_last]. destruct (split_last c r) as [[b' a']|] eqn:E.
    + destruct (proj1 (IH b' a') eq_refl) as [-> K]. split.
      * intros H. injection H as <- <-. split; [reflexivity|exact K].
      * intros [Q K2]. destruct b as [|y b]; cbn [app] in Q.
        -- injection Q as -> <-. destruct K2. apply in_or_app. right. now left.
        -- injection Q as -> Q. pose proof (proj2 (IH b a) (conj Q K2)) as G. now injection G as -> ->.
    + apply split_last_none in E. destruct (N.eqb_spec x c) as [->|Hn].
      * split.
        -- intros H. injection H as <- <-. split; [reflexivity|exact E].
        -- intros [Q K2]. destruct b as [|y b]; cbn [app] in Q; [now injection Q as <-|]. injection Q as _ Q. destruct E. rewrite Q. apply in_or_app. right. now left.
      * split; [discriminate|]. intros [Q K2]. destruct b as [|y b]; cbn [app] in Q; [congruence|]. injection Q as _ Q. destruct E. rewrite Q. apply in_or_app. right. now left.
Qed.

Lemma has_extension_split n b : has_extension n b <-> b <> [] /\ exists e, e <> [] /\ split_last 46 n = Some (b, e).
Proof.
  unfold has_extension. split; intros (B & e & H).
  - split; [exact B|]. exists e. destruct H as (H1 & H2 & H3). split; [exact H1|]. now apply split_last_some.
  - split; [exact B|]. exists e. destruct H as (H1 & H2). apply split_last_some in H2 as [H2 H3]. auto.
Qed.
Lemma stem_base n : base_name n (stem n).
Proof.
  unfold base_name, stem. destruct (split_last 46 n) as [[b e]|] eqn:E.
  - destruct b as [|x b].
    + right. split; [reflexivity|]. intros b (B & e' & _ & H)%has_extension_split. congruence.
    + destruct e as [|y e].
      * right. split; [reflexivity|]. intros b' (B & e' & K & H)%has_extension_split. congruence.
      * left. apply has_extension_split. split; [discriminate|]. exists (y :: e). split; [discriminate|exact E].
  - right. split; [reflexivity|]. intros b (B & e' & _ & H)%has_extension_split. congruence.
Qed.
Lemma base_unique n b b' : base_name n b -> base_name n b' -> b = b'.
Proof.
  intros [H|[-> H]] [H'|[-> H']]; [| | |reflexivity].
  - apply has_extension_split in H as (_ & e & _ & H). apply has_extension_split in H' as (_ & e' & _ & H'). congruence.
  - now destruct (H' b).
  - now destruct (H b').
Qed.
Lemma base_stem n b : base_name n b -> stem n = b.
Proof. intros H. exact (base_unique _ _ _ (stem_base n) H). Qed.
Lemma stem_ext b e : b <> [] -> e <> [] -> ~ In 46 e -> stem (b ++ 46 :: e) = b.
Proof. intros B E K. apply base_stem. left. split; [exact B|]. exists e. auto. Qed.
Lemma stem_nonempty n : n <> [] -> stem n <> [].
Proof.
  intros H. destruct (stem_base n) as [[B _]|[E _]]; [exact B|congruence].
Qed.
Lemma stem_bc b : b <> [] -> stem (b ++ lit ".bc") = b.
Proof. intros B. apply (stem_ext b [98; 99]); [exact B|discriminate|]. intros [|[|[]]]; discriminate. Qed.
Lemma stem_instrumented b : stem (b ++ lit ".instrumented.bc") = b ++ lit ".instrumented".
Proof.
  change (lit ".instrumented.bc") with (lit ".instrumented" ++ 46 :: [98; 99]). rewrite app_assoc. apply stem_ext; [|discriminate|].
  - destruct b; discriminate.
  - intros [|[|[]]]; discriminate.
Qed.

(** ** Targets in the journal *)
Lemma find_output_some t l p : find_output t l = Some p ->
  exists outs o outs', l = outs ++ o :: outs' /\ p = parse_path (o_path o) /\ p_name p = t /\
    forall o', In o' outs -> p_name (parse_path (o_path o')) <> t.
Proof.
  induction l as [|o r IH]; intros H; [discriminate|]. cbn [find_output] in H. destruct (str_eqb_spec (p_name (parse_path (o_path o))) t) as [E|E].
  - injection H as <-. exists [], o, r. split; [reflexivity|]. split; [reflexivity|]. split; [exact E|intros o' []].
  - destruct (IH H) as (outs & o1 & outs' & -> & H2 & H3 & H4). exists (o :: outs), o1, outs'. split; [reflexivity|]. split; [exact H2|]. split; [exact H3|].
    intros o' [<-|I]; auto.
Qed.
Lemma find_output_none t l : find_output t l = None <-> forall o, In o l -> p_name (parse_path (o_path o)) <> t.
Proof.
  induction l as [|o r IH]; [cbn; intuition|]. cbn [find_output]. destruct (str_eqb_spec (p_name (parse_path (o_path o))) t) as [E|E].
  - split; [discriminate|]. intros H. destruct (H o (or_introl eq_refl) E).
  - rewrite IH. split; intros H o'; [intros [<-|I]; auto|]. intros I. apply H. now right.
Qed.
Lemma find_target_some t j e p : find_target t j = Some (e, p) <-> builds j t e p.
Proof.
  split.
  - induction j as [|x j IH]; intros H; [discriminate|]. cbn [find_target] in H. destruct (find_output t (e_outputs x)) as [q|] eqn:E.
    + injection H as <- <-. apply find_output_some in E as (outs & o & outs' & H1 & H2 & H3 & H4).
      exists [], j, outs, o, outs'. split; [reflexivity|]. split; [exact H1|]. split; [exact H2|]. split; [exact H3|]. split; [intros e' o' []|exact H4].
    + destruct (IH H) as (bf & af & outs & o & outs' & -> & H2 & H3 & H4 & H5 & H6). exists (x :: bf), af, outs, o, outs'.
      split; [reflexivity|]. split; [exact H2|]. split; [exact H3|]. split; [exact H4|]. split; [|exact H6]. intros e' o' [<-|I] J; [|eauto].
      exact (proj1 (find_output_none _ _) E o' J).
  - intros (bf & af & outs & o & outs' & -> & H2 & -> & H4 & H5 & H6). induction bf as [|x bf IH]; cbn [app find_target].
    + rewrite H2. clear - H4 H6. induction outs as [|y outs IH]; cbn [app find_output].
      * destruct (str_eqb_spec (p_name (parse_path (o_path o))) t); [reflexivity|congruence].
      * destruct (str_eqb_spec (p_name (parse_path (o_path y))) t) as [E|E]; [destruct (H6 y (or_introl eq_refl) E)|]. apply IH. intros o' I. apply H6. now right.
    + replace (find_output t (e_outputs x)) with (@None path).
      * apply IH. intros e' o' I. apply H5. now right.
      * symmetry. apply find_output_none. intros o' I. apply (H5 x o'); [now left|exact I].
Qed.
Lemma builds_unique j t e p e' p' : builds j t e p -> builds j t e' p' -> e = e' /\ p = p'.
Proof. intros A B. apply find_target_some in A, B. split; congruence. Qed.
Lemma builds_name j t e p : builds j t e p -> p_name p = t.
Proof. now intros (bf & af & outs & o & outs' & H1 & H2 & H3 & H4 & H5). Qed.

(** ** Flags *)
Lemma kept_filter {A} (P : A -> Prop) (f : A -> bool) l : (forall x, In x l -> f x = true <-> P x) -> kept P l (filter f l).
Proof.
  induction l as [|x l IH]; intros H; [constructor|]. cbn [filter]. specialize (IH (fun y I => H y (or_intror I))).
  pose proof (H x (or_introl eq_refl)) as Q. destruct (f x).
  - constructor; [now apply Q|exact IH].
  - constructor; [|exact IH]. intros K. apply Q in K. discriminate.
Qed.
Lemma existsb_str x l : existsb (str_eqb x) l = true <-> In x l.
Proof.
  rewrite existsb_exists. split; [intros (y & I & E)|intros I; exists x; split; [exact I|]].
  - destruct (str_eqb_spec x y); [now subst|discriminate].
  - destruct (str_eqb_spec x x); congruence.
Qed.
Lemma lower_args_spec v e : link_args v e (lower_args v e).
Proof.
  eexists. eexists. split; [|split; [|reflexivity]].
  - apply kept_filter. intros x _. rewrite negb_true_iff. rewrite <- not_true_iff_false, existsb_str, !in_app_iff, !in_map_iff. cbn [In]. split.
    + intros H. split; [|split].
      * intros ->. apply H. auto.
      * intros i I ->. apply H. left. eauto.
      * intros o I ->. apply H. right. right. eauto.
    + intros (H1 & H2 & H3) [(i & <- & I)|[[E|[]]|(o & <- & I)]]; [now apply (H2 i)|congruence|now apply (H3 o)].
  - apply kept_filter. intros i _. destruct (i_kind i); intuition congruence.
Qed.

Lemma no_joined args out : (forall x, In x args -> forall r, x = 45 :: 111 :: r -> r = []) -> joined_output args out = out.
Proof.
  induction args as [|x args IH]; intros H; [reflexivity|]. specialize (IH (fun y I => H y (or_intror I))). specialize (H x (or_introl eq_refl)).
  assert (Q : forall r, x = 45 :: 111 :: r -> r = []) by exact H. clear H.
  cbn [joined_output]. destruct x as [|c x]; [exact IH|]. destruct (N.eq_dec c 45) as [->|C].
  - destruct x as [|d x]; [exact IH|]. destruct (N.eq_dec d 111) as [->|D].
    + rewrite (Q x eq_refl). exact IH.
    + destruct d as [|d]; [exact IH|]. do 7 (try (destruct d as [d|d|]; try exact IH; try congruence)).
  - destruct c as [|c]; [exact IH|]. do 6 (try (destruct c as [c|c|]; try exact IH; try congruence)).
Qed.
Lemma lower_output v e out : separate_output e -> paths_are_paths v e -> joined_output (lower_args v e) out = out.
Proof.
  intros S (P1 & P2 & P3 & P4). apply no_joined. unfold lower_args. intros x I r E.
  assert (NF : forall y z, no_flag y -> y ++ 47 :: z <> 45 :: 111 :: r).
  { intros [|c y] z K; cbn [app]; [discriminate|]. intros Q. injection Q as -> Q. now apply (K y). }
  apply in_app_or in I as [I|I].
  - apply filter_In in I as [I F]. destruct (S x I) as [->|N0].
    + injection E as ->. reflexivity.
    + destruct N0. exists r. exact E.
  - apply in_app_or in I as [I|I].
    + subst x. destruct I as [I|[I|[I|[]]]]; discriminate.
    + apply in_app_or in I as [I|I].
      * apply in_map_iff in I as (i & <- & I). apply filter_In in I as [I _]. now destruct (P4 i I (111 :: r)).
      * subst x. cbn [In] in I. destruct I as [I|[I|[I|[I|[I|[I|[I|[I|[I|[]]]]]]]]]]; try discriminate;
          solve [exfalso; revert I; now apply NF | exfalso; now apply (P3 (111 :: r))].
Qed.

Lemma flags_group v (p d : str) l x :
  In x ([p ++ abi_path v ++ 47 :: d] ++ map (fun item => p ++ abi_path v ++ 47 :: item) l) <->
  exists n, (n = d \/ In n l) /\ x = p ++ (compiler_dir v ++ lit "/abi_lists/") ++ n.
Proof.
  assert (D : forall n, abi_path v ++ 47 :: n = (compiler_dir v ++ lit "/abi_lists/") ++ n).
  { intros n. unfold abi_path. rewrite <- !app_assoc. reflexivity. }
  rewrite in_app_iff, in_map_iff. cbn [In]. split.
  - intros [[<-|[]]|(n & <- & I)]; [exists d|exists n]; rewrite D; auto.
  - intros (n & [->|I] & ->); rewrite <- D; [left; now left|right; exists n; auto].
Qed.
Lemma flags_spec v o : pass_flags v o (instrument_flags v (ignore_lists o) (taint o) (ftrace o)).
Proof.
  unfold pass_flags, instrument_flags, passes_flag. fold (pass_path v).
  change (lit "/polytracker_abilist.txt") with (47 :: lit "polytracker_abilist.txt"). change (lit "/dfsan_abilist.txt") with (47 :: lit "dfsan_abilist.txt").
  eexists. split.
  - apply f_equal2; [|reflexivity]. do 4 apply f_equal. destruct (taint o), (ftrace o); reflexivity.
  - intros x. rewrite in_app_iff. split.
    + intros [H|H].
      * destruct (taint o); [|destruct H]. rewrite app_assoc in H. apply in_app_or in H as [H|H]; apply flags_group in H as (n & H); exists n; tauto.
      * destruct (ftrace o); [|destruct H]. apply flags_group in H as (n & H). exists n. tauto.
    + intros (n & [(-> & H)|[(-> & H)|(-> & H)]]).
      * left. rewrite app_assoc. apply in_or_app. left. apply flags_group. eauto.
      * left. rewrite app_assoc. apply in_or_app. right. apply flags_group. eauto.
      * right. apply flags_group. eauto.
Qed.

(** ** One target *)
Definition out_path (b : str) : path := mkPath [] (b ++ lit ".instrumented").
Lemma target_run v o j t f e p a : builds j t e p -> t <> [] -> f p = Some a ->
  let b := stem t in
  exists program f4, instrumented v o e a program /\
    instrument_target v o j t f = Ok (write f4 (joined_output (lower_args v e) (out_path b)) program) /\
    forall q, f4 q = f q \/ (written (p_dir p) b q /\ f4 q <> None).
Proof.
  intros Bu Tn Fp b. assert (Nm := builds_name _ _ _ _ Bu). apply find_target_some in Bu.
  assert (B : b <> []) by now apply stem_nonempty.
  set (bc := mkPath (p_dir p) (b ++ lit ".bc")). set (ob := mkPath (p_dir p) (b ++ lit ".opt.bc")). set (ib := mkPath [] (b ++ lit ".instrumented.bc")).
  set (pre := if cflog o then Transformed [lit "-load"; pass_path v; lit "-load-pass-plugin"; pass_path v; lit "-passes=pt-tcf"] (Bitcode a) else Bitcode a).
  set (fl := instrument_flags v (ignore_lists o) (taint o) (ftrace o)).
  exists (Linked (e_tool e) (lower_args v e) (Transformed fl (Transformed [lit "-O3"] pre))).
  set (f2 := if cflog o then write (write f bc (Bitcode a)) bc pre else write f bc (Bitcode a)).
  exists (write (write f2 ob (Transformed [lit "-O3"] pre)) ib (Transformed fl (Transformed [lit "-O3"] pre))). split; [|split].
  - exists fl, (lower_args v e). split; [apply flags_spec|]. split; [apply lower_args_spec|reflexivity].
  - unfold instrument_target. rewrite Bu. destruct (str_eqb_spec (p_name p) []) as [E|_]; [congruence|].
    unfold with_suffix. cbn [p_dir p_name]. rewrite Nm. fold b. rewrite (stem_bc b B). fold bc ob ib. rewrite stem_instrumented. fold (out_path b).
    unfold extract_bitcode, preopt_instrument, optimize_bitcode, instrument_bitcode, lower_bitcode, exec. rewrite Fp. cbn [bind].
    assert (G : f2 bc = Some pre) by (unfold f2, pre; destruct (cflog o); apply write_same).
    assert (E2 : (if cflog o then match write f bc (Bitcode a) bc with
        | Some x => Ok (write (write f bc (Bitcode a)) bc (Transformed [lit "-load"; pass_path v; lit "-load-pass-plugin"; pass_path v; lit "-passes=pt-tcf"] x))
        | None => Exit end else Ok (write f bc (Bitcode a))) = Ok f2).
    { rewrite write_same. unfold f2, pre. destruct (cflog o); reflexivity. }
    rewrite E2. cbn [bind]. rewrite G. cbn [bind]. rewrite write_same. cbn [bind]. now rewrite write_same.
  - intros q. unfold written. fold bc ob ib.
    destruct (path_eqb_spec q ib) as [->|N1]; [right; rewrite write_same; split; [auto|discriminate]|]. rewrite write_other by exact N1.
    destruct (path_eqb_spec q ob) as [->|N2]; [right; rewrite write_same; split; [auto|discriminate]|]. rewrite write_other by exact N2.
    unfold f2. destruct (path_eqb_spec q bc) as [->|N3].
    + right. split; [auto|]. destruct (cflog o); rewrite write_same; discriminate.
    + left. destruct (cflog o); now rewrite ?write_other.
Qed.
Lemma target_ok v o j t f f' : instrument_target v o j t f = Ok f' ->
  exists e p a, builds j t e p /\ t <> [] /\ f p = Some a.
Proof.
  unfold instrument_target. destruct (find_target t j) as [[e p]|] eqn:E; [|discriminate]. apply find_target_some in E.
  destruct (str_eqb_spec (p_name p) []) as [K|K]; [discriminate|]. intros H. destruct (f p) as [a|] eqn:F.
  - exists e, p, a. split; [exact E|]. split; [|exact F]. now rewrite <- (builds_name _ _ _ _ E).
  - unfold extract_bitcode, exec in H. rewrite F in H. discriminate.
Qed.

(** ** Clashes *)
Lemma suffix_bc_inst (a b : str) : a ++ lit ".bc" <> b ++ lit ".instrumented".
Proof.
  change (lit ".bc") with ([46; 98] ++ [99]). change (lit ".instrumented") with (lit ".instrumente" ++ [100]). rewrite !app_assoc.
  intros H. apply app_inj_tail in H as [_ H]. discriminate.
Qed.
Lemma plain_not_written d b p : plain_name (p_name p) -> ~ written d b p.
Proof.
  intros [H1 H2] [->|[->|[->| ->]]]; cbn [p_name] in *.
  - apply H1. now exists b.
  - apply H1. exists (b ++ lit ".opt"). now rewrite <- app_assoc.
  - apply H1. exists (b ++ lit ".instrumented"). now rewrite <- app_assoc.
  - apply H2. now exists b.
Qed.
Lemma out_not_written d b b' : b <> b' -> ~ written d b' (out_path b).
Proof.
  intros N0 W. unfold out_path in W. destruct W as [W|[W|[W|W]]]; injection W as _ W || injection W as W.
  - symmetry in W. now apply suffix_bc_inst in W.
  - change (lit ".opt.bc") with (lit ".opt" ++ lit ".bc") in W. rewrite app_assoc in W. symmetry in W. now apply suffix_bc_inst in W.
  - change (lit ".instrumented.bc") with (lit ".instrumented" ++ lit ".bc") in W. rewrite app_assoc in W. symmetry in W. now apply suffix_bc_inst in W.
  - apply app_inv_tail in W. contradiction.
Qed.
Lemma out_written d b : written d b (out_path b).
Proof. right. right. right. reflexivity. Qed.
