(** The comparison of traces, for the files of runs. *)
From Coq Require Import NArith ZArith List Bool Lia Sorted.
From Verif Require Import M_Base M_Encoding M_Memory M_Labels M_CfLog M_OutputFile M_PyNode M_PySections M_PyFile M_PyAnalysis M_PyCompare M_Api
  S_Provenance S_Labels S_Strings S_CallStack S_OutputFile S_Api S_PyAnalysis S_Compare
  P_Base P_Encoding P_Labels P_PyNode P_History P_ControlFlow P_CfLog P_ApiMem P_Api P_ApiFile P_PyAnalysis P_ApiRun P_PyCompare.
Import ListNotations.
Open Scope N_scope.

(** ** sorted *)
Lemma in_insert x y l : In y (insert_sorted x l) <-> y = x \/ In y l.
Proof.
  induction l as [|z l IH]; cbn [insert_sorted]; [cbn [In]; intuition|]. destruct (x <=? z); cbn [In]; [intuition|]. rewrite IH. intuition.
Qed.
Lemma insert_sorted_ok x l : StronglySorted N.le l -> StronglySorted N.le (insert_sorted x l).
Proof.
  induction 1 as [|z l H IH F]; cbn [insert_sorted]; [repeat constructor|]. destruct (N.leb_spec x z) as [L|L].
  - constructor; [now constructor|]. constructor; [exact L|]. eapply Forall_impl; [|exact F]. intros. lia.
  - constructor; [exact IH|]. apply Forall_forall. intros y Y. apply in_insert in Y as [->|Y]; [lia|].
    rewrite Forall_forall in F. now apply F.
Qed.
Lemma py_sorted_in l x : In x (py_sorted l) <-> In x l.
Proof.
  unfold py_sorted. induction l as [|y l IH]; cbn [fold_right]; [reflexivity|]. rewrite in_insert, IH. cbn [In]. intuition.
Qed.
Lemma py_sorted_ok l : StronglySorted N.le (py_sorted l).
Proof. unfold py_sorted. induction l as [|y l IH]; cbn [fold_right]; [constructor|now apply insert_sorted_ok]. Qed.

(** ** The offsets of a label *)
Section Offsets.
  Context (d : tdfile) (t : table).
  Hypothesis W : wf_table t.
  Hypothesis Dec : forall l tn, view t l = Some tn -> td_decode_node d l = Ok (node_of tn).

  Record off_inv (root : N) (stack seen acc : list N) : Prop := {
    of_use : forall x, In x stack \/ In x seen -> in_use t x /\ built_from (view t) root x;
    of_root : In root stack \/ In root seen;
    of_closed : forall x m, In x seen -> component (view t) x m -> In m stack \/ In m seen;
    of_acc : forall o, In o acc <-> exists x cf i, In x seen /\ view t x = Some (TSource cf i o) }.

  Lemma offsets_walk root : in_use t root ->
    exists F acc' seen', (forall o, In o acc' <-> exists i, derives (view t) root (i, o)) /\
      forall fuel, (F <= fuel)%nat -> dfs_walk d offsets_visit fuel root [] [] = Ok (acc', seen').
  Proof.
    intros U.
    destruct (dfs_total d t offsets_visit W Dec (off_inv root)) with (stack := [root]) (seen := @nil N) (acc := @nil N)
      as (F & acc' & seen' & I & R).
    - intros l rest seen acc [I1 I2 I3 I4] Hl. constructor.
      + intros x Hx. apply I1. destruct Hx; [left; now right|now right].
      + destruct I2 as [[<-|H]|H]; auto.
      + intros x m Hx Hc. destruct (I3 x m Hx Hc) as [[<-|H]|H]; auto.
      + exact I4.
    - intros l rest seen acc [I1 I2 I3 I4] Hl.
      destruct (I1 l) as [Ul Bl]; [left; now left|]. destruct (wf_view t l W Ul) as (tn & _ & V & Wt & _).
      assert (P := push_component t l tn V).
      assert (Use : forall x, In x (push tn ++ rest) \/ In x (l :: seen) -> in_use t x /\ built_from (view t) root x).
      { intros x [H|[<-|H]].
        - apply in_app_or in H as [H|H]; [|apply I1; left; now right]. apply P in H. split.
          + apply component_lt in H; auto. destruct Ul. split; lia.
          + eapply built_from_trans; [exact Bl|]. econstructor; [exact H|constructor].
        - apply I1. left. now left.
        - apply I1. now right. }
      assert (Cl : forall x m, In x (l :: seen) -> component (view t) x m -> In m (push tn ++ rest) \/ In m (l :: seen)).
      { intros x m [<-|Hx] Hc.
        - left. apply in_or_app. left. now apply P.
        - destruct (I3 x m Hx Hc) as [[<-|H]|H].
          + right. now left.
          + left. apply in_or_app. now right.
          + right. now right. }
      assert (Rt : In root (push tn ++ rest) \/ In root (l :: seen)).
      { destruct I2 as [[<-|H]|H].
        - right. now left.
        - left. apply in_or_app. now right.
        - right. now right. }
      assert (Same : forall acc1, (forall o, In o acc1 <-> In o acc \/ exists cf i, tn = TSource cf i o) ->
        off_inv root (push tn ++ rest) (l :: seen) acc1).
      { intros acc1 E. constructor; auto. intros o. rewrite E, I4. split.
        - intros [(x & cf & i & H1 & H2)|(cf & i & ->)].
          + exists x, cf, i. split; [now right|exact H2].
          + exists l, cf, i. split; [now left|exact V].
        - intros (x & cf & i & [<-|H1] & H2).
          + right. exists cf, i. congruence.
          + left. exists x, cf, i. auto. }
      destruct tn as [cf i o|cf f la|cf lo hi].
      + eexists _, _, _. split; [exact V|]. split; [reflexivity|]. split; [apply incl_refl|]. apply Same. intros o'. cbn [In]. split.
        * intros [<-|H]; [right; exists cf, i; reflexivity|now left].
        * intros [H|(cf' & i' & E)]; [now right|]. left. congruence.
      + eexists _, acc, _. split; [exact V|]. split; [reflexivity|]. split; [apply incl_refl|]. apply Same.
        intros o'. split; [now left|]. intros [H|(? & ? & E)]; [exact H|discriminate].
      + eexists _, acc, _. split; [exact V|]. split; [reflexivity|]. split; [apply incl_refl|]. apply Same.
        intros o'. split; [now left|]. intros [H|(? & ? & E)]; [exact H|discriminate].
    - constructor.
      + intros x [[<-|[]]|[]]. split; [exact U|constructor].
      + left. now left.
      + intros x m [].
      + intros o. split; [intros []|]. intros (x & _ & _ & [] & _).
    - exists F, acc', seen'. split; [|exact R]. destruct I as [I1 I2 I3 I4].
      assert (All : forall x, built_from (view t) root x -> In x seen').
      { assert (G : forall a x, built_from (view t) a x -> In a seen' -> In x seen').
        { induction 1 as [a|a m x Hc Hb IH]; [auto|]. intros Ha. apply IH. destruct (I3 a m Ha Hc) as [[]|H]; exact H. }
        intros x H. apply (G root x H). destruct I2 as [[]|H2]; exact H2. }
      intros o. rewrite I4. split.
      + intros (x & cf & i & H1 & H2). exists i, x, cf. split; [apply I1; now right|exact H2].
      + intros (i & x & cf & H1 & H2). exists x, cf, i. split; [now apply All|exact H2].
  Qed.
End Offsets.

(** ** The records of a log *)
Lemma tainted_app {A} (a b : list (py_cf_event A)) : tainted_of (a ++ b) = tainted_of a ++ tainted_of b.
Proof. induction a as [|[s|s|s l] a IH]; cbn [app tainted_of]; [reflexivity| | |]; now rewrite IH. Qed.
Lemma tainted_leave {A} (s : list A) : tainted_of (leave_all s) = [].
Proof. unfold leave_all. induction (rev s) as [|g r IH]; [reflexivity|exact IH]. Qed.

Lemma entries_spec (P : N -> list N -> Prop) d : forall evs,
  (forall s l, In (s, l) (tainted_of evs) -> exists F os, P l os /\ forall fuel, (F <= fuel)%nat -> input_offsets fuel d l = Ok os) ->
  exists F es, (forall fuel, (F <= fuel)%nat -> tainted_entries fuel d evs = Ok es) /\
    Forall2 (fun e ev => snd e = fst ev /\ P (snd ev) (fst e)) es (tainted_of evs).
Proof.
  induction evs as [|[s|s|s l] evs IH]; intros H.
  - exists O, []. split; [reflexivity|constructor].
  - destruct (IH H) as (F & es & R & X). exists F, es. auto.
  - destruct (IH H) as (F & es & R & X). exists F, es. auto.
  - destruct (H s l (or_introl eq_refl)) as (F1 & os & Po & R1). destruct (IH (fun s' l' I => H s' l' (or_intror I))) as (F2 & es & R2 & X).
    exists (Nat.max F1 F2), ((os, s) :: es). split.
    + intros fuel L. cbn [tainted_entries]. rewrite R1 by lia. cbn [bind]. rewrite R2 by lia. reflexivity.
    + cbn [tainted_of]. constructor; auto.
Qed.

Lemma run_tainted_labels {A} (name : N -> option A) s es rs s' : run_stack name s es rs s' -> forall st l, In (st, l) (tainted_of rs) ->
  exists f, In (CfTainted l f) es.
Proof.
  induction 1 as [s|s f g es rs s' H R IH|s f g es rs s' H R IH|s f g l es rs s' H R IH|s h g e es rs s' H H1 H2 R IH];
    intros st l' I; cbn [tainted_of] in I.
  - destruct I.
  - destruct (IH _ _ I) as (f' & X). exists f'. now right.
  - destruct (IH _ _ I) as (f' & X). exists f'. now right.
  - destruct I as [I|I]; [injection I as _ <-; exists f; now left|]. destruct (IH _ _ I) as (f' & X). exists f'. now right.
  - exact (IH _ _ I).
Qed.

Lemma run_offsets base r s g d paths fnames bits l : api_inv base r s g -> opened r s g d paths fnames bits -> a_lab s l <> [] ->
  exists F os, (StronglySorted N.le os /\ forall o, In o os <-> exists i, In (i, o) (a_lab s l)) /\
    forall fuel, (F <= fuel)%nat -> input_offsets fuel d l = Ok os.
Proof.
  intros A O K. assert (I := reachable_inv _ (ai_tr _ _ _ _ A)).
  assert (U : in_use (r_tab r) l) by (now apply (proj1 (ai_lab _ _ _ _ A))).
  destruct (offsets_walk d (r_tab r) (proj1 I) (op_dec _ _ _ _ _ _ _ O) l U) as (F & acc & seen & E & R).
  exists F, (py_sorted acc). split; [split; [apply py_sorted_ok|]|].
  - intros o. rewrite py_sorted_in, E. split; intros (i & X); exists i; now apply (proj2 (ai_lab _ _ _ _ A)).
  - intros fuel L. unfold input_offsets. rewrite (R fuel L). reflexivity.
Qed.

Lemma run_entries base r s g d paths fnames bits demangle ids rs active : api_inv base r s g -> opened r s g d paths fnames bits ->
  run_stack (get (map demangle ids)) [] (a_log s) rs active -> (forall l f, In (CfTainted l f) (a_log s) -> a_lab s l <> []) ->
  exists F es, (forall fuel, (F <= fuel)%nat -> cflog_entries fuel demangle ids d = Ok es) /\
    records s (tainted_of rs) es.
Proof.
  intros A O R K.
  destruct (entries_spec (fun l os => StronglySorted N.le os /\ forall o, In o os <-> exists i, In (i, o) (a_lab s l)) d (rs ++ leave_all active)) as (F & es & E & X).
  - intros st l I. rewrite tainted_app, tainted_leave, app_nil_r in I. destruct (run_tainted_labels _ _ _ _ _ R st l I) as (f & J).
    exact (run_offsets _ _ _ _ _ _ _ _ l A O (K l f J)).
  - rewrite tainted_app, tainted_leave, app_nil_r in X. exists F, es. split; [|exact X]. intros fuel L. unfold cflog_entries.
    rewrite (op_log _ _ _ _ _ _ _ O). cbn [bind].
    assert (Y := run_reported (list_eqb N.eqb) (get (map demangle ids)) offs_eqb [] (a_log s) rs active R (ai_cfl _ _ _ _ A)).
    unfold cf_bytes in *. cbn [rev] in Y. change (py_cf_iter (list_eqb N.eqb) (get (map demangle ids)) (concat (map cf_buffer (a_log s))) = Ok (rs ++ leave_all active)) in Y.
    rewrite Y. cbn [bind]. now apply E.
Qed.

(** ** OutputInputMapping is InputOutputMapping the other way round *)
Definition swap {A B} (p : A * B) : B * A := (snd p, fst p).
Lemma oi_dfs d s : forall fuel stack seen acc,
  dfs_loop d (oi_visit d s) fuel stack seen (map swap acc) =
  match dfs_loop d (mapping_visit d s) fuel stack seen acc with Ok (a, sn) => Ok (map swap a, sn) | Exit => Exit | UB => UB | Fuel => Fuel end.
Proof.
  induction fuel as [|f IH]; intros stack seen acc; destruct stack as [|l rest]; cbn [dfs_loop]; try reflexivity.
  destruct (set_mem l seen); [apply IH|]. destruct (td_decode_node d l) as [n| | |]; try reflexivity. cbn [bind].
  destruct n as [|i o cf|lt rt cf|fi la cf]; cbn [oi_visit mapping_visit bind]; try apply IH.
  destruct (td_fd_header d (sk_fdidx s)) as [sp| | |]; try reflexivity. cbn [bind].
  destruct (td_fd_header d i) as [np| | |]; try reflexivity. cbn [bind].
  rewrite <- IH, map_app. reflexivity.
Qed.
Lemma oi_loop_swap d fuel : forall sinks acc,
  oi_loop fuel d sinks (map swap acc) = match mapping_loop fuel d sinks acc with Ok a => Ok (map swap a) | Exit => Exit | UB => UB | Fuel => Fuel end.
Proof.
  induction sinks as [|s sinks IH]; intros acc; cbn [oi_loop mapping_loop]; [reflexivity|]. unfold dfs_walk. rewrite oi_dfs.
  destruct (dfs_loop d (mapping_visit d s) fuel [sk_label s] [] acc) as [[a sn]| | |]; cbn [bind fst]; auto.
Qed.
Lemma oi_swap d fuel m : py_mapping fuel d = Ok m -> oi_mapping fuel d = Ok (map swap m).
Proof.
  unfold py_mapping, oi_mapping. destruct (td_sinks d) as [sinks| | |]; try discriminate. cbn [bind]. intros H.
  change (@nil (file_offset_out * file_offset_in)) with (map (@swap file_offset_in file_offset_out) []). rewrite oi_loop_swap, H. reflexivity.
Qed.

(** ** Dictionaries of sets *)
Section Dicts.
  Context {K V : Type} (keqb : K -> K -> bool) (veqb : V -> V -> bool).
  Hypothesis Ke : forall a b, keqb a b = true <-> a = b.
  Hypothesis Ve : forall a b, veqb a b = true <-> a = b.
  Lemma keqb_false a b : keqb a b = false <-> a <> b.
  Proof. rewrite <- not_true_iff_false, Ke. reflexivity. Qed.
  Lemma in_nub l x : In x (nub keqb l) <-> In x l.
  Proof.
    induction l as [|y l IH]; cbn [nub]; [reflexivity|]. cbn [In]. rewrite filter_In, negb_true_iff, keqb_false, IH. split.
    - intros [->|[H _]]; auto.
    - intros [->|H]; [now left|]. destruct (keqb y x) eqn:E; [left; now apply Ke|right]. split; [exact H|now apply keqb_false].
  Qed.
  Lemma nub_nodup l : NoDup (nub keqb l).
  Proof.
    induction l as [|y l IH]; cbn [nub]; constructor.
    - rewrite filter_In, negb_true_iff, keqb_false. intros [_ H]. now apply H.
    - now apply NoDup_filter.
  Qed.
  Lemma in_keys (m : list (K * V)) k : In k (keys keqb m) <-> exists v, In (k, v) m.
  Proof.
    unfold keys. rewrite in_nub, in_map_iff. split.
    - intros ([k' v] & <- & H). exists v. exact H.
    - intros (v & H). exists (k, v). auto.
  Qed.
  Lemma in_under (m : list (K * V)) k v : In v (under keqb m k) <-> In (k, v) m.
  Proof.
    unfold under. rewrite in_map_iff. split.
    - intros ([k' v'] & <- & H). apply filter_In in H as [H E]. cbn [fst] in E. apply Ke in E as ->. exact H.
    - intros H. exists (k, v). split; [reflexivity|]. apply filter_In. split; [exact H|]. now apply Ke.
  Qed.
  Lemma subset_ok a b : subset veqb a b = true <-> forall v, In v a -> In v b.
  Proof.
    unfold subset. rewrite forallb_forall. split; intros H v I.
    - apply H, existsb_exists in I as (w & J & E). apply Ve in E as ->. exact J.
    - apply existsb_exists. exists v. split; [now apply H|now apply Ve].
  Qed.
  Lemma set_eqb_ok a b : set_eqb veqb a b = true <-> forall v, In v a <-> In v b.
  Proof.
    unfold set_eqb. rewrite andb_true_iff, !subset_ok. split; [intros [H1 H2] v; split; auto|]. intros H. split; intros v; apply H.
  Qed.
  Lemma value_diff_tells m m' R R' : (forall k v, In (k, v) m <-> R k v) -> (forall k v, In (k, v) m' <-> R' k v) ->
    tells R R' (value_diff keqb veqb m m').
  Proof.
    intros H H'. unfold value_diff. split; [|split].
    - rewrite map_map. cbn [fst]. rewrite map_id. apply NoDup_filter, nub_nodup.
    - intros k. split.
      + intros (A & B & I). apply in_map_iff in I as (k' & E & I). injection E as -> _ _. apply filter_In in I as [I D].
        apply in_keys in I as (v & I). split; [exists v; now apply H|]. intros S. apply negb_true_iff, not_true_iff_false in D. apply D.
        apply set_eqb_ok. intros w. rewrite !in_under, H, H'. apply S.
      + intros [(v & I) D]. exists (under keqb m k), (under keqb m' k). apply in_map_iff. exists k. split; [reflexivity|].
        apply filter_In. split; [apply in_keys; exists v; now apply H|]. apply negb_true_iff, not_true_iff_false. intros S. apply D.
        intros w. rewrite <- H, <- H', <- !in_under. now apply set_eqb_ok.
    - intros k A B I. apply in_map_iff in I as (k' & E & I). injection E as -> <- <-. split; intros v; rewrite in_under; auto.
  Qed.
  Lemma key_diff_ok (m m' : list (K * V)) k : In k (key_diff keqb m m') <-> (exists v, In (k, v) m) /\ ~ exists v, In (k, v) m'.
  Proof.
    unfold key_diff. rewrite filter_In, in_keys, negb_true_iff, <- not_true_iff_false, existsb_exists. split; intros [H1 H2]; (split; [exact H1|]).
    - intros H3. apply H2. exists k. split; [now apply in_keys|now apply Ke].
    - intros (x & I & E). apply Ke in E as <-. apply H2. now apply in_keys.
  Qed.
End Dicts.

Lemma path_eqb_ok p q : path_eqb p q = true <-> p = q.
Proof.
  unfold path_eqb. destruct p as [a b], q as [a' b']. cbn [fst snd]. rewrite andb_true_iff. rewrite offs_eqb.
  split; [intros [-> H]; f_equal; now apply stack_eqb|]. intros E. injection E as -> ->. split; [reflexivity|now apply stack_eqb].
Qed.
Lemma pos_eqb_ok a b : pos_eqb a b = true <-> a = b.
Proof.
  destruct a, b. unfold pos_eqb. cbn [fst snd]. rewrite andb_true_iff, path_eqb_ok, Z.eqb_eq. split; [now intros [-> ->]|]. intros E. injection E as -> ->. auto.
Qed.
Lemma in_pos_eqb_ok a b : in_pos_eqb a b = true <-> a = b.
Proof.
  destruct a, b. unfold in_pos_eqb. cbn [fst snd]. rewrite andb_true_iff, path_eqb_ok, N.eqb_eq. split; [now intros [-> ->]|]. intros E. injection E as -> ->. auto.
Qed.
