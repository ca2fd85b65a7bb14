(** C108: the function whose control flow differs. *)
From Coq Require Import NArith ZArith List Bool Lia Arith.
From Verif Require Import M_Base M_PyGraph M_PyDiGraph M_PyCfDiff S_Graph S_Dominators S_DiGraph S_CfDiff P_Base P_PyGraph P_PyDiGraph P_Dominators P_PyDiGraph2 P_Blocks T_Dominators.
Import ListNotations.
Local Open Scope Z_scope.

Lemma cf_find_in t name f : NoDup (map cf_name t) -> In f t -> cf_name f = name -> cf_find t name = Some f.
Proof.
  intros ND I E. unfold cf_find. induction t as [|a t IH]; [destruct I|]. cbn in ND |- *. inversion ND; subst. destruct (N.eqb_spec (cf_name a) (cf_name f)) as [Ea|NE].
  - destruct I as [->|I]; [reflexivity|]. exfalso. apply H1. rewrite Ea. apply in_map, I.
  - destruct I as [->|I]; [congruence|]. apply IH; assumption.
Qed.
Lemma cf_at_in t f : NoDup (map cf_index t) -> In f t -> cf_at t (cf_index f) = Some f.
Proof.
  intros ND I. unfold cf_at. induction t as [|a t IH]; [destruct I|]. cbn in ND |- *. inversion ND; subst. destruct (Z.eqb_spec (cf_index a) (cf_index f)) as [Ea|NE].
  - destruct I as [->|I]; [reflexivity|]. exfalso. apply H1. rewrite Ea. apply in_map, I.
  - destruct I as [->|I]; [congruence|]. apply IH; assumption.
Qed.
Section Trace.
  Variables (t : list cfunc) (r : Z).
  Hypothesis O : one_start t r.
  Definition call_edits := cfg_edits (map (fun f => (cf_index f, cf_calls f)) t).
  Lemma call_joined : joined call_edits = calls t.
  Proof. unfold call_edits, calls. rewrite joined_cfg, flat_map_map. reflexivity. Qed.
  Lemma call_root v : is_root call_edits v <-> v = r.
  Proof.
    destruct O as (_ & _ & C & R & _). rewrite <- R. unfold is_root. rewrite call_joined. unfold call_edits. rewrite named_cfg. fold call_edits. rewrite call_joined, map_map. cbn [fst].
    split; [|intros [A B]; split; [now left|exact B]]. intros [[A|(u & A)] B]; (split; [|exact B]); [exact A|exact (C u v A)].
  Qed.
  Lemma chain f : In f t -> cf_index f <> r -> exists l names, ancestors false (fst (dominator_forest (function_cfg t))) (cf_index f) = Ok l /\
    on_all_ways t r (cf_name f) names /\ Forall2 (fun d n => exists g, cf_at t d = Some g /\ cf_name g = n) l names /\ l <> [].
  Proof.
    intros I NR. destruct O as (NI & NN & C & R & A).
    assert (Rf : reaches (joined call_edits) r (cf_index f)) by (rewrite call_joined; apply A, in_map, I).
    destruct (C107_ancestors_partial false call_edits r (cf_index f) call_root Rf NR) as (l & E & L & Or). rewrite call_joined in *.
    assert (X : forall d, In d l -> exists g, In g t /\ cf_index g = d).
    { intros d Hd. apply L in Hd. destruct Hd as [D _]. destruct Rf as (w & W). destruct (walk_cut _ _ _ _ _ W (D w W)) as (l1 & l2 & _ & W1 & _).
      destruct (walk_unsnoc _ _ _ _ W1) as [[_ <-]|(q & l0 & _ & _ & Eq)].
      - destruct (proj2 (R r) eq_refl) as [Ir _]. apply in_map_iff in Ir. destruct Ir as (g & Eg & Ig). exists g. split; assumption.
      - apply C in Eq. apply in_map_iff in Eq. destruct Eq as (g & Eg & Ig). exists g. split; assumption. }
    assert (Y : exists names, Forall2 (fun d n => exists g, In g t /\ cf_index g = d /\ cf_name g = n) l names).
    { clear E L Or. induction l as [|d l IH]; [exists []; constructor|]. destruct (X d (or_introl eq_refl)) as (g & Ig & Eg).
      destruct IH as (ns & F); [intros x Hx; apply X; right; exact Hx|]. exists (cf_name g :: ns). constructor; [exists g; auto|exact F]. }
    destruct Y as (names & F). exists l, names. split; [|split; [|split]].
    - unfold function_cfg. rewrite build_cfg_edits. exact E.
    - exists f, l. exact (conj I (conj eq_refl (conj L (conj Or F)))).
    - clear - F NI. induction F as [|d n l names (g & Ig & <- & En) F IH]; constructor; [|exact IH]. exists g. split; [apply cf_at_in; assumption|exact En].
    - intros ->. apply (proj2 (proj2 L r)). split; [intros w W; exact (walk_in_l _ _ _ _ W)|congruence].
  Qed.
End Trace.
Lemma loop_names t1 t2 : forall l1 l2 n1 n2, Forall2 (fun d n => exists g, cf_at t1 d = Some g /\ cf_name g = n) l1 n1 ->
  Forall2 (fun d n => exists g, cf_at t2 d = Some g /\ cf_name g = n) l2 n2 -> cf_loop false t1 t2 (combine l1 l2) = Ok (first_common n1 n2).
Proof.
  intros l1 l2 n1 n2 F. revert l2 n2. induction F as [|d n l1 n1 (g & G & <-) F IH]; intros l2 n2 F2; [reflexivity|].
  inversion F2 as [|d2 m l2' n2' (g2 & G2 & <-) F2']; subst; [reflexivity|]. cbn [combine cf_loop first_common]. rewrite G, G2.
  destruct (N.eqb (cf_name g) (cf_name g2)); cbn [negb]; [reflexivity|]. apply IH, F2'.
Qed.

(** For two traces in which every function is reached from one start, and a function other than
    the start that ran in both: the functions through which it must be reached in each of them
    are compared position by position, from the closest on, and the first name found at the same
    position in both is reported, if there is one. *)
Theorem C108_report_partial t1 t2 r1 r2 f1 f2 : one_start t1 r1 -> one_start t2 r2 -> In f1 t1 -> In f2 t2 -> cf_name f1 = cf_name f2 ->
  cf_index f1 <> r1 -> cf_index f2 <> r2 ->
  exists n1 n2, on_all_ways t1 r1 (cf_name f1) n1 /\ on_all_ways t2 r2 (cf_name f1) n2 /\ cf_diff false t1 t2 (cf_name f1) = Ok (first_common n1 n2).
Proof.
  intros O1 O2 I1 I2 E R1 R2. destruct (chain t1 r1 O1 f1 I1 R1) as (l1 & n1 & A1 & W1 & F1 & E1). destruct (chain t2 r2 O2 f2 I2 R2) as (l2 & n2 & A2 & W2 & F2 & E2).
  exists n1, n2. rewrite <- E in W2. split; [exact W1|]. split; [exact W2|]. unfold cf_diff.
  rewrite (cf_find_in t1 (cf_name f1) f1 (proj1 (proj2 O1)) I1 eq_refl), (cf_find_in t2 (cf_name f1) f2 (proj1 (proj2 O2)) I2 (eq_sym E)).
  rewrite A1, A2. cbn [bind]. pose proof (loop_names t1 t2 l1 l2 n1 n2 F1 F2) as L. destruct l1 as [|a l1]; [congruence|]. destruct l2 as [|b l2]; [congruence|]. exact L.
Qed.
Print Assumptions C108_report_partial.
(** So a reported function is one that both traces had to pass on every way. *)
Theorem C108_reported_is_common_partial t1 t2 r1 r2 f1 f2 n : one_start t1 r1 -> one_start t2 r2 -> In f1 t1 -> In f2 t2 -> cf_name f1 = cf_name f2 ->
  cf_index f1 <> r1 -> cf_index f2 <> r2 -> cf_diff false t1 t2 (cf_name f1) = Ok (Some n) ->
  exists n1 n2, on_all_ways t1 r1 (cf_name f1) n1 /\ on_all_ways t2 r2 (cf_name f1) n2 /\ In n n1 /\ In n n2.
Proof.
  intros O1 O2 I1 I2 E R1 R2 D. destruct (C108_report_partial t1 t2 r1 r2 f1 f2 O1 O2 I1 I2 E R1 R2) as (n1 & n2 & W1 & W2 & H). exists n1, n2.
  split; [exact W1|]. split; [exact W2|]. rewrite H in D. injection D as D. clear - D. revert n2 D. induction n1 as [|x n1 IH]; intros n2 D; [discriminate D|].
  destruct n2 as [|y n2]; [discriminate D|]. cbn in D. destruct (N.eqb_spec x y) as [<-|]; [injection D as <-; split; now left|]. destruct (IH n2 D). split; right; assumption.
Qed.
Print Assumptions C108_reported_is_common_partial.
(** main (1) calls f (2) and g (3), both call h (4), which calls k (5); in the second trace f alone
    calls h. *)
Definition trace_a : list cfunc := [mkCF 10 1 [20; 30] [7%N]; mkCF 20 2 [40] []; mkCF 30 3 [40] []; mkCF 40 4 [50] [8%N]; mkCF 50 5 [] []].
Definition trace_b : list cfunc := [mkCF 10 1 [20; 30] [9%N]; mkCF 20 2 [40] []; mkCF 30 3 [] []; mkCF 40 4 [50] [8%N]; mkCF 50 5 [] []].
Example C108_case : cf_diff false trace_a trace_b 5 = Ok (Some 4%N) /\ cf_diff false trace_a trace_b 4 = Ok None /\ cf_diff false trace_a trace_b 2 = Ok (Some 1%N).
Proof. vm_compute. repeat split. Qed.
Example C108_case_start : one_start trace_a 10.
Proof.
  split; [repeat constructor; cbn; lia|]. split; [repeat constructor; cbn; lia|]. split; [|split].
  - intros x y H. cbn in H |- *. repeat (destruct H as [H|H]; [inversion H; lia|]). destruct H.
  - intros x. split.
    + cbn. intros [I N]. unfold no_incoming in N. cbn in N. repeat (destruct I as [<-|I]; [first [reflexivity|exfalso; first [apply (N 10); tauto|apply (N 20); tauto|apply (N 40); tauto]]|]). destruct I.
    + intros ->. split; [now left|]. intros a H. cbn in H. repeat (destruct H as [H|H]; [inversion H|]). destruct H.
  - intros x I. cbn in I. destruct I as [<-|[<-|[<-|[<-|[<-|[]]]]]].
    + exists [10]. apply walk_here.
    + exists [10; 20]. apply walk_on with (b := 20); [cbn; tauto|apply walk_here].
    + exists [10; 30]. apply walk_on with (b := 30); [cbn; tauto|apply walk_here].
    + exists [10; 20; 40]. apply walk_on with (b := 20); [cbn; tauto|apply walk_on with (b := 40); [cbn; tauto|apply walk_here]].
    + exists [10; 20; 40; 50]. apply walk_on with (b := 20); [cbn; tauto|apply walk_on with (b := 40); [cbn; tauto|apply walk_on with (b := 50); [cbn; tauto|apply walk_here]]].
Qed.

(** A function that did not run in both traces has no difference. *)
Theorem C108_absent one t1 t2 name : (forall f g, In f t1 -> In g t2 -> cf_name f = name -> cf_name g <> name) -> cf_diff one t1 t2 name = Ok None.
Proof.
  intros H. unfold cf_diff. destruct (cf_find t1 name) as [f|] eqn:F; [|reflexivity]. destruct (cf_find t2 name) as [g|] eqn:G; [|reflexivity].
  unfold cf_find in F, G. apply find_some in F. apply find_some in G. destruct F as [I1 E1], G as [I2 E2]. apply N.eqb_eq in E1, E2. destruct (H f g I1 I2 E1 E2).
Qed.
Print Assumptions C108_absent.
Example C108_case_absent : cf_diff false trace_a [mkCF 10 1 [] []] 4 = Ok None.
Proof. vm_compute. reflexivity. Qed.

(** What the statement promises and the code does not do.  A function is reported although it
    operated on the same bytes in both traces (as h in the example above), because collections of
    taints have no equality. *)
Theorem C108_same_taints_refuted : exists t1 t2 name n f g, cf_diff false t1 t2 name = Ok (Some n) /\
  In f t1 /\ In g t2 /\ cf_name f = n /\ cf_name g = n /\ cf_taints f = cf_taints g.
Proof. exists trace_a, trace_b, 5%N, 4%N, (mkCF 40 4 [50] [8%N]), (mkCF 40 4 [50] [8%N]). split; [vm_compute; reflexivity|cbn; tauto]. Qed.
Print Assumptions C108_same_taints_refuted.
(** A function that is on all ways in both traces and operated on different bytes is not reported
    if it is at different positions: the sets are not reduced to their common members (C80). *)
Theorem C108_shifted_refuted : exists t1 t2 name f g r1 r2 n1 n2, cf_diff false t1 t2 name = Ok None /\
  on_all_ways t1 r1 name n1 /\ on_all_ways t2 r2 name n2 /\ In (cf_name f) n1 /\ In (cf_name f) n2 /\
  In f t1 /\ In g t2 /\ cf_name f = cf_name g /\ cf_taints f <> cf_taints g.
Proof.
  exists [mkCF 10 1 [40] [7%N]; mkCF 40 4 [] []], [mkCF 10 1 [20] [9%N]; mkCF 20 2 [40] []; mkCF 40 4 [] []], 4%N, (mkCF 10 1 [40] [7%N]), (mkCF 10 1 [20] [9%N]), 10, 10, [1%N], [2%N; 1%N].
  split; [vm_compute; reflexivity|]. split; [|split; [|cbn; repeat split; try tauto; discriminate]].
  - exists (mkCF 40 4 [] []), [10]. split; [cbn; tauto|]. split; [reflexivity|]. split; [|split; [cbn; repeat split; intros y []|]].
    + split; [repeat constructor; easy|]. intros x. cbn. split.
      * intros [<-|[]]. split; [intros l W; exact (walk_in_l _ _ _ _ W)|discriminate].
      * intros [D N]. specialize (D [10; 40]). cbn in D. assert (W : walk [(10, 40)] 10 [10; 40] 40) by (econstructor; [now left|constructor]). specialize (D W). lia.
    + constructor; [|constructor]. exists (mkCF 10 1 [40] [7%N]). cbn. tauto.
  - exists (mkCF 40 4 [] []), [20; 10]. split; [cbn; tauto|]. split; [reflexivity|]. split; [|split].
    + split; [repeat constructor; cbn; lia|]. intros x. cbn. split.
      * intros [<-|[<-|[]]]; (split; [|discriminate]); [|intros l W; exact (walk_in_l _ _ _ _ W)].
        intros l W. inversion W as [|a b c l' E W']; subst. destruct E as [E|[E|[]]]; inversion E; subst. right. exact (walk_in_l _ _ _ _ W').
      * intros [D N]. specialize (D [10; 20; 40]). assert (W : walk [(10, 20); (20, 40)] 10 [10; 20; 40] 40) by (econstructor; [now left|econstructor; [right; now left|constructor]]). specialize (D W). cbn in D. lia.
    + cbn. split; [|split; [easy|exact I]]. intros y [<-|[]] l W. exact (walk_in_l _ _ _ _ W).
    + constructor; [exists (mkCF 20 2 [40] []); cbn; tauto|]. constructor; [|constructor]. exists (mkCF 10 1 [20] [9%N]). cbn. tauto.
Qed.
Print Assumptions C108_shifted_refuted.
(** For the function that is called by none, as main, the question is an error. *)
Theorem C108_start_refuted : exists t name f, In f t /\ cf_name f = name /\ one_start t (cf_index f) /\ cf_diff false t t name = Exit.
Proof.
  exists [mkCF 10 1 [] []], 1%N, (mkCF 10 1 [] []). split; [now left|]. split; [reflexivity|]. split; [|vm_compute; reflexivity].
  split; [repeat constructor; easy|]. split; [repeat constructor; easy|]. split; [intros x y []|]. split.
  - intros x. cbn. split; [intros [[<-|[]] _]; reflexivity|]. intros ->. split; [now left|]. intros a [].
  - intros x [<-|[]]. exists [10]. constructor.
Qed.
Print Assumptions C108_start_refuted.
