(** An executable run of the label table, used only to show that concrete cases meet
    the hypotheses of the theorems in T_Labels. *)
From Coq Require Import NArith List Bool Lia.
From Verif Require Import M_Base M_Encoding M_Union M_LabelDeq M_Labels S_Encoding S_Provenance S_Labels
  P_Base P_Encoding P_Labels P_ControlFlow P_History.
Import ListNotations.
Open Scope N_scope.

(** A concrete history used as witness below: two reads of source 3 (offsets 10..12
    and 40..41), unions that exercise the range merging, the union node and the
    duplicate reuse, and one marking. *)
Definition demo_ops : list lop :=
  [LSource 3 10 3; LSource 3 40 2; LUnion 1 2; LUnion 3 5; LUnion 6 7; LUnion 7 6; LUnion 6 3; LMark 8].
Fixpoint run (t : table) (ops : list lop) : Res (list (lop * N) * table) :=
  match ops with
  | [] => Ok ([], t)
  | o :: rest =>
      do p <- match o with
              | LSource s f n => do q <- create_source_labels t s f n; Ok (fst (fst q), snd q)
              | LUnion l r => union_taint t l r
              | LMark l => do t' <- affects_control_flow 100 0 t l; Ok (0, t')
              end;
      do q <- run (snd p) rest;
      Ok ((o, fst p) :: fst q, snd q)
  end.
Definition lop_okb (t : table) (o : lop) : bool :=
  match o with
  | LSource s f n => (s <=? 255) && (1 <=? n) && (f + n <=? 2 ^ 54)
  | LUnion l r => (1 <=? l) && (l <? len t) && (1 <=? r) && (r <? len t)
  | LMark l => (1 <=? l) && (l <? len t)
  end.
Fixpoint run_ok (t : table) (ops : list lop) : bool :=
  match ops with
  | [] => true
  | o :: rest => lop_okb t o && match run t [o] with Ok (_, t') => run_ok t' rest | _ => false end
  end.
Definition demo : table :=
  match run labels_new demo_ops with Ok (_, t) => t | _ => [] end.

Lemma run_trace ops : forall h t h2 t', ltrace h t -> run_ok t ops = true ->
  run t ops = Ok (h2, t') -> ltrace (h ++ h2) t'.
Proof.
  induction ops as [|o ops IH]; intros h t h2 t' T K R.
  - cbn in R. inversion R; subst. now rewrite app_nil_r.
  - cbn [run_ok] in K. apply andb_true_iff in K as [K1 K2].
    cbn [run] in R, K2. set (step := match o with LSource _ _ _ => _ | LUnion _ _ => _ | LMark _ => _ end) in *.
    destruct step as [[res t1]| | |] eqn:E; cbn [bind fst snd] in R, K2; try discriminate.
    destruct (run t1 ops) as [[h3 t3]| | |] eqn:E2; cbn [bind fst snd] in R; try discriminate.
    inversion R; subst. replace (h ++ (o, res) :: h3) with ((h ++ [(o, res)]) ++ h3)
      by (rewrite <- app_assoc; reflexivity).
    apply (IH _ t1); auto. eapply tr_snoc; [exact T| |].
    + destruct o; cbn [lop_okb lop_ok] in *; repeat rewrite andb_true_iff in K1;
        repeat rewrite N.leb_le in K1; repeat rewrite N.ltb_lt in K1; unfold in_use; intuition.
    + unfold step in E. destruct o.
      * destruct (create_source_labels t src offset n) as [[[f la] t4]| | |] eqn:Q; cbn in E; inversion E; subst.
        eapply st_source; eauto.
      * now apply st_union.
      * destruct (affects_control_flow 100 0 t l) eqn:Q; cbn [bind] in E; inversion E; subst. eapply st_mark; eauto.
Qed.

Example demo_reachable : reachable demo.
Proof.
  eexists. apply (run_trace demo_ops [] labels_new).
  - constructor.
  - vm_compute. reflexivity.
  - vm_compute. reflexivity.
Qed.
Example demo_content : map (fun l => view demo l) [1; 2; 3; 4; 5; 6; 7; 8; 9] =
  [Some (TSource true 3 10); Some (TSource true 3 11); Some (TSource true 3 12);
   Some (TSource false 3 40); Some (TSource true 3 41); Some (TRange true 1 2); Some (TUnion true 3 5);
   Some (TRange true 6 7); Some (TRange false 1 3)].
Proof. vm_compute. reflexivity. Qed.
