(** C101: comparison of two traces. *)
From Coq Require Import NArith ZArith List Bool Lia.
From Verif Require Import M_Base M_PyAnalysis M_PyTaints M_PyDiff S_PyTaints S_Diff P_Base P_PyTaints T_PyTaints P_PyDiff.
Import ListNotations.
Open Scope N_scope.

(** The functions that ran in one trace alone, each once; the diff is true if there are any. *)
Theorem C101_functions : forall t1 t2,
  (forall i, runs (only_in_first t1 t2) i <-> runs t1 i /\ ~ runs t2 i) /\
  (forall i, runs (only_in_second t1 t2) i <-> runs t2 i /\ ~ runs t1 i) /\
  NoDup (map f_index (only_in_first t1 t2)) /\ NoDup (map f_index (only_in_second t1 t2)) /\
  (trace_diff_bool t1 t2 = true <-> exists i, (runs t1 i /\ ~ runs t2 i) \/ (runs t2 i /\ ~ runs t1 i)).
Proof.
  intros t1 t2. split; [apply only_first_runs|]. split; [intros i; rewrite only_second_swap; apply only_first_runs|]. split; [apply NoDup_map_filter, func_set_nodup|]. split; [apply NoDup_map_filter, func_set_nodup|].
  unfold trace_diff_bool. split.
  - intros H. destruct (only_in_first t1 t2) as [|f l] eqn:E.
    + destruct (only_in_second t1 t2) as [|g m] eqn:F; [discriminate|]. exists (f_index g). right. apply only_first_runs. rewrite <- only_second_swap, F. exists g. split; [now left|reflexivity].
    + exists (f_index f). left. apply only_first_runs. rewrite E. exists f. split; [now left|reflexivity].
  - intros (i & [H|H]).
    + apply only_first_runs in H. destruct H as (f & I & _). destruct (only_in_first t1 t2); [destruct I|reflexivity].
    + apply only_first_runs in H. rewrite <- only_second_swap in H. destruct H as (f & I & _). destruct (only_in_first t1 t2); [|reflexivity]. destruct (only_in_second t1 t2); [destruct I|reflexivity].
Qed.

(** The functions of both traces: for traces of one program, the names that ran in both, each
    with the exact difference of the bytes. *)
Theorem C101_in_both_partial : forall t1 t2, same_program t1 t2 -> NoDup (map f_name t1) -> NoDup (map f_name t2) ->
  exists r, in_both t1 t2 = Ok r /\ NoDup (map fst r) /\ (forall n, In n (map fst r) <-> runs_named t1 n /\ runs_named t2 n) /\
    forall n a b f g, In (n, (a, b)) r -> In f t1 -> f_name f = n -> In g t2 -> f_name g = n ->
      forall x o, (tainted a x o <-> tainted (f_taints f) x o /\ ~ tainted (f_taints g) x o) /\
                  (tainted b x o <-> tainted (f_taints g) x o /\ ~ tainted (f_taints f) x o).
Proof.
  intros t1 t2 S N1 N2. unfold in_both. destruct (diff_names_ok t1 t2 (shared_names t1 t2)) as (r & E & M & Q); [intros n I; now apply shared_in|]. exists r. split; [exact E|]. rewrite M.
  split; [apply name_set_spec|]. split; [intros n; now apply shared_in|]. intros n a b f g I If Nf Ig Ng x o.
  assert (U : forall t, NoDup (map f_name t) -> forall f g, In f t -> In g t -> f_name f = f_name g -> f = g).
  { clear. induction t as [|h t IH]; cbn [map]; intros N f g If Ig E; [destruct If|]. inversion N as [|y z A B]; subst. destruct If as [->|If], Ig as [->|Ig].
    - reflexivity.
    - exfalso. apply A. rewrite E. now apply in_map.
    - exfalso. apply A. rewrite <- E. now apply in_map.
    - now apply IH. }
  destruct (Q n (a, b) I) as (f' & g' & If' & Nf' & Ig' & Ng' & D). rewrite (U t1 N1 f' f If' If ltac:(congruence)) in D. rewrite (U t2 N2 g' g Ig' Ig ltac:(congruence)) in D.
  destruct (C62_diff (f_taints f) (f_taints g)) as (A & B & _). cbv zeta in A, B. rewrite <- D in A, B. split; [apply A|apply B].
Qed.
(** For traces of different programs this can raise an exception: functions are the same if
    their indices are, but they are looked up by name. *)
Theorem C101_in_both_refuted : forall i n m, n <> m ->
  exists t1 t2, runs_named t1 n /\ runs_named t2 m /\ in_both t1 t2 = Exit /\ trace_diff_bool t1 t2 = false /\ t1 = [mkFunc i n []] /\ t2 = [mkFunc i m []].
Proof.
  intros i n m N. exists [mkFunc i n []], [mkFunc i m []]. split; [exists (mkFunc i n []); split; [now left|reflexivity]|]. split; [exists (mkFunc i m []); split; [now left|reflexivity]|].
  assert (O1 : only_in_first [mkFunc i n []] [mkFunc i m []] = []) by (unfold only_in_first, func_minus, func_set, func_eqb; cbn; now rewrite N.eqb_refl).
  assert (O2 : only_in_second [mkFunc i n []] [mkFunc i m []] = []) by (unfold only_in_second, func_minus, func_set, func_eqb; cbn; now rewrite N.eqb_refl).
  split; [|split; [unfold trace_diff_bool; now rewrite O1, O2|split; reflexivity]]. unfold in_both, shared_names. rewrite O1, O2. cbn. unfold get_function. cbn. rewrite N.eqb_refl. cbn [bind].
  destruct (N.eqb_spec m n); [congruence|reflexivity].
Qed.

(** The chunks that only one trace touched: nothing is reported that the other touched too; the
    chunks of an input are in order and do not overlap.  Missing: that all are reported, and the
    method that functions must have, see below. *)
Theorem C101_chunks_partial : forall t1 t2, exists d1 d2, diff_bytes true t1 t2 = Ok (d1, d2) /\
  (forall x o, covered (chunks d1) x o -> touched t1 x o /\ ~ touched t2 x o) /\
  (forall x o, covered (chunks d2) x o -> touched t2 x o /\ ~ touched t1 x o) /\
  (forall d, d = d1 \/ d = d2 -> Forall (fun r => 0 < rg_length r) (chunks d) /\
     ForallOrdPairs (fun r1 r2 => same_input (rg_source r1) (rg_source r2) -> rg_offset r1 + rg_length r1 <= rg_offset r2) (chunks d)) /\
  (has_chunks d1 = true <-> chunks d1 <> []) /\ (has_chunks d2 = true <-> chunks d2 <> []).
Proof.
  intros t1 t2. destruct (diff_bytes_ok t1 t2) as (a & b & Ea & Eb & E). eexists. eexists. split; [exact E|]. split; [now apply only_sound|]. split; [now apply only_sound|]. split.
  - intros d [->| ->]; [destruct (chunks_order _ _ _ _ Ea Eb)|destruct (chunks_order _ _ _ _ Eb Ea)]; now split.
  - split; apply has_chunks_iff.
Qed.
(** A byte that only the first touched is reported if the second touched none of the contiguous
    bytes around it that the first touched. *)
Theorem C101_complete_partial : forall t1 t2 d1 d2 x o l u, diff_bytes true t1 t2 = Ok (d1, d2) ->
  l <= o < u -> (forall q, q + 1 = l -> ~ touched t1 x q) -> ~ touched t1 x u -> (forall q, l <= q < u -> ~ touched t2 x q) ->
  touched t1 x o -> covered (chunks d1) x o.
Proof.
  intros t1 t2 d1 d2 x o l u E. destruct (diff_bytes_ok t1 t2) as (a & b & Ea & Eb & E'). rewrite E in E'. inversion E'; subst. now apply only_complete.
Qed.
Theorem C101_complete_second_partial : forall t1 t2 d1 d2 x o l u, diff_bytes true t1 t2 = Ok (d1, d2) ->
  l <= o < u -> (forall q, q + 1 = l -> ~ touched t2 x q) -> ~ touched t2 x u -> (forall q, l <= q < u -> ~ touched t1 x q) ->
  touched t2 x o -> covered (chunks d2) x o.
Proof.
  intros t1 t2 d1 d2 x o l u E. destruct (diff_bytes_ok t1 t2) as (a & b & Ea & Eb & E'). rewrite E in E'. inversion E'; subst. now apply only_complete.
Qed.
(** Otherwise the whole chunk is dropped: one byte of it that the other trace touched too is
    enough, and the text then says that both consumed the same. *)
Definition in_x : py_input := mkInput 1 ([], [[120]]) 9.
Definition four : trace := [mkFunc 0 7 [(in_x, 3); (in_x, 0); (in_x, 1); (in_x, 2)]].
Definition one : trace := [mkFunc 0 7 [(in_x, 1)]].
Theorem C101_complete_refuted : exists d1 d2, diff_bytes true four one = Ok (d1, d2) /\
  touched four in_x 3 /\ ~ touched one in_x 3 /\ chunks d1 = [] /\ says_same_bytes true four one = Ok true.
Proof.
  destruct (diff_bytes true four one) as [[d1 d2]| | |] eqn:E; vm_compute in E; try discriminate. inversion E; subst. eexists. eexists. split; [reflexivity|]. split; [|split; [|split; [|vm_compute]; reflexivity]].
  - exists (mkFunc 0 7 [(in_x, 3); (in_x, 0); (in_x, 1); (in_x, 2)]). split; [now left|]. exists in_x. split; [now left|now split].
  - intros (f & [<-|[]] & y & [I|[]] & _). inversion I.
Qed.
(** The functions of the traces of this repository have no method get_taints: the bytes of
    traces with a function cannot be compared. *)
Theorem C101_method_refuted : forall t1 t2, t1 ++ t2 <> [] -> diff_bytes false t1 t2 = Exit /\ says_same_bytes false t1 t2 = Exit.
Proof.
  intros t1 t2 N. assert (E : diff_bytes false t1 t2 = Exit); [|split; [exact E|unfold says_same_bytes; now rewrite E]].
  destruct t1 as [|f t1]; [|reflexivity]. destruct t2 as [|g t2]; [now destruct N|reflexivity].
Qed.
(** "Traces do not differ" is about functions alone. *)
Theorem C101_verdict_refuted : exists t1 t2 d1 d2, says_no_difference t1 t2 = true /\ diff_bytes true t1 t2 = Ok (d1, d2) /\ has_chunks d1 = true.
Proof. exists four, [mkFunc 0 7 [(in_x, 9)]]. eexists. eexists. repeat split; vm_compute; reflexivity. Qed.

(** Two inputs, several functions. *)
Definition in_y : py_input := mkInput 2 ([], [[121]]) 9.
Definition case_1 : trace := [mkFunc 0 7 [(in_x, 0); (in_x, 1); (in_y, 5)]; mkFunc 1 8 [(in_x, 1); (in_x, 2); (in_x, 6)]; mkFunc 2 9 []].
Definition case_2 : trace := [mkFunc 1 8 [(in_x, 6); (in_x, 7)]; mkFunc 0 7 [(in_x, 20)]; mkFunc 4 3 []].
Example C101_case : exists d1 d2, diff_bytes true case_1 case_2 = Ok (d1, d2) /\
  chunks d1 = [mkRegion in_x 0 3; mkRegion in_y 5 1] /\ chunks d2 = [mkRegion in_x 20 1] /\
  map f_index (only_in_first case_1 case_2) = [2] /\ map f_index (only_in_second case_1 case_2) = [4] /\
  in_both case_1 case_2 = Ok [(7, ([(in_x, 0); (in_x, 1); (in_y, 5)], [(in_x, 20)])); (8, ([(in_x, 1); (in_x, 2)], [(in_x, 7)]))] /\
  same_program case_1 case_2 /\ NoDup (map f_name case_1) /\ NoDup (map f_name case_2).
Proof.
  eexists. eexists. split; [vm_compute; reflexivity|]. do 5 (split; [vm_compute; reflexivity|]). split.
  - intros f g If Ig. cbn [app case_1 case_2 In] in If, Ig. repeat (destruct If as [<-|If]; [|]); try destruct If; repeat (destruct Ig as [<-|Ig]; [|]); try destruct Ig; cbn; split; congruence.
  - split; repeat constructor; cbn; intuition congruence.
Qed.

Print Assumptions C101_functions.
Print Assumptions C101_in_both_partial.
Print Assumptions C101_in_both_refuted.
Print Assumptions C101_chunks_partial.
Print Assumptions C101_complete_partial.
Print Assumptions C101_complete_second_partial.
Print Assumptions C101_complete_refuted.
Print Assumptions C101_method_refuted.
Print Assumptions C101_verdict_refuted.
