(** Proofs about the verification of cavities and its summary. *)
From Coq Require Import NArith ZArith QArith List Bool Lia.
From Verif Require Import M_Base M_PyMutate M_PyVerify S_Verify P_Base.
Import ListNotations.
Local Open Scope Z_scope.

(** ** Names *)
Lemma rsplit_none s : ~ In 46%N s -> rsplit_dot s = None.
Proof.
  induction s as [|c s IH]; intros H; [reflexivity|]. cbn [rsplit_dot].
  rewrite IH by (intro; apply H; now right). destruct (N.eqb_spec c 46); [|reflexivity].
  exfalso. apply H. left. congruence.
Qed.

Lemma rsplit_last b r : ~ In 46%N r -> rsplit_dot (b ++ 46%N :: r) = Some (b, 46%N :: r).
Proof.
  intros H. induction b as [|c b IH]; cbn [app rsplit_dot].
  - rewrite rsplit_none by exact H. reflexivity.
  - now rewrite IH.
Qed.

Lemma stem_suffix_named nm b e : named nm b e -> stem_suffix nm = (b, e).
Proof.
  intros (-> & B & c & r & -> & H). unfold stem_suffix. rewrite rsplit_last by exact H.
  destruct b as [|x b]; [congruence|reflexivity].
Qed.
Lemma stem_named nm b e : named nm b e -> stem nm = b.
Proof. intros H. unfold stem. now rewrite (stem_suffix_named _ _ _ H). Qed.
Lemma suffix_named nm b e : named nm b e -> suffix nm = e.
Proof. intros H. unfold suffix. now rewrite (stem_suffix_named _ _ _ H). Qed.
Lemma stem_plain nm : ~ In 46%N nm -> stem nm = nm /\ suffix nm = [].
Proof. intros H. unfold stem, suffix, stem_suffix. rewrite rsplit_none by exact H. auto. Qed.

Lemma named_target b e m : b <> [] -> extension e ->
  named (b ++ mut_tag ++ method_name m ++ e) (b ++ mut_tag ++ method_name m) e.
Proof.
  intros B E. split; [now rewrite <- !app_assoc|]. split; [|exact E].
  intros H. apply app_eq_nil in H. now destruct H.
Qed.
Lemma extension_tag m : extension (mut_tag ++ method_name m).
Proof.
  exists 109%N. eexists. split; [reflexivity|].
  destruct m; cbn; intros H; repeat (destruct H as [H|H]; [discriminate|]); destruct H.
Qed.

Lemma name_eqb_iff' a b : name_eqb a b = true <-> a = b.
Proof. unfold name_eqb. destruct (list_eq_dec N.eq_dec a b); split; congruence. Qed.
Lemma put_same d n v : put d n v n = Some v.
Proof. unfold put. now rewrite (proj2 (name_eqb_iff' n n) eq_refl). Qed.
Lemma put_other d n v x : x <> n -> put d n v x = d x.
Proof. intros H. unfold put. destruct (name_eqb x n) eqn:E; [|reflexivity]. apply name_eqb_iff' in E. contradiction. Qed.

Lemma tag_grows b m e : b ++ e <> b ++ mut_tag ++ method_name m ++ e.
Proof.
  intros H. apply app_inv_head in H. apply (f_equal (@length N)) in H. rewrite !app_length in H. cbn in H. lia.
Qed.
(** A name with one more dot. *)
Lemma two_dots b m e e' : extension e -> extension e' -> b ++ e' <> b ++ mut_tag ++ method_name m ++ e.
Proof.
  intros (c & r & -> & _) (c' & r' & -> & H') E. apply app_inv_head in E. cbn [mut_tag app] in E.
  injection E as E1 E2. apply H'. rewrite E1, E2. right.
  apply (in_or_app [117; 116; 45]%N). right. apply in_or_app. right. now left.
Qed.

(** ** The verdicts *)
Lemma in_last (x : line) w y : ~ In x w -> In x (w ++ [y]) <-> x = y.
Proof.
  intros H. rewrite in_app_iff. cbn. split; [intros [?|[?|[]]]; [contradiction|auto]|auto].
Qed.
Lemma warnings_only (t f : bool) x : In x ((if t then [LTimeout] else []) ++ (if f then [LFailure] else [])) -> x = LTimeout \/ x = LFailure.
Proof. destruct t, f; cbn; intuition congruence. Qed.

(** ** The summary *)
Definition tot (t : totals) (rs : list result) : Prop :=
  t_no_cavity_files t = sum (fun r => if is_empty_error r then 1%N else 0%N) rs /\
  t_error_files t = sum (fun r => if is_other_error r then 1%N else 0%N) rs /\
  t_files t = len rs /\ t_bytes t = sum size_of rs /\
  (forall f, In f [st_count; st_no_output; st_eq; st_diff] ->
     f (t_cavity t) = sum (cavity_of f) rs /\ f (t_other t) = sum (other_of f) rs) /\
  (t_fraction t == sumQ fraction_of rs)%Q.

Lemma NQ_zero n : Qeq_bool (NQ n) 0 = true <-> n = 0%N.
Proof.
  rewrite Qeq_bool_iff. unfold NQ, Qeq, inject_Z. cbn. lia.
Qed.
Lemma div_ok a n : n <> 0%N -> div a (NQ n) = Ok (a / NQ n)%Q.
Proof.
  intros H. unfold div. destruct (Qeq_bool (NQ n) 0) eqn:E; [|reflexivity]. apply NQ_zero in E. contradiction.
Qed.
Lemma div_zero a : div a (NQ 0) = Exit.
Proof. reflexivity. Qed.

Lemma sum_app f a b : sum f (a ++ b) = (sum f a + sum f b)%N.
Proof. induction a as [|x a IH]; cbn [app sum fold_right] in *; [reflexivity|]. unfold sum in *. cbn. rewrite IH. lia. Qed.
Lemma sumQ_app f a b : (sumQ f (a ++ b) == sumQ f a + sumQ f b)%Q.
Proof.
  induction a as [|x a IH]; cbn [app]; unfold sumQ in *; cbn [fold_right].
  - ring.
  - rewrite IH. ring.
Qed.

Definition sized (r : result) : Prop := match r with RStats n _ _ => n <> 0%N | _ => True end.

Lemma add_results_ok rs : Forall sized rs -> forall t done, tot t done ->
  exists t', add_results t rs = Ok t' /\ tot t' (done ++ rs).
Proof.
  induction 1 as [|r rs S F IH]; intros t done T.
  { exists t. rewrite app_nil_r. auto. }
  cbn [add_results].
  assert (K : exists t1, add_result t r = Ok t1 /\ tot t1 (done ++ [r])).
  { destruct T as (T1 & T2 & T3 & T4 & T5 & T6).
    assert (L : (len done + 1)%N = len (done ++ [r])) by (rewrite len_app; reflexivity).
    destruct r as [[|]|n c o]; cbn [add_result].
    - eexists. split; [reflexivity|]. unfold tot. cbn [t_no_cavity_files t_error_files t_files t_bytes t_cavity t_other t_fraction].
      rewrite !sum_app, sumQ_app, T1, T2, T3, T4, T6, L. cbn [sum fold_right is_empty_error is_other_error size_of sumQ fraction_of].
      split; [lia|]. split; [lia|]. split; [reflexivity|]. split; [lia|]. split; [|ring].
      intros f If. rewrite !sum_app. destruct (T5 f If) as [-> ->]. cbn. lia.
    - eexists. split; [reflexivity|]. unfold tot. cbn [t_no_cavity_files t_error_files t_files t_bytes t_cavity t_other t_fraction].
      rewrite !sum_app, sumQ_app, T1, T2, T3, T4, T6, L. cbn [sum fold_right is_empty_error is_other_error size_of sumQ fraction_of].
      split; [lia|]. split; [lia|]. split; [reflexivity|]. split; [lia|]. split; [|ring].
      intros f If. rewrite !sum_app. destruct (T5 f If) as [-> ->]. cbn. lia.
    - cbn [sized] in S. rewrite div_ok by exact S. cbn [bind]. eexists. split; [reflexivity|].
      unfold tot. cbn [t_no_cavity_files t_error_files t_files t_bytes t_cavity t_other t_fraction].
      rewrite !sum_app, sumQ_app, T1, T2, T3, T4, T6, L. cbn [sum fold_right is_empty_error is_other_error size_of sumQ fraction_of].
      split; [lia|]. split; [lia|]. split; [reflexivity|]. split; [lia|]. split; [|ring].
      intros f If. rewrite !sum_app. destruct (T5 f If) as [E1 E2].
      cbn in If. destruct If as [<-|[<-|[<-|[<-|[]]]]]; cbn [add_stats st_count st_no_output st_eq st_diff sum fold_right cavity_of other_of] in *; lia. }
  destruct K as (t1 & E & T1). rewrite E. cbn [bind]. destruct (IH t1 _ T1) as (t' & E' & T').
  exists t'. split; [exact E'|]. now rewrite <- app_assoc in T'.
Qed.

Lemma tot0 : tot totals0 [].
Proof.
  unfold tot. cbn. repeat split; intros; try reflexivity.
  - destruct H as [<-|[<-|[<-|[<-|[]]]]]; reflexivity.
  - destruct H as [<-|[<-|[<-|[<-|[]]]]]; reflexivity.
Qed.

Lemma summary_totals rs : Forall sized rs -> exists t, summary rs = print_totals t /\ tot t rs.
Proof.
  intros F. destruct (add_results_ok rs F totals0 [] tot0) as (t & E & T). exists t. split; [|exact T].
  unfold summary. now rewrite E.
Qed.

Lemma add_results_exit rs : forall t, ~ Forall sized rs -> add_results t rs = Exit.
Proof.
  induction rs as [|r rs IH]; intros t H; [exfalso; apply H; constructor|].
  cbn [add_results]. destruct r as [[|]|n c o]; cbn [add_result bind].
  - apply IH. intros F. apply H. constructor; [exact I|exact F].
  - apply IH. intros F. apply H. constructor; [exact I|exact F].
  - destruct (N.eq_dec n 0) as [->|N0].
    + rewrite div_zero. reflexivity.
    + rewrite div_ok by exact N0. cbn [bind]. apply IH. intros F. apply H. constructor; [exact N0|exact F].
Qed.

Lemma sum_cons f r rs : sum f (r :: rs) = (f r + sum f rs)%N.
Proof. reflexivity. Qed.
Lemma consistent_sum rs :
  (forall n c o, In (RStats n c o) rs -> st_count o = (st_no_output o + st_eq o + st_diff o)%N) ->
  sum (other_of st_count) rs = (sum (other_of st_no_output) rs + sum (other_of st_eq) rs + sum (other_of st_diff) rs)%N.
Proof.
  induction rs as [|r rs IH]; intros H; [reflexivity|]. rewrite !sum_cons.
  rewrite IH by (intros; eapply H; right; eassumption).
  destruct r as [[|]|n c o]; cbn [other_of]; try lia. rewrite (H n c o) by now left. lia.
Qed.
