(** Proofs about the labels that a traced program creates. *)
From Coq Require Import NArith List Bool Lia Permutation.
From Verif Require Import M_Base M_Conc M_Encoding M_Union M_Labels M_Dfsan M_UserLabels S_Provenance S_Labels S_UserLabels
  P_Base P_Conc P_Encoding P_Labels P_History T_Labels.
Import ListNotations.
Open Scope N_scope.

Lemma get_split {A} (l : list A) i x : get l i = Some x ->
  exists a b, l = a ++ x :: b /\ forall v, upd l i v = a ++ v :: b.
Proof.
  unfold get, upd. generalize (N.to_nat i) as n. clear i.
  induction l as [|y l IH]; intros [|n] H; cbn in H; try discriminate.
  - exists [], l. split; [now injection H as ->|reflexivity].
  - destruct (IH n H) as (a & b & -> & K). exists (y :: a), b. split; [reflexivity|]. intros v. cbn. now rewrite K.
Qed.

Definition pend (ts : list uthread) : list N :=
  flat_map (fun t => match t with UIdle => [] | UAdded l => [l] end) ts.

Lemma len_pend ts : len (pend ts) = len (filter under_way ts).
Proof. unfold len. f_equal. induction ts as [|[|l] ts IH]; cbn; auto. Qed.

Lemma len_cons' {A} (x : A) l : len (x :: l) = len l + 1.
Proof. unfold len. cbn [length]. lia. Qed.

Definition uinv (s : ushared) (ts : list uthread) : Prop :=
  let B := len (us_log s) + len (pend ts) in
  us_last s = B mod two32 /\
  (B < two32 - 1 -> us_dead s = false /\ NoDup (us_log s ++ pend ts) /\
     forall l, In l (us_log s ++ pend ts) -> 1 <= l <= B).

Lemma pend_mid a t b : pend (a ++ t :: b) = pend a ++ pend [t] ++ pend b.
Proof. unfold pend. rewrite flat_map_app. cbn [flat_map]. now rewrite app_nil_r. Qed.

Lemma uinv_step s ts i ch t t' s' : uinv s ts -> get ts i = Some t -> ustep i ch t s = Some (t', s') ->
  uinv s' (upd ts i t').
Proof.
  intros [L I] G E. destruct (get_split _ _ _ G) as (a & b & -> & U). rewrite U. clear U G.
  unfold ustep in E. destruct (us_dead s) eqn:D; [discriminate|]. destruct t as [|l].
  - (* the addition *)
    injection E as <- <-. unfold uinv in *. cbn [us_last us_log us_dead].
    rewrite pend_mid in *. cbn [pend flat_map app] in *.
    set (lg := us_log s) in *. set (pa := pend a) in *. set (pb := pend b) in *.
    rewrite !len_app in *. rewrite len_cons' in *. cbv zeta in *.
    set (B := len lg + (len pa + len pb)) in *.
    replace (len lg + (len pa + (len pb + 1))) with (B + 1) by (unfold B; lia).
    unfold next_label. rewrite L. split.
    { rewrite N.add_mod_idemp_l by discriminate. reflexivity. }
    intros H. destruct I as (_ & ND & R); [lia|]. split; [reflexivity|].
    rewrite (N.mod_small B) by (unfold two32 in *; lia).
    rewrite (N.mod_small (B + 1)) by (unfold two32 in *; lia).
    assert (P : Permutation (lg ++ pa ++ B + 1 :: pb) (B + 1 :: lg ++ pa ++ pb)).
    { rewrite !app_assoc. symmetry. apply Permutation_middle. }
    split.
    + eapply Permutation_NoDup; [symmetry; exact P|]. constructor; [|exact ND].
      intros K. apply R in K. lia.
    + intros l K. eapply Permutation_in in K; [|exact P]. destruct K as [<-|K]; [lia|]. apply R in K. lia.
  - destruct (check_label l) as [u| | |] eqn:CK.
    + injection E as <- <-. unfold uinv in *. cbn [us_last us_log us_dead].
      rewrite pend_mid in *. cbn [pend flat_map app] in *.
      set (lg := us_log s) in *. set (pa := pend a) in *. set (pb := pend b) in *.
      rewrite !len_app in *. rewrite !len_cons' in *. cbv zeta in *.
      replace (len lg + (len (@nil N) + 1) + (len pa + len pb)) with (len lg + (len pa + (len pb + 1))) by (unfold len; cbn; lia).
      split; [exact L|]. intros H. destruct (I H) as (_ & ND & R). split; [reflexivity|].
      assert (P : Permutation ((lg ++ [l]) ++ pa ++ pb) (lg ++ pa ++ l :: pb)).
      { rewrite <- app_assoc. apply Permutation_app_head. cbn. apply Permutation_middle. }
      split.
      * eapply Permutation_NoDup; [symmetry; exact P|exact ND].
      * intros x K. apply R. eapply Permutation_in; [exact P|exact K].
    + (* stopped *)
      injection E as <- <-. unfold uinv in *. cbn [us_last us_log us_dead]. cbv zeta in *. split; [exact L|].
      intros H. exfalso. destruct (I H) as (_ & _ & R).
      specialize (R l). assert (K : In l (us_log s ++ pend (a ++ UAdded l :: b))).
      { rewrite pend_mid. cbn. apply in_or_app. right. apply in_or_app. right. now left. }
      apply R in K. unfold check_label, initializing_label in CK.
      destruct (N.eqb_spec l (two32 - 1)); [lia|discriminate].
    + unfold check_label in CK. destruct (l =? initializing_label); discriminate.
    + unfold check_label in CK. destruct (l =? initializing_label); discriminate.
Qed.

Lemma uinv_start k : uinv (fst (ustart k)) (snd (ustart k)).
Proof.
  unfold uinv, ustart. cbn [fst snd us_last us_log us_dead].
  assert (E : pend (repeat UIdle k) = []) by (induction k; cbn; auto).
  rewrite E. cbn. split; [reflexivity|]. intros _. split; [reflexivity|]. split; [constructor|]. intros l [].
Qed.

Lemma uinv_users k sch : uinv (fst (users k sch)) (snd (users k sch)).
Proof.
  unfold users, ustart. apply run_inv; [intros; eapply uinv_step; eauto|]. apply uinv_start.
Qed.

Lemma begun_pend z : begun z = len (us_log (fst z)) + len (pend (snd z)).
Proof. unfold begun, returned. now rewrite len_pend. Qed.

(** One thread that makes [n] calls in a row. *)
Lemma created_from n : forall last, last + N.of_nat n < two32 - 1 -> created n last = Ok (nseq (last + 1) n).
Proof.
  induction n as [|n IH]; intros last H; [reflexivity|].
  cbn [created]. unfold create_label, check_label, next_label, initializing_label.
  rewrite N.mod_small by (unfold two32 in *; lia).
  destruct (N.eqb_spec (last + 1) (two32 - 1)); [lia|]. cbn [bind].
  rewrite IH by lia. reflexivity.
Qed.

Lemma created_stops n last : last < two32 - 1 -> two32 - 1 <= last + N.of_nat n -> created n last = Exit.
Proof.
  revert last. induction n as [|n IH]; intros last L H; [lia|].
  cbn [created]. unfold create_label, check_label, next_label, initializing_label.
  rewrite N.mod_small by (unfold two32 in *; lia).
  destruct (N.eqb_spec (last + 1) (two32 - 1)); [reflexivity|]. cbn [bind].
  rewrite IH by lia. reflexivity.
Qed.

(** Thread 0 of two makes [n] calls. *)
Lemma users_run n : N.of_nat n < two32 - 1 ->
  run ustep (ustart 2) (map (fun i => (i, tt)) (repeat 0 (n + n))) = (mkUs (N.of_nat n) (nseq 1 n) false, [UIdle; UIdle]).
Proof.
  induction n as [|n IH]; intros H; [reflexivity|].
  replace (S n + S n)%nat with ((n + n) + 2)%nat by lia.
  rewrite repeat_app, map_app, run_app, IH by lia.
  assert (NX : next_label (N.of_nat n) = N.of_nat (S n)).
  { unfold next_label. rewrite N.mod_small by (unfold two32 in *; lia). lia. }
  unfold run. cbn [repeat map fold_left].
  unfold M_Conc.move at 2. cbn [fst snd]. change (get [UIdle; UIdle] 0) with (Some UIdle).
  cbn [ustep us_dead us_last us_log fst snd]. rewrite NX.
  change (upd [UIdle; UIdle] 0 (UAdded (N.of_nat (S n)))) with [UAdded (N.of_nat (S n)); UIdle].
  unfold M_Conc.move. cbn [fst snd]. change (get [UAdded (N.of_nat (S n)); UIdle] 0) with (Some (UAdded (N.of_nat (S n)))).
  cbn [ustep us_dead us_last us_log fst snd]. unfold check_label, initializing_label.
  destruct (N.eqb_spec (N.of_nat (S n)) (two32 - 1)); [lia|]. cbn [fst snd].
  change (upd [UAdded (N.of_nat (S n)); UIdle] 0 UIdle) with [UIdle; UIdle].
  f_equal. f_equal. replace (S n) with (n + 1)%nat at 2 by lia. rewrite nseq_app. cbn [nseq]. do 2 f_equal. lia.
Qed.

(** After the 2^32 - 2 labels: thread 0 adds and is about to stop the program; thread 1
    adds, gets 0 and returns it. *)
Lemma users_wrap s : us_dead s = false -> us_last s = two32 - 2 ->
  run ustep (s, [UIdle; UIdle]) (map (fun i => (i, tt)) [0; 1; 1]) =
  (mkUs 0 (us_log s ++ [0]) false, [UAdded (two32 - 1); UIdle]).
Proof.
  destruct s as [last lg dead]. cbn [us_dead us_last us_log]. intros -> ->. reflexivity.
Qed.

Lemma read_beyond t l : len t <= l -> l < label_capacity -> read_label t l = Exit.
Proof.
  intros L C. unfold read_label, read_word.
  assert (E : get t l = None) by (apply get_none; exact L).
  rewrite E. destruct (N.ltb_spec l label_capacity); [reflexivity|lia].
Qed.

Lemma table_nonempty t : reachable t -> 1 <= len t.
Proof.
  intros R. destruct (reachable_wf _ R) as (G & _). destruct t as [|x t]; [discriminate|].
  unfold len. cbn [length]. lia.
Qed.

(** Every label in use stands for at least one input byte. *)
Lemma some_byte t l : reachable t -> in_use t l -> exists b, derives (view t) l b.
Proof.
  intros R. induction l as [l IH] using (well_founded_induction N.lt_wf_0). intros U.
  destruct (C05_taint_graph_well_formed t l R U) as (tn & E & K).
  assert (V : view t l = Some tn) by (unfold view; now rewrite E).
  assert (C : forall m, component (view t) l m -> m < l -> 1 <= m -> exists b, derives (view t) l b).
  { intros m M L P. destruct U as [U1 U2]. destruct (IH m L) as (b & k & cf & B & S); [split; lia|].
    exists b, k, cf. split; [eapply bf_step; eauto|exact S]. }
  destruct tn as [cf i o|cf f la|cf lo hi].
  - exists (i, o), l, cf. split; [apply bf_refl|exact V].
  - apply (C f); [eapply comp_range; [exact V|lia]|lia|lia].
  - apply (C lo); [eapply comp_lower; exact V|lia|lia].
Qed.

Lemma nodup_front {A} (a b : list A) : NoDup (a ++ b) -> NoDup a.
Proof.
  induction a as [|x a IH]; intros H; [constructor|]. cbn in H. inversion H as [|y l N D]; subst.
  constructor; [|auto]. intros K. apply N. apply in_or_app. now left.
Qed.

Lemma wrap_run n : N.of_nat n = two32 - 2 ->
  users 2 (repeat 0 (n + n) ++ [0; 1; 1]) = (mkUs 0 (nseq 1 n ++ [0]) false, [UAdded (two32 - 1); UIdle]).
Proof.
  intros E. unfold users. rewrite map_app, run_app. rewrite users_run by (rewrite E; reflexivity).
  rewrite users_wrap; [reflexivity|reflexivity|]. exact E.
Qed.

Lemma nat_of (x : N) : exists n, N.of_nat n = x.
Proof. exists (N.to_nat x). apply Nnat.N2Nat.id. Qed.
