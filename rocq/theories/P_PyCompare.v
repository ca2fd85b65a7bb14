(** Proofs about the comparison of traces. *)
From Coq Require Import NArith ZArith List Bool Lia Sorted.
From Verif Require Import M_Base M_PyNode M_PySections M_PyFile M_PyAnalysis M_PyCompare S_Compare P_Base.
Import ListNotations.
Open Scope N_scope.

Lemma list_eqb_spec {A} (eqb : A -> A -> bool) : (forall x y, eqb x y = true <-> x = y) -> forall a b, list_eqb eqb a b = true <-> a = b.
Proof.
  intros E. induction a as [|x a IH]; intros [|y b]; cbn [list_eqb]; try (split; congruence).
  rewrite andb_true_iff, E, IH. split; [now intros [-> ->]|]. intros H. injection H as -> ->. auto.
Qed.
Lemma offs_eqb a b : list_eqb N.eqb a b = true <-> a = b.
Proof. apply list_eqb_spec. exact N.eqb_eq. Qed.
Lemma stack_eqb a b : list_eqb (list_eqb N.eqb) a b = true <-> a = b.
Proof. apply list_eqb_spec. exact offs_eqb. Qed.
Lemma offs_neqb a b : list_eqb N.eqb a b = false <-> a <> b.
Proof. rewrite <- not_true_iff_false, offs_eqb. reflexivity. Qed.

Lemma compare_shows fuel : forall dbg rel, (length dbg + length rel <= fuel)%nat ->
  exists rows, compare_loop fuel dbg rel = Ok rows /\ shows dbg rel rows.
Proof.
  unfold entry. induction fuel as [|f IH]; intros dbg rel L.
  - destruct dbg, rel; cbn in L; try lia. exists []. split; [reflexivity|constructor].
  - destruct dbg as [|[o s] dbg], rel as [|[o' s'] rel]; cbn [length] in L.
    + exists []. split; [reflexivity|constructor].
    + destruct (IH [] rel) as (rows & E & H); [cbn; lia|]. cbn [compare_loop]. unfold entry in *; rewrite E. eexists. split; [reflexivity|]. now constructor.
    + destruct (IH dbg []) as (rows & E & H); [cbn; lia|]. cbn [compare_loop]. unfold entry in *; rewrite E. eexists. split; [reflexivity|]. now constructor.
    + cbn [compare_loop fst snd]. destruct (list_eqb N.eqb o o') eqn:Q.
      * apply offs_eqb in Q. subst o'. destruct (IH dbg rel) as (rows & E & H); [lia|]. rewrite E. eexists. split; [reflexivity|].
        constructor; [| |exact H]; intros X; [now rewrite (proj2 (stack_eqb _ _) X)|].
        destruct (list_eqb (list_eqb N.eqb) s s') eqn:Y; [|reflexivity]. apply stack_eqb in Y. contradiction.
      * apply offs_neqb in Q. destruct (_ <? _).
        -- destruct (IH dbg ((o', s') :: rel)) as (rows & E & H); [cbn [length]; lia|]. unfold entry in *; rewrite E. eexists. split; [reflexivity|]. now constructor.
        -- destruct (IH ((o, s) :: dbg) rel) as (rows & E & H); [cbn [length]; lia|]. unfold entry in *; rewrite E. eexists. split; [reflexivity|]. now constructor.
Qed.

Lemma steps_none o (l : list entry) : (forall e, In e l -> fst e <> o) -> steps_to o l = len l.
Proof.
  induction l as [|e l IH]; intros H; [reflexivity|]. cbn [steps_to].
  rewrite (proj2 (offs_neqb (fst e) o) (H e (or_introl eq_refl))), IH; [unfold len; cbn [length]; lia|]. intros x X. apply H. now right.
Qed.

(** The records put in before the next old one. *)
Lemma next_old l e old : old_log l = e :: old -> exists new s' post, l = map put new ++ Same (fst e) (snd e) s' :: post /\
  old_log post = old.
Proof.
  induction l as [|[o s s'|o s] l IH]; cbn [old_log]; [discriminate|..].
  - intros H. injection H as <- <-. exists [], s', l. auto.
  - intros H. destruct (IH H) as (new & s' & post & -> & Q). exists ((o, s) :: new), s', post. auto.
Qed.
Lemma new_log_app l l' : new_log (l ++ l') = new_log l ++ new_log l'.
Proof. induction l as [|[o s s'|o s] l IH]; cbn [app new_log]; [reflexivity|now rewrite IH..]. Qed.
Lemma new_log_new new : new_log (map put new) = new.
Proof. induction new as [|[o s] new IH]; unfold put in *; cbn [map new_log fst snd]; [reflexivity|now rewrite IH]. Qed.
Lemma steps_new (new : list entry) (e : entry) s' post : (forall n, In n new -> fst n <> fst e) ->
  steps_to (fst e) (new ++ (fst e, s') :: post) = len new.
Proof.
  induction new as [|n new IH]; intros H; cbn [app steps_to].
  - cbn [fst]. now rewrite (proj2 (offs_eqb _ _) eq_refl).
  - rewrite (proj2 (offs_neqb _ _) (H n (or_introl eq_refl))), IH; [unfold len; cbn [length]; lia|]. intros x X. apply H. now right.
Qed.

Lemma fresh_tail x l : fresh (x :: l) -> fresh l.
Proof.
  intros F o s e I J. apply (F o s e); [now right|]. destruct x; cbn [old_log]; [now right|exact J].
Qed.
Lemma sparse_tail room x l : sparse room (x :: l) -> sparse room l.
Proof. intros F pre new o s s' post ->. apply (F (x :: pre) new o s s' post). reflexivity. Qed.

(** What the search finds when the head is a new record. *)
Lemma at_new room o s l e old : fresh (New o s :: l) -> sparse room (New o s :: l) -> old_log l = e :: old ->
  steps_to o (e :: old) = len (e :: old) /\ steps_to (fst e) ((o, s) :: new_log l) <= room (len old) /\ fst e <> o.
Proof.
  intros F Sp E.
  assert (No : forall x, In x (e :: old) -> fst x <> o).
  { intros x I. apply (F o s x); [now left|]. cbn [old_log]. now rewrite E. }
  split; [now apply steps_none|]. split; [|apply No; now left].
  destruct (next_old _ _ _ E) as (new & s' & post & -> & Q).
  rewrite new_log_app, new_log_new. cbn [new_log]. change ((o, s) :: new ++ (fst e, s') :: new_log post) with (((o, s) :: new) ++ (fst e, s') :: new_log post).
  rewrite steps_new.
  - rewrite <- Q. apply (Sp [] ((o, s) :: new) (fst e) (snd e) s' post). reflexivity.
  - intros n [<-|I]; [intros X; apply (No e (or_introl eq_refl)); now symmetry|]. intros X.
    apply (F (fst n) (snd n) e); [|cbn [old_log]; rewrite E; now left|now symmetry]. right. apply in_or_app. left.
    apply in_map_iff. exists n. auto.
Qed.

Lemma compare_left l : fresh l -> sparse (fun k => k + 1) l -> forall fuel, (length (old_log l) + length (new_log l) <= fuel)%nat ->
  compare_loop fuel (old_log l) (new_log l) = Ok (rows_left l).
Proof.
  induction l as [|[o s s'|o s] l IH]; intros F Sp fuel L.
  - destruct fuel; reflexivity.
  - cbn [old_log new_log length] in *. destruct fuel as [|f]; [lia|]. cbn [compare_loop fst snd rows_left].
    rewrite (proj2 (offs_eqb o o) eq_refl), IH; [reflexivity|eapply fresh_tail; eauto|eapply sparse_tail; eauto|lia].
  - cbn [old_log new_log length] in *. destruct fuel as [|f]; [lia|]. cbn [rows_left].
    assert (R := IH (fresh_tail _ _ F) (sparse_tail _ _ _ Sp) f ltac:(lia)). destruct (old_log l) as [|e old] eqn:E.
    + cbn [compare_loop]. rewrite R. reflexivity.
    + destruct (at_new _ o s l e old F Sp E) as (S1 & S2 & Ne). cbn [compare_loop fst snd].
      rewrite (proj2 (offs_neqb _ _) Ne), S1. destruct (N.ltb_spec (len (e :: old)) (steps_to (fst e) ((o, s) :: new_log l))) as [X|X].
      * exfalso. unfold len in *. cbn [length] in X. lia.
      * rewrite R. reflexivity.
Qed.

Lemma compare_right l : fresh l -> sparse (fun k => k) l -> forall fuel, (length (old_log l) + length (new_log l) <= fuel)%nat ->
  compare_loop fuel (new_log l) (old_log l) = Ok (rows_right l).
Proof.
  induction l as [|[o s s'|o s] l IH]; intros F Sp fuel L.
  - destruct fuel; reflexivity.
  - cbn [old_log new_log length] in *. destruct fuel as [|f]; [lia|]. cbn [compare_loop fst snd rows_right].
    rewrite (proj2 (offs_eqb o o) eq_refl), IH; [reflexivity|eapply fresh_tail; eauto|eapply sparse_tail; eauto|lia].
  - cbn [old_log new_log length] in *. destruct fuel as [|f]; [lia|]. cbn [rows_right].
    assert (R := IH (fresh_tail _ _ F) (sparse_tail _ _ _ Sp) f ltac:(lia)). destruct (old_log l) as [|e old] eqn:E.
    + cbn [compare_loop]. rewrite R. reflexivity.
    + destruct (at_new _ o s l e old F Sp E) as (S1 & S2 & Ne). cbn [compare_loop fst snd].
      rewrite (proj2 (offs_neqb o (fst e))) by (intros X; now apply Ne). rewrite S1.
      destruct (N.ltb_spec (steps_to (fst e) ((o, s) :: new_log l)) (len (e :: old))) as [X|X].
      * rewrite R. reflexivity.
      * exfalso. unfold len in *. cbn [length] in X. lia.
Qed.

(** More fuel changes nothing. *)
Lemma compare_fuel : forall fuel dbg rel rows, compare_loop fuel dbg rel = Ok rows -> forall more, (fuel <= more)%nat -> compare_loop more dbg rel = Ok rows.
Proof.
  unfold entry. induction fuel as [|f IH]; intros [|[o s] dbg] [|[o' s'] rel] rows H [|more] L; cbn [compare_loop] in *; try lia; try discriminate; auto.
  all: assert (L' : (f <= more)%nat) by lia.
  - destruct (compare_loop f [] rel) as [x| | |] eqn:E; try discriminate. now rewrite (IH _ _ _ E _ L').
  - destruct (compare_loop f dbg []) as [x| | |] eqn:E; try discriminate. now rewrite (IH _ _ _ E _ L').
  - cbn [fst snd] in *. destruct (list_eqb N.eqb o o').
    + destruct (compare_loop f dbg rel) as [x| | |] eqn:E; try discriminate. now rewrite (IH _ _ _ E _ L').
    + destruct (_ <? _).
      * destruct (compare_loop f dbg _) as [x| | |] eqn:E; try discriminate. now rewrite (IH _ _ _ E _ L').
      * destruct (compare_loop f _ rel) as [x| | |] eqn:E; try discriminate. now rewrite (IH _ _ _ E _ L').
Qed.
Lemma compare_more fuel more dbg rel rows rows' : compare_loop fuel dbg rel = Ok rows -> compare_loop more dbg rel = Ok rows' -> rows = rows'.
Proof.
  intros H H'. destruct (Nat.le_ge_cases fuel more) as [L|L].
  - rewrite (compare_fuel _ _ _ _ H _ L) in H'. congruence.
  - rewrite (compare_fuel _ _ _ _ H' _ L) in H. congruence.
Qed.
