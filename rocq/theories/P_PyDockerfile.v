From Coq Require Import NArith List Bool Lia Arith.
From Verif Require Import M_Base M_PyDockerfile S_Dockerfile.
Import ListNotations.
Open Scope N_scope.

Lemma text_eqb_eq a b : text_eqb a b = true <-> a = b.
Proof.
  revert b; induction a as [|x a IH]; intros [|y b]; cbn; split; try easy.
  - intros H. apply andb_true_iff in H. destruct H as [H1 H2]. apply N.eqb_eq in H1. apply IH in H2. now subst.
  - intros H. inversion H; subst. rewrite N.eqb_refl. cbn. now apply IH.
Qed.

Lemma plain_cons c l : plain (c :: l) -> c <> 10 /\ c <> 13 /\ plain l.
Proof. intros H. split; [apply H; now left|split; [apply H; now left|]]. intros d D. apply H. now right. Qed.

Lemma newlines_plain l o r : plain l -> newlines o (l ++ r) = newlines (o + length l) r.
Proof.
  revert o; induction l as [|c l IH]; intros o P; cbn [app newlines length].
  - now rewrite Nat.add_0_r.
  - apply plain_cons in P. destruct P as (A & _ & P). apply N.eqb_neq in A. rewrite A, IH by easy.
    f_equal. lia.
Qed.

Lemma newlines_cons l ls last o : plain l ->
  newlines o (file_of (l :: ls) last) = (o + S (length l))%nat :: newlines (o + S (length l)) (file_of ls last).
Proof.
  intros P. unfold file_of. cbn [map concat]. rewrite <- !app_assoc, newlines_plain by easy.
  cbn [app newlines]. rewrite N.eqb_refl. now rewrite <- plus_n_Sm.
Qed.

Lemma newlines_last last o : plain last -> newlines o (file_of [] last) = [].
Proof.
  intros P. unfold file_of. cbn [map concat app]. rewrite <- (app_nil_r last), newlines_plain by easy. easy.
Qed.

Lemma newlines_length ls last o : (forall l, In l ls -> plain l) -> plain last ->
  length (newlines o (file_of ls last)) = length ls.
Proof.
  revert o; induction ls as [|l ls IH]; intros o P Q.
  - now rewrite newlines_last.
  - rewrite newlines_cons by (apply P; now left). cbn [length]. rewrite IH; try easy.
    intros x X. apply P. now right.
Qed.

Lemma skip_line l ls last k : skipn (S (length l) + k) (file_of (l :: ls) last) = skipn k (file_of ls last).
Proof.
  unfold file_of. cbn [map concat]. rewrite <- !app_assoc. cbn [app].
  replace (S (length l) + k)%nat with (length l + S k)%nat by lia.
  rewrite skipn_app, skipn_all2 by lia. cbn [app].
  replace (length l + S k - length l)%nat with (S k) by lia. reflexivity.
Qed.

(** Seeking to line [i] leaves the file without its first [i] lines. *)
Lemma seek ls last : (forall l, In l ls -> plain l) -> plain last -> forall i b,
  (i <= length ls)%nat -> exists o, nth_error (b :: newlines b (file_of ls last)) i = Some (b + o)%nat /\
    skipn o (file_of ls last) = file_of (skipn i ls) last.
Proof.
  intros P Q. induction ls as [|l ls IH]; intros i b I.
  - assert (i = 0)%nat by (cbn in I; lia). subst. exists 0%nat. split; [cbn; f_equal; lia|reflexivity].
  - destruct i as [|i].
    + exists 0%nat. split; [cbn; f_equal; lia|reflexivity].
    + rewrite newlines_cons by (apply P; now left). cbn [nth_error].
      destruct (IH (fun x X => P x (or_intror X)) i (b + S (length l))%nat ltac:(cbn in I; lia)) as (o & O1 & O2).
      exists (S (length l) + o)%nat. split.
      * rewrite O1. f_equal. lia.
      * rewrite skip_line, O2. reflexivity.
Qed.

Lemma universal_plain l r : plain l -> universal false (l ++ r) = l ++ universal false r.
Proof.
  induction l as [|c l IH]; intros P; [easy|]. apply plain_cons in P. destruct P as (A & B & P).
  cbn [app universal]. apply N.eqb_neq in A. apply N.eqb_neq in B. now rewrite A, B, IH.
Qed.
Lemma universal_file ls last : (forall l, In l ls -> plain l) -> plain last ->
  universal false (file_of ls last) = file_of ls last.
Proof.
  intros P Q. induction ls as [|l ls IH].
  - unfold file_of. cbn [map concat app]. rewrite <- (app_nil_r last) at 1. rewrite universal_plain by easy.
    cbn. now rewrite app_nil_r.
  - unfold file_of in *. cbn [map concat]. rewrite <- !app_assoc, universal_plain by (apply P; now left).
    cbn [app universal]. replace (10 =? 13) with false by reflexivity. rewrite andb_false_r.
    now rewrite (IH (fun x X => P x (or_intror X))).
Qed.

Lemma readlines_plain l r : plain l ->
  readlines (l ++ 10 :: r) = (l ++ [10]) :: readlines r.
Proof.
  induction l as [|c l IH]; intros P; [reflexivity|]. apply plain_cons in P. destruct P as (A & B & P).
  cbn [app readlines]. apply N.eqb_neq in A. rewrite A, IH by easy. reflexivity.
Qed.
Lemma readlines_last l : plain l -> readlines l = match l with [] => [] | _ => [l] end.
Proof.
  induction l as [|c l IH]; intros P; [reflexivity|]. apply plain_cons in P. destruct P as (A & B & P).
  cbn [readlines]. apply N.eqb_neq in A. rewrite A, IH by easy. destruct l; reflexivity.
Qed.
Definition with_last (last : list N) : list (list N) := match last with [] => [] | _ => [last] end.
Lemma readlines_file ls last : (forall l, In l ls -> plain l) -> plain last ->
  readlines (file_of ls last) = map (fun l => l ++ [10]) ls ++ with_last last.
Proof.
  intros P Q. induction ls as [|l ls IH].
  - apply readlines_last. exact Q.
  - unfold file_of in *. cbn [map concat app]. rewrite <- !app_assoc. cbn [app].
    rewrite readlines_plain by (apply P; now left). f_equal. apply IH. intros x X. apply P. now right.
Qed.

Lemma line_at_nth ls last i : line_at ls last i = nth_error (map (fun l => l ++ [10]) ls ++ with_last last) i.
Proof.
  unfold line_at. destruct (i <? length ls)%nat eqn:E.
  - apply Nat.ltb_lt in E. rewrite nth_error_app1 by now rewrite map_length.
    revert i E. induction ls as [|l ls IH]; intros [|i] E; cbn in *; try lia; [easy|]. apply IH. lia.
  - apply Nat.ltb_ge in E. rewrite nth_error_app2 by now rewrite map_length. rewrite map_length.
    destruct (i =? length ls)%nat eqn:F.
    + apply Nat.eqb_eq in F. subst. rewrite Nat.sub_diag. destruct last; reflexivity.
    + apply Nat.eqb_neq in F. destruct (i - length ls)%nat eqn:G; [lia|]. destruct last; cbn; [easy|]. now destruct n.
Qed.

Lemma search_spec lines c k n : search lines c k = Some n <->
  (k <= n)%nat /\ nth_error lines (n - k) = Some c /\ forall j, (j < n - k)%nat -> nth_error lines j <> Some c.
Proof.
  revert k; induction lines as [|l r IH]; intros k; cbn [search].
  - split; [easy|]. intros (_ & H & _). destruct (n - k)%nat; easy.
  - destruct (text_eqb l c) eqn:E.
    + apply text_eqb_eq in E. subst l. split.
      * intros H. inversion H; subst. rewrite Nat.sub_diag. repeat split; [lia|]. intros j J. lia.
      * intros (K & H & F). destruct (n - k)%nat eqn:D; [f_equal; lia|]. exfalso. apply (F 0%nat); [lia|easy].
    + assert (l <> c) as NE by (intros ->; now rewrite (proj2 (text_eqb_eq c c) eq_refl) in E).
      rewrite IH. split.
      * intros (K & H & F). replace (n - k)%nat with (S (n - S k)) by lia. repeat split; [lia|exact H|].
        intros [|j] J; cbn; [congruence|]. apply F. lia.
      * intros (K & H & F). destruct (n - k)%nat eqn:D; cbn in H; [congruence|].
        replace (n - S k)%nat with n0 by lia. repeat split; [lia|exact H|].
        intros j J. apply (F (S j)). lia.
Qed.

Lemma nth_skip {A} (l : list A) i j : nth_error (skipn i l) j = nth_error l (i + j).
Proof. revert l; induction i as [|i IH]; intros [|x l]; cbn; try easy; now destruct j. Qed.

Lemma get_line_spec ls last c start : (forall l, In l ls -> plain l) -> plain last -> (start <= length ls)%nat ->
  forall n, get_line (file_of ls last) c start = Some n <->
    (start <= n)%nat /\ line_at ls last n = Some c /\ forall j, (start <= j < n)%nat -> line_at ls last j <> Some c.
Proof.
  intros P Q S n. unfold get_line, line_offsets.
  destruct (seek ls last P Q start 0%nat S) as (o & O1 & O2). cbn [Nat.add] in O1. rewrite O1, O2.
  assert (forall l, In l (skipn start ls) -> plain l) as P'.
  { intros l L. apply P. rewrite <- (firstn_skipn start ls). apply in_or_app. now right. }
  rewrite universal_file, readlines_file, search_spec by assumption.
  assert (map (fun l => l ++ [10]) (skipn start ls) ++ with_last last
          = skipn start (map (fun l => l ++ [10]) ls ++ with_last last)) as E.
  { rewrite skipn_app, map_length, skipn_map. replace (start - length ls)%nat with 0%nat by lia. reflexivity. }
  rewrite E. split; intros (K & H & F); (split; [exact K|]).
  - rewrite nth_skip in H. replace (start + (n - start))%nat with n in H by lia.
    rewrite line_at_nth. split; [exact H|]. intros j J. rewrite line_at_nth.
    specialize (F (j - start)%nat ltac:(lia)). rewrite nth_skip in F.
    now replace (start + (j - start))%nat with j in F by lia.
  - rewrite nth_skip. replace (start + (n - start))%nat with n by lia. rewrite line_at_nth in H.
    split; [exact H|]. intros j J. rewrite nth_skip. rewrite <- line_at_nth. apply F. lia.
Qed.
