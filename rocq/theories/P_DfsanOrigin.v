From Coq Require Import NArith List Bool Lia ZArith ZifyN ZifyBool.
From Verif Require Import M_Base M_DfsanOrigin.
Import ListNotations.
Open Scope N_scope.
Ltac Zify.zify_post_hook ::= Z.div_mod_to_equations.

Ltac cases := repeat match goal with
  | |- context [if ?b then _ else _] => match b with
      | context [if _ then _ else _] => fail 1
      | _ => let E := fresh "E" in destruct b eqn:E end
  end.
Ltac bools := repeat match goal with
  | H : (_ && _)%bool = true |- _ => apply andb_true_iff in H; destruct H
  | H : (_ =? _) = true |- _ => apply N.eqb_eq in H
  | H : (_ =? _) = false |- _ => apply N.eqb_neq in H
  | H : (_ <? _) = true |- _ => apply N.ltb_lt in H
  | H : (_ <? _) = false |- _ => apply N.ltb_ge in H
  | H : (_ <=? _) = true |- _ => apply N.leb_le in H
  | H : (_ <=? _) = false |- _ => apply N.leb_gt in H
  end.

Lemma odd_mod x : N.odd x = (x mod 2 =? 1).
Proof.
  pose proof (N.bit0_mod x) as H. rewrite N.bit0_odd in H. rewrite <- H. now destruct (N.odd x).
Qed.

Lemma set_pairs_spec n : forall o c v x,
  set_pairs n o c v x = if (c <=? x) && (x <? c + 2 * N.of_nat n) then v else o x.
Proof.
  induction n as [|n IH]; intros o c v x; cbn [set_pairs].
  - cases; bools; try reflexivity; lia.
  - rewrite IH. destruct ((o c =? v) && (o (c + 1) =? v)) eqn:E.
    + bools. cases; bools; try reflexivity; try lia.
      assert (x = c \/ x = c + 1) as [->| ->] by lia; assumption.
    + clear E. unfold put. cases; bools; try reflexivity; lia.
Qed.

Lemma put_same (o : origins) (c v x : N) : (if o c =? v then o else put o c v) x = put o c v x.
Proof. unfold put. destruct (o c =? v) eqn:E; [|reflexivity]. bools. destruct (x =? c) eqn:F; [|reflexivity]. bools. now subst. Qed.

Lemma set_origin_spec o x size v c : 0 < size ->
  set_origin o x size v c = if (x / 4 <=? c) && (c <=? (x + size - 1) / 4) then v else o c.
Proof.
  intros S. unfold set_origin. destruct (size =? 0) eqn:Z; [bools; lia|]. clear Z.
  rewrite !odd_mod. set (b := x / 4). set (f := (x + size + 3) / 4).
  replace ((x + size - 1) / 4) with (f - 1) by (subst f; lia).
  assert (b < f) as BF by (subst b f; lia). clearbody b f. clear S x size.
  destruct (b mod 2 =? 1) eqn:B; destruct (f mod 2 =? 1) eqn:F; bools.
  all: rewrite ?put_same; unfold put at 1 || idtac; rewrite ?set_pairs_spec; rewrite ?put_same; unfold put.
  all: cases; bools; try reflexivity; try lia.
Qed.

(** Cells of a copy that goes upwards, all of them tainted. *)
Lemma copy_up_spec chain lab o0 src dst N0 :
  (dst <= src \/ src + N.of_nat N0 <= dst) ->
  (forall c, src <= c < src + N.of_nat N0 -> o0 c <> 0) ->
  forall n k o ss ls ld, (k + n = N0)%nat ->
  (forall j, lab (ss + 2 * j) <> 0 \/ N.of_nat n <= j) ->
  (ls = 0 \/ ld = chain ls) ->
  (forall c, o c = if (dst <=? c) && (c <? dst + N.of_nat k) then chain (o0 (c - dst + src)) else o0 c) ->
  forall c, copy_up n chain lab o (src + N.of_nat k) ss (dst + N.of_nat k) ls ld c =
    if (dst <=? c) && (c <? dst + N.of_nat N0) then chain (o0 (c - dst + src)) else o0 c.
Proof.
  intros D NZ. induction n as [|n IH]; intros k o ss ls ld K L C I c.
  - cbn [copy_up]. rewrite I. replace k with N0 by lia. reflexivity.
  - cbn [copy_up]. unfold no_labels.
    destruct (lab ss =? 0) eqn:E0.
    { bools. destruct (L 0) as [X|X]; [|lia]. now rewrite N.mul_0_r, N.add_0_r in X. }
    cbn [andb].
    assert (o (src + N.of_nat k) = o0 (src + N.of_nat k)) as R.
    { rewrite I. cases; bools; try reflexivity; lia. }
    assert (o0 (src + N.of_nat k) <> 0) as NZk by (apply NZ; lia).
    assert (exists ls' ld', (if o (src + N.of_nat k) =? ls then (ls, ld) else (o (src + N.of_nat k), chain (o (src + N.of_nat k)))) = (ls', ld')
            /\ ls' = o0 (src + N.of_nat k) /\ ld' = chain ls') as (ls' & ld' & EQ & E1 & E2).
    { rewrite R. destruct (o0 (src + N.of_nat k) =? ls) eqn:E; bools.
      - exists ls, ld. repeat split; [congruence|]. destruct C as [C|C]; [congruence|exact C].
      - do 2 eexists. repeat split. }
    rewrite EQ.
    replace (src + N.of_nat k + 1) with (src + N.of_nat (S k)) by lia.
    replace (dst + N.of_nat k + 1) with (dst + N.of_nat (S k)) by lia.
    apply IH.
    + lia.
    + intros j. destruct (L (j + 1)) as [X|X]; [left|right; lia]. now replace (ss + 2 + 2 * j) with (ss + 2 * (j + 1)) by lia.
    + right. congruence.
    + intros x. unfold put. destruct (x =? dst + N.of_nat k) eqn:X; bools.
      * subst x. replace (dst + N.of_nat k - dst + src) with (src + N.of_nat k) by lia.
        cases; bools; try lia; congruence.
      * rewrite I. cases; bools; try reflexivity; lia.
Qed.

Lemma copy_down_spec chain lab o0 src dst N0 :
  src <= dst ->
  (forall c, src <= c < src + N.of_nat N0 -> o0 c <> 0) ->
  forall n o ss ls ld, (n <= N0)%nat ->
  (forall j, j < N.of_nat n -> lab (ss - 2 * j) <> 0) ->
  (ls = 0 \/ ld = chain ls) ->
  (forall c, o c = if (dst + N.of_nat n <=? c) && (c <? dst + N.of_nat N0) then chain (o0 (c - dst + src)) else o0 c) ->
  forall c, copy_down n chain lab o (src + N.of_nat n - 1) ss (dst + N.of_nat n - 1) ls ld c =
    if (dst <=? c) && (c <? dst + N.of_nat N0) then chain (o0 (c - dst + src)) else o0 c.
Proof.
  intros D NZ. induction n as [|n IH]; intros o ss ls ld K L C I c.
  - cbn [copy_down]. rewrite I. now rewrite N.add_0_r.
  - cbn [copy_down]. unfold no_labels.
    destruct (lab ss =? 0) eqn:E0.
    { bools. exfalso. apply (L 0); [lia|]. now rewrite N.mul_0_r, N.sub_0_r. }
    cbn [andb].
    replace (src + N.of_nat (S n) - 1) with (src + N.of_nat n) by lia.
    replace (dst + N.of_nat (S n) - 1) with (dst + N.of_nat n) by lia.
    assert (o (src + N.of_nat n) = o0 (src + N.of_nat n)) as R.
    { rewrite I. cases; bools; try reflexivity; lia. }
    assert (o0 (src + N.of_nat n) <> 0) as NZk by (apply NZ; lia).
    assert (exists ls' ld', (if o (src + N.of_nat n) =? ls then (ls, ld) else (o (src + N.of_nat n), chain (o (src + N.of_nat n)))) = (ls', ld')
            /\ ls' = o0 (src + N.of_nat n) /\ ld' = chain ls') as (ls' & ld' & EQ & E1 & E2).
    { rewrite R. destruct (o0 (src + N.of_nat n) =? ls) eqn:E; bools.
      - exists ls, ld. repeat split; [congruence|]. destruct C as [C|C]; [congruence|exact C].
      - do 2 eexists. repeat split. }
    rewrite EQ. apply IH.
    + lia.
    + intros j J. replace (ss - 2 - 2 * j) with (ss - 2 * (j + 1)) by lia. apply L. lia.
    + right. congruence.
    + intros x. unfold put. destruct (x =? dst + N.of_nat n) eqn:X; bools.
      * subst x. replace (dst + N.of_nat n - dst + src) with (src + N.of_nat n) by lia.
        cases; bools; try lia; congruence.
      * rewrite I. cases; bools; try reflexivity; lia.
Qed.

Lemma copy_up_none n : forall chain lab o so ss dd ls ld,
  (forall j, j < 2 * N.of_nat n -> lab (ss + j) = 0) -> copy_up n chain lab o so ss dd ls ld = o.
Proof.
  induction n as [|n IH]; intros chain lab o so ss dd ls ld L; cbn [copy_up]; [reflexivity|].
  unfold no_labels. rewrite (L 1) by lia. rewrite <- (N.add_0_r ss) at 1. rewrite (L 0) by lia. cbn [N.eqb andb].
  apply IH. intros j J. replace (ss + 2 + j) with (ss + (2 + j)) by lia. apply L. lia.
Qed.
Lemma copy_down_none n : forall chain lab o so ss dd ls ld, 2 * N.of_nat n <= ss + 2 ->
  (forall j, ss + 2 - 2 * N.of_nat n <= j < ss + 2 -> lab j = 0) -> copy_down n chain lab o so ss dd ls ld = o.
Proof.
  induction n as [|n IH]; intros chain lab o so ss dd ls ld S L; cbn [copy_down]; [reflexivity|].
  unfold no_labels. rewrite !L by lia. cbn [N.eqb andb]. destruct n; [reflexivity|].
  apply IH; [lia|]. intros j J. apply L. lia.
Qed.

(** The copy of whole cells. *)
Lemma transfer_aligned chain lab o a b n : a <> b ->
  mem_origin_transfer chain lab o (4 * a) (4 * b) (4 * n) =
    if (a <? b + n) && (b <=? a) then copy_down (N.to_nat n) chain lab o (b + n - 1) (4 * (b + n - 1)) (a + n - 1) 0 0
    else copy_up (N.to_nat n) chain lab o b (4 * b) a 0 0.
Proof.
  intros AB. unfold mem_origin_transfer, move_origin, reverse_copy_origin, copy_origin.
  replace (4 * b =? 4 * a) with false by (symmetry; apply N.eqb_neq; lia).
  replace (4 * a / 4) with a by lia. replace (4 * b / 4) with b by lia.
  replace ((4 * b + 4 * n) / 4) with (b + n) by lia. replace ((4 * a + 4 * n) / 4) with (a + n) by lia.
  replace (a * 4 <? 4 * a) with false by (symmetry; apply N.ltb_ge; lia).
  replace ((a + n) * 4 <? 4 * a + 4 * n) with false by (symmetry; apply N.ltb_ge; lia).
  destruct ((a <? b + n) && (b <=? a)) eqn:E; bools.
  - replace (a * 4 + 4 <? (a + n) * 4) with true by (symmetry; apply N.ltb_lt; lia).
    replace (((a + n) * 4 - a * 4) / 4) with n by lia.
    replace ((4 * b + 3) / 4 * 4 + (a + n) * 4 - a * 4 - 4) with (4 * (b + n - 1)) by lia.
    replace (4 * (b + n - 1) / 4) with (b + n - 1) by lia.
    replace ((a + n) * 4 / 4 - 1) with (a + n - 1) by lia. reflexivity.
  - replace ((a + n) * 4 <? a * 4) with false by (symmetry; apply N.ltb_ge; lia).
    destruct ((a + n) * 4 <=? a * 4) eqn:F; bools.
    + assert (n = 0) as -> by lia. reflexivity.
    + replace (((a + n) * 4 - a * 4) / 4) with n by lia.
      replace ((4 * b + 3) / 4 * 4) with (4 * b) by lia. replace (4 * b / 4) with b by lia.
      replace (a * 4 / 4) with a by lia. reflexivity.
Qed.
