(** Lemmas about the basic definitions of M_Base. *)
From Coq Require Import ZArith NArith List Bool Lia ZifyBool ZifyNat ZifyN.
From Verif Require Import M_Base.
Import ListNotations.
Open Scope N_scope.
Local Ltac Zify.zify_post_hook ::= Z.div_mod_to_equations.

Lemma len_app {A} (l m : list A) : len (l ++ m) = len l + len m.
Proof. unfold len. rewrite app_length. lia. Qed.

Lemma len_cons {A} (x : A) l : len (x :: l) = 1 + len l.
Proof. unfold len. simpl length. lia. Qed.

Lemma len_nil {A} : len (@nil A) = 0.
Proof. reflexivity. Qed.

Lemma len_rev {A} (l : list A) : len (rev l) = len l.
Proof. unfold len. now rewrite rev_length. Qed.

Lemma len_map {A B} (f : A -> B) l : len (map f l) = len l.
Proof. unfold len. now rewrite map_length. Qed.

Lemma get_some {A} (l : list A) i x : get l i = Some x -> i < len l.
Proof.
  unfold get, len. intros H.
  assert (nth_error l (N.to_nat i) <> None) by congruence.
  apply nth_error_Some in H0. lia.
Qed.

Lemma get_lt {A} (l : list A) i : i < len l -> exists x, get l i = Some x.
Proof.
  unfold get, len. intros H.
  destruct (nth_error l (N.to_nat i)) eqn:E; eauto.
  apply nth_error_None in E. lia.
Qed.

Lemma get_none {A} (l : list A) i : get l i = None <-> len l <= i.
Proof.
  unfold get, len. rewrite nth_error_None. lia.
Qed.

Lemma get_app_l {A} (l m : list A) i : i < len l -> get (l ++ m) i = get l i.
Proof. unfold get, len. intros. apply nth_error_app1. lia. Qed.

Lemma get_app_r {A} (l m : list A) i : len l <= i -> get (l ++ m) i = get m (i - len l).
Proof.
  unfold get, len. intros. rewrite nth_error_app2 by lia. f_equal. lia.
Qed.

Lemma get_app_last {A} (l : list A) x : get (l ++ [x]) (len l) = Some x.
Proof.
  rewrite get_app_r by lia. replace (len l - len l) with 0 by lia. reflexivity.
Qed.

Lemma get_cons_0 {A} (x : A) l : get (x :: l) 0 = Some x.
Proof. reflexivity. Qed.

Lemma get_cons_S {A} (x : A) l i : 0 < i -> get (x :: l) i = get l (i - 1).
Proof.
  unfold get. intros. replace (N.to_nat i) with (S (N.to_nat (i - 1))) by lia. reflexivity.
Qed.

Lemma get_map {A B} (f : A -> B) l i : get (map f l) i = option_map f (get l i).
Proof. unfold get. apply nth_error_map. Qed.

Lemma upd_nat_length {A} (l : list A) i v : length (upd_nat l i v) = length l.
Proof.
  revert i; induction l; destruct i; simpl; auto.
Qed.

Lemma len_upd {A} (l : list A) i v : len (upd l i v) = len l.
Proof. unfold len, upd. now rewrite upd_nat_length. Qed.

Lemma upd_nat_eq {A} (l : list A) i v : (i < length l)%nat -> nth_error (upd_nat l i v) i = Some v.
Proof.
  revert i; induction l; destruct i; simpl; intros; try lia; auto. apply IHl. lia.
Qed.

Lemma upd_nat_neq {A} (l : list A) i j v : i <> j -> nth_error (upd_nat l i v) j = nth_error l j.
Proof.
  revert i j; induction l; destruct i, j; simpl; intros; try congruence; auto.
Qed.

Lemma get_upd_eq {A} (l : list A) i v : i < len l -> get (upd l i v) i = Some v.
Proof. unfold get, upd, len. intros. apply upd_nat_eq. lia. Qed.

Lemma get_upd_neq {A} (l : list A) i j v : i <> j -> get (upd l i v) j = get l j.
Proof. unfold get, upd. intros. apply upd_nat_neq. lia. Qed.

Lemma get_upd {A} (l : list A) i j v :
  get (upd l i v) j = if (i =? j) && (j <? len l) then Some v else get l j.
Proof.
  destruct (N.eqb_spec i j); simpl.
  - subst. destruct (N.ltb_spec j (len l)).
    + now apply get_upd_eq.
    + rewrite (proj2 (get_none l j)) by lia. apply get_none. rewrite len_upd. lia.
  - now apply get_upd_neq.
Qed.

Lemma list_ext {A} (l m : list A) : (forall i, get l i = get m i) -> l = m.
Proof.
  revert m; induction l as [|x l IH]; intros [|y m] H; auto.
  - specialize (H 0). discriminate.
  - specialize (H 0). discriminate.
  - assert (Hx := H 0). cbn in Hx. inversion Hx; subst. f_equal. apply IH.
    intros i. specialize (H (i + 1)).
    rewrite !get_cons_S in H by lia. now replace (i + 1 - 1) with i in H by lia.
Qed.

Lemma nseq_length a n : length (nseq a n) = n.
Proof. revert a; induction n; simpl; auto. Qed.

Lemma len_nseq a n : len (nseq a n) = N.of_nat n.
Proof. unfold len. now rewrite nseq_length. Qed.

Lemma in_nseq a n x : In x (nseq a n) <-> a <= x < a + N.of_nat n.
Proof.
  revert a; induction n; intros a.
  - simpl. lia.
  - cbn [nseq In]. rewrite IHn. lia.
Qed.

Lemma get_nseq a n i : i < N.of_nat n -> get (nseq a n) i = Some (a + i).
Proof.
  revert a i; induction n; intros a i H; [lia|].
  cbn [nseq]. destruct (N.eqb_spec i 0).
  - subst. cbn. f_equal. lia.
  - rewrite get_cons_S by lia. rewrite IHn by lia. f_equal. lia.
Qed.

Lemma NoDup_nseq a n : NoDup (nseq a n).
Proof.
  revert a; induction n; intros a; cbn [nseq]; constructor.
  - rewrite in_nseq. lia.
  - apply IHn.
Qed.

Lemma nseq_app a n m : nseq a (n + m) = nseq a n ++ nseq (a + N.of_nat n) m.
Proof.
  revert a; induction n; intros a.
  - simpl. f_equal. lia.
  - cbn [nseq Nat.add app]. f_equal. rewrite IHn. f_equal. f_equal. lia.
Qed.

Lemma bind_ok {A B} (r : Res A) (f : A -> Res B) b :
  bind r f = Ok b -> exists a, r = Ok a /\ f a = Ok b.
Proof. destruct r; simpl; intros; try discriminate. eauto. Qed.

Lemma get_rev {A} (l : list A) i : i < len l -> get (rev l) i = get l (len l - 1 - i).
Proof.
  unfold get, len. intros.
  assert (Hn : (N.to_nat i < length l)%nat) by lia.
  destruct (nth_error l (N.to_nat (N.of_nat (length l) - 1 - i))) eqn:E.
  - rewrite <- E.
    rewrite (nth_error_nth' (rev l) a) by (rewrite rev_length; lia).
    rewrite rev_nth by lia.
    rewrite (nth_error_nth' l a) by lia.
    do 2 f_equal. lia.
  - apply nth_error_None in E. lia.
Qed.

Lemma get_firstn {A} (l : list A) n i : i < N.of_nat n -> get (firstn n l) i = get l i.
Proof.
  unfold get. intros H.
  assert (Hi : (N.to_nat i < n)%nat) by lia. clear H. revert Hi.
  generalize (N.to_nat i) as k. clear i. intros k. revert n l.
  induction k; intros n l H; destruct n; try lia; destruct l; simpl; auto.
  apply IHk. lia.
Qed.

Lemma le_bytes_length k v : length (le_bytes k v) = k.
Proof. revert v; induction k; simpl; auto. Qed.

Lemma le_bytes_byte k v : Forall (fun b => b < two8) (le_bytes k v).
Proof.
  revert v; induction k; intros; cbn [le_bytes]; constructor; auto.
  apply N.mod_lt. discriminate.
Qed.

Lemma le_round k v : v < two8 ^ N.of_nat k -> le_val (le_bytes k v) = v.
Proof.
  revert v; induction k; intros v H.
  - change (two8 ^ N.of_nat 0) with 1 in H. cbn. lia.
  - cbn [le_bytes le_val].
    rewrite IHk.
    + pose proof (N.div_mod v two8). unfold two8 in *. lia.
    + rewrite Nat2N.inj_succ, N.pow_succ_r' in H.
      apply N.div_lt_upper_bound; [discriminate|exact H].
Qed.

Lemma get_nil {A} i : get (@nil A) i = None.
Proof. unfold get. now destruct (N.to_nat i). Qed.

(** For examples: run the code first, then state facts about the result. *)
Lemma ok_check {A} (r : Res A) (P : A -> Prop) :
  match r with Ok a => P a | _ => False end -> exists a, r = Ok a /\ P a.
Proof. destruct r; try contradiction. eauto. Qed.
