(** Intervals: what the operations of M_PyTree do to the bytes covered. *)
From Coq Require Import NArith ZArith List Bool Lia.
From Verif Require Import M_Base M_PyGrammar M_PyTree P_Base.
Import ListNotations.
Open Scope Z_scope.

Definition covers (i : interval) (p : Z) : Prop := iv_begin i <= p < iv_end i.
Definition cover (t : intervals) (p : Z) : Prop := exists i, In i t /\ covers i p.
Definition proper (t : intervals) : Prop := forall i, In i t -> iv_begin i < iv_end i.
Definition single (t : intervals) : Prop :=
  NoDup t /\ forall x y p, In x t -> In y t -> covers x p -> covers y p -> x = y.

Lemma iv_eqb_eq : forall a b, iv_eqb a b = true <-> a = b.
Proof.
  intros [a1 a2 a3] [b1 b2 b3]. unfold iv_eqb. cbn. rewrite !andb_true_iff, !Z.eqb_eq.
  split; [intros [[-> ->] ->]; reflexivity | intros E; injection E as -> -> ->; auto].
Qed.
Lemma existsb_eqb : forall i t, existsb (iv_eqb i) t = true <-> In i t.
Proof.
  intros i t. rewrite existsb_exists. split.
  - intros (x & A & B). apply iv_eqb_eq in B. subst. exact A.
  - intros A. exists i. split; [exact A|now apply iv_eqb_eq].
Qed.
Lemma In_add : forall t i x, In x (iv_add t i) <-> In x t \/ x = i.
Proof.
  intros t i x. unfold iv_add. destruct (existsb (iv_eqb i) t) eqn:E.
  - apply existsb_eqb in E. split; [auto|]. intros [A| ->]; assumption.
  - rewrite in_app_iff. cbn. split; intros [A|A]; auto. destruct A as [->|[]]. auto.
Qed.
Lemma In_update : forall is t x, In x (iv_update t is) <-> In x t \/ In x is.
Proof.
  induction is as [|i r IH]; intros t x; cbn; [tauto|].
  unfold iv_update in *. cbn. rewrite IH, In_add. split; intros; intuition.
Qed.
Lemma NoDup_add : forall t i, NoDup t -> NoDup (iv_add t i).
Proof.
  intros t i H. unfold iv_add. destruct (existsb (iv_eqb i) t) eqn:E; [exact H|].
  apply NoDup_Add with (a := i) (l := t); [|split; [exact H|]].
    rewrite <- (app_nil_r t) at 1. apply Add_app.
  - intros A. apply existsb_eqb in A. congruence.
Qed.
Lemma NoDup_update : forall is t, NoDup t -> NoDup (iv_update t is).
Proof. induction is as [|i r IH]; intros t H; cbn; [exact H|]. apply IH. now apply NoDup_add. Qed.
Lemma In_at : forall t p x, In x (iv_at t p) <-> In x t /\ covers x p.
Proof. intros. unfold iv_at, covers. rewrite filter_In, andb_true_iff, Z.leb_le, Z.ltb_lt. tauto. Qed.

(** ** begin() and end() *)
Lemma fold_min : forall r m, let k := fold_left (fun m j => Z.min m (iv_begin j)) r m in
  (k = m \/ exists i, In i r /\ iv_begin i = k) /\ k <= m /\ forall i, In i r -> k <= iv_begin i.
Proof.
  induction r as [|j r IH]; intros m; cbn; [repeat split; try lia; tauto|].
  destruct (IH (Z.min m (iv_begin j))) as (A & B & C). repeat apply conj.
  - destruct A as [A|(i & A & D)]; [|right; eauto]. destruct (Z.le_gt_cases m (iv_begin j)); [left; lia|right; exists j; split; [auto|lia]].
  - lia.
  - intros i [->|D]; [lia|auto].
Qed.
Lemma fold_max : forall r m, let k := fold_left (fun m j => Z.max m (iv_end j)) r m in
  (k = m \/ exists i, In i r /\ iv_end i = k) /\ m <= k /\ forall i, In i r -> iv_end i <= k.
Proof.
  induction r as [|j r IH]; intros m; cbn; [repeat split; try lia; tauto|].
  destruct (IH (Z.max m (iv_end j))) as (A & B & C). repeat apply conj.
  - destruct A as [A|(i & A & D)]; [|right; eauto]. destruct (Z.le_gt_cases (iv_end j) m); [left; lia|right; exists j; split; [auto|lia]].
  - lia.
  - intros i [->|D]; [lia|auto].
Qed.
Lemma first_in : forall t, t <> [] -> exists i, In i t /\ iv_begin i = iv_first t.
Proof.
  intros [|i r] H; [congruence|]. destruct (fold_min r (iv_begin i)) as ([A|(j & A & B)] & _); cbn.
  - exists i. auto.
  - exists j. auto.
Qed.
Lemma first_le : forall t i, In i t -> iv_first t <= iv_begin i.
Proof.
  intros [|j r] i H; [destruct H|]. destruct (fold_min r (iv_begin j)) as (_ & A & B). cbn. destruct H as [->|H]; auto.
Qed.
Lemma last_in : forall t, t <> [] -> exists i, In i t /\ iv_end i = iv_last t.
Proof.
  intros [|i r] H; [congruence|]. destruct (fold_max r (iv_end i)) as ([A|(j & A & B)] & _); cbn.
  - exists i. auto.
  - exists j. auto.
Qed.
Lemma last_ge : forall t i, In i t -> iv_end i <= iv_last t.
Proof.
  intros [|j r] i H; [destruct H|]. destruct (fold_max r (iv_end j)) as (_ & A & B). cbn. destruct H as [->|H]; auto.
Qed.
Lemma first_lt_last : forall t, proper t -> t <> [] -> iv_first t < iv_last t.
Proof.
  intros t P H. destruct (first_in t H) as (i & A & B). pose proof (last_ge t i A). pose proof (P i A). lia.
Qed.
Lemma first_lt_nonempty : forall t, iv_first t < iv_last t -> t <> [].
Proof. intros t H ->. cbn in H. lia. Qed.
Lemma cover_range : forall t p, cover t p -> iv_first t <= p < iv_last t.
Proof. intros t p (i & A & B). pose proof (first_le t i A). pose proof (last_ge t i A). unfold covers in B. lia. Qed.
Lemma cover_first : forall t, proper t -> t <> [] -> cover t (iv_first t).
Proof. intros t P H. destruct (first_in t H) as (i & A & B). pose proof (P i A). exists i. split; [exact A|]. unfold covers. lia. Qed.
Lemma cover_last : forall t, proper t -> t <> [] -> cover t (iv_last t - 1).
Proof. intros t P H. destruct (last_in t H) as (i & A & B). pose proof (P i A). exists i. split; [exact A|]. unfold covers. lia. Qed.
Lemma same_nonempty : forall t u, proper t -> (forall p, cover t p -> cover u p) -> t <> [] -> u <> [].
Proof. intros t u P H A ->. destruct (H _ (cover_first t P A)) as (i & [] & _). Qed.
Lemma same_bounds : forall t u, proper t -> proper u -> (forall p, cover t p <-> cover u p) ->
  iv_first t = iv_first u /\ iv_last t = iv_last u.
Proof.
  intros t u Pt Pu H.
  destruct t as [|i t'] eqn:Et.
  - destruct u as [|j u']; [auto|]. exfalso. refine (same_nonempty (j :: u') [] Pu _ _ eq_refl); [|discriminate].
    intros p. apply H.
  - assert (Nt : i :: t' <> []) by discriminate. rewrite <- Et in *. clear Et i t'.
    assert (Nu : u <> []) by (apply (same_nonempty t u Pt); [intros p; apply H|exact Nt]).
    pose proof (cover_range u _ (proj1 (H _) (cover_first t Pt Nt))). pose proof (cover_range t _ (proj2 (H _) (cover_first u Pu Nu))).
    pose proof (cover_range u _ (proj1 (H _) (cover_last t Pt Nt))). pose proof (cover_range t _ (proj2 (H _) (cover_last u Pu Nu))).
    lia.
Qed.

(** ** split_overlaps *)
Fixpoint increasing (l : list Z) : Prop := match l with [] => True | x :: r => (forall y, In y r -> x < y) /\ increasing r end.
Lemma insert_z_in : forall l x y, In y (insert_z x l) <-> y = x \/ In y l.
Proof.
  induction l as [|z l IH]; intros x y; cbn; [intuition congruence|].
  destruct (x <? z); [cbn; intuition congruence|]. destruct (x =? z) eqn:E.
  - apply Z.eqb_eq in E. subst z. cbn. intuition congruence.
  - cbn. rewrite IH. intuition congruence.
Qed.
Lemma insert_z_increasing : forall l x, increasing l -> increasing (insert_z x l).
Proof.
  induction l as [|z l IH]; intros x H; cbn; [split; [intros y []|exact I]|].
  destruct H as [A B]. destruct (x <? z) eqn:E.
  - apply Z.ltb_lt in E. cbn. split; [|split; assumption]. intros y [<-|C]; [exact E|]. pose proof (A y C). lia.
  - apply Z.ltb_ge in E. destruct (x =? z) eqn:F.
    + cbn. auto.
    + apply Z.eqb_neq in F. cbn. split; [|apply IH; exact B]. intros y C. apply insert_z_in in C. destruct C as [->|C]; [lia|auto].
Qed.
Lemma bounds_increasing : forall t, increasing (iv_bounds t).
Proof. intros t. unfold iv_bounds. induction (map iv_begin t ++ map iv_end t) as [|x l IH]; cbn; [exact I|]. now apply insert_z_increasing. Qed.
Lemma bounds_in : forall t x, In x (iv_bounds t) <-> exists i, In i t /\ (x = iv_begin i \/ x = iv_end i).
Proof.
  intros t x. unfold iv_bounds. assert (E : forall l, In x (fold_right insert_z [] l) <-> In x l).
  { induction l as [|y l IH]; cbn; [tauto|]. rewrite insert_z_in, IH. intuition congruence. }
  rewrite E, in_app_iff, !in_map_iff. split.
  - intros [(i & A & B)|(i & A & B)]; exists i; auto.
  - intros (i & A & [B|B]); [left|right]; exists i; auto.
Qed.
Lemma split_at_in : forall t bs x, increasing bs -> In x (split_at t bs) ->
  exists i, In i t /\ In (iv_begin x) bs /\ In (iv_end x) bs /\ iv_begin x < iv_end x /\
    (forall y, In y bs -> y <= iv_begin x \/ iv_end x <= y) /\ covers i (iv_begin x) /\ iv_data x = iv_data i.
Proof.
  induction bs as [|l bs IH]; intros x Inc H; [destruct H|].
  destruct bs as [|u bs]; [destruct H|]. cbn [split_at] in H. apply in_app_iff in H. destruct H as [H|H].
  - apply in_map_iff in H. destruct H as (i & <- & A). apply In_at in A. exists i. cbn. destruct A as [A B].
    destruct Inc as [C [D E]]. repeat apply conj; auto.
    + apply C. left. reflexivity.
    + intros y [<-|[<-|F]]; [lia|lia|]. right. specialize (D y F). lia.
    + apply B.
    + apply B.
  - destruct Inc as [C D]. destruct (IH x D H) as (i & A1 & A2 & A3 & A4 & A5 & A6 & A7).
    exists i. repeat apply conj; auto.
    + right. exact A2.
    + right. exact A3.
    + intros y [<-|F]; [|auto]. left. specialize (C _ A2). lia.
    + apply A6.
    + apply A6.
Qed.
Lemma split_at_complete : forall t bs i p, increasing bs -> In i t -> covers i p ->
  (exists l, In l bs /\ l <= p /\ iv_begin i <= l) -> (exists u, In u bs /\ p < u /\ u <= iv_end i) ->
  exists x, In x (split_at t bs) /\ covers x p.
Proof.
  induction bs as [|a bs IH]; intros i p Inc Hi Hp (l & L1 & L2 & L3) (u & U1 & U2 & U3); [destruct L1|].
  destruct bs as [|b bs].
  - destruct L1 as [->|[]]. destruct U1 as [->|[]]. lia.
  - destruct Inc as [C D]. cbn [split_at]. destruct (Z.lt_ge_cases p b) as [Q|Q].
    + assert (l = a).
      { destruct L1 as [L1|L1]; [auto|]. destruct L1 as [L1|L1]; [lia|]. destruct D as [D _]. specialize (D l L1). lia. }
      subst l. exists (mkIv a b (iv_data i)). split.
      * apply in_app_iff. left. apply in_map_iff. exists i. split; [reflexivity|]. apply In_at. split; [exact Hi|].
        unfold covers in *. lia.
      * unfold covers. cbn. lia.
    + destruct (IH i p D Hi Hp) as (x & A & B).
      * destruct L1 as [L1|L1]; [|exists l; auto]. subst a. exists b. split; [left; reflexivity|]. split; [lia|].
        specialize (C b (or_introl eq_refl)). lia.
      * destruct U1 as [U1|U1]; [|exists u; auto]. subst a. specialize (C b (or_introl eq_refl)). lia.
      * exists x. split; [|exact B]. apply in_app_iff. auto.
Qed.
Lemma split_proper : forall t, proper (iv_split t).
Proof.
  intros t i H. apply In_update in H. destruct H as [[]|H]. apply split_at_in in H; [|apply bounds_increasing].
  destruct H as (j & _ & _ & _ & A & _). exact A.
Qed.
Lemma split_cover : forall t p, cover (iv_split t) p <-> cover t p.
Proof.
  intros t p. split.
  - intros (x & A & B). apply In_update in A. destruct A as [[]|A]. apply split_at_in in A; [|apply bounds_increasing].
    destruct A as (i & A1 & A2 & A3 & A4 & A5 & A6 & A7). exists i. split; [exact A1|].
    assert (C : In (iv_end i) (iv_bounds t)) by (apply bounds_in; eauto). apply A5 in C. unfold covers in *. lia.
  - intros (i & A & B). destruct (split_at_complete t (iv_bounds t) i p (bounds_increasing t) A B) as (x & C & D).
    + exists (iv_begin i). split; [apply bounds_in; eauto|]. unfold covers in B. lia.
    + exists (iv_end i). split; [apply bounds_in; eauto|]. unfold covers in B. lia.
    + exists x. split; [|exact D]. apply In_update. auto.
Qed.
Lemma split_data : forall t x, In x (iv_split t) -> exists i, In i t /\ iv_data x = iv_data i.
Proof.
  intros t x H. apply In_update in H. destruct H as [[]|H]. apply split_at_in in H; [|apply bounds_increasing].
  destruct H as (i & A & _ & _ & _ & _ & _ & B). eauto.
Qed.

(** ** merge_overlaps *)
Lemma insert_iv_in : forall l x y, In y (insert_iv x l) <-> y = x \/ In y l.
Proof.
  induction l as [|z l IH]; intros x y; cbn; [intuition congruence|].
  destruct (iv_leb x z); cbn; [intuition congruence|]. rewrite IH. intuition congruence.
Qed.
Lemma sorted_in : forall t y, In y (iv_sorted t) <-> In y t.
Proof. induction t as [|x t IH]; intros y; cbn; [tauto|]. unfold iv_sorted in IH. rewrite insert_iv_in, IH. intuition congruence. Qed.
Fixpoint by_begin (l : intervals) : Prop :=
  match l with [] => True | x :: r => (forall y, In y r -> iv_begin x <= iv_begin y) /\ by_begin r end.
Lemma insert_iv_sorted : forall l x, by_begin l -> by_begin (insert_iv x l).
Proof.
  induction l as [|z l IH]; intros x H; cbn; [split; [intros y []|exact I]|].
  destruct H as [A B]. destruct (iv_leb x z) eqn:E; unfold iv_leb in E.
  - assert (iv_begin x <= iv_begin z).
    { destruct (iv_begin x =? iv_begin z) eqn:F; [apply Z.eqb_eq in F; lia|apply Z.ltb_lt in E; lia]. }
    cbn. split; [|split; assumption]. intros y [<-|C]; [assumption|]. specialize (A y C). lia.
  - assert (iv_begin z <= iv_begin x).
    { destruct (iv_begin x =? iv_begin z) eqn:F; [apply Z.eqb_eq in F; lia|apply Z.ltb_ge in E; lia]. }
    cbn. split; [|apply IH; exact B]. intros y C. apply insert_iv_in in C. destruct C as [->|C]; auto.
Qed.
Lemma sorted_sorted : forall t, by_begin (iv_sorted t).
Proof. induction t as [|x t IH]; cbn; [exact I|]. now apply insert_iv_sorted. Qed.

Fixpoint apart (l : intervals) : Prop :=
  match l with [] => True | x :: r => (forall y, In y r -> iv_end x <= iv_begin y) /\ apart r end.
Lemma merge_loop_ok : forall strict r low, proper (low :: r) -> by_begin (low :: r) ->
  let m := merge_loop strict low r in
  proper m /\ apart m /\ (forall p, cover m p <-> cover (low :: r) p) /\ (forall x, In x m -> iv_begin low <= iv_begin x).
Proof.
  induction r as [|h r IH]; intros low P S; cbn.
  - split; [exact P|]. split; [split; [intros y []|exact I]|]. split; [tauto|]. intros x [<-|[]]. lia.
  - assert (Ph : iv_begin h < iv_end h) by (apply P; cbn; auto).
    assert (Pl : iv_begin low < iv_end low) by (apply P; cbn; auto).
    destruct S as [S1 S2]. assert (Sh : iv_begin low <= iv_begin h) by (apply S1; cbn; auto).
    destruct ((iv_begin h <? iv_end low) || negb strict && (iv_begin h =? iv_end low)) eqn:E.
    + assert (Ov : iv_begin h <= iv_end low).
      { apply orb_true_iff in E. destruct E as [E|E]; [apply Z.ltb_lt in E; lia|]. apply andb_true_iff in E. destruct E as [_ E]. apply Z.eqb_eq in E. lia. }
      set (j := mkIv (iv_begin low) (Z.max (iv_end low) (iv_end h)) (Z.max (iv_data low) (iv_data h))).
      destruct (IH j) as (A & B & C & D).
      * intros i [<-|H]; [cbn; lia|]. apply P. cbn. auto.
      * split; [|apply S2]. intros y H. cbn. apply S1. cbn. auto.
      * split; [exact A|]. split; [exact B|]. split; [|exact D]. intros p. rewrite C. split.
        -- intros (i & [<-|H] & Q); unfold covers in Q; cbn in Q.
           ++ destruct (Z.lt_ge_cases p (iv_end low)); [exists low|exists h]; unfold covers; cbn; split; auto; lia.
           ++ exists i. cbn. auto.
        -- intros (i & [<-|[<-|H]] & Q); unfold covers in Q.
           ++ exists j. unfold covers. cbn. split; auto; lia.
           ++ exists j. unfold covers. cbn. split; auto; lia.
           ++ exists i. cbn. auto.
    + assert (Ov : iv_end low <= iv_begin h).
      { apply orb_false_iff in E. destruct E as [E _]. apply Z.ltb_ge in E. lia. }
      destruct (IH h) as (A & B & C & D).
      * intros i H. apply P. cbn. cbn in H. tauto.
      * exact S2.
      * split; [|split; [|split]].
        -- intros i [<-|H]; [exact Pl|]. now apply A.
        -- cbn. split; [|exact B]. intros y H. specialize (D y H). lia.
        -- intros p. split.
           ++ intros (i & [<-|H] & Q); [exists low; cbn; auto|]. assert (K : cover (h :: r) p) by (apply C; exists i; auto).
              destruct K as (k & K & L). exists k. cbn. cbn in K. tauto.
           ++ intros (i & [<-|H] & Q); [exists low; cbn; auto|]. assert (K : cover (merge_loop strict h r) p) by (apply C; exists i; auto).
              destruct K as (k & K & L). exists k. cbn. auto.
        -- intros x [<-|H]; [lia|]. specialize (D x H). lia.
Qed.
Lemma merge_ok : forall strict t, proper t ->
  proper (iv_merge strict t) /\ apart (iv_merge strict t) /\ forall p, cover (iv_merge strict t) p <-> cover t p.
Proof.
  intros strict t P. unfold iv_merge. pose proof (sorted_sorted t) as S. pose proof (sorted_in t) as Q.
  destruct (iv_sorted t) as [|i r] eqn:E.
  - split; [intros i []|]. split; [exact I|]. intros p. split; intros (j & A & B); [destruct A|]. apply Q in A. destruct A.
  - destruct (merge_loop_ok strict r i) as (A & B & C & _); [|exact S|].
    + intros j H. apply P. apply Q. exact H.
    + split; [exact A|]. split; [exact B|]. intros p. rewrite C. split; intros (j & F & G); exists j; split; auto; apply Q; exact F.
Qed.
Lemma merge_loop_data : forall strict k r low, (forall i, In i (low :: r) -> k <= iv_data i) ->
  forall x, In x (merge_loop strict low r) -> k <= iv_data x.
Proof.
  induction r as [|h r IH]; intros low H x; cbn.
  - intros [<-|[]]. apply H. cbn. auto.
  - destruct ((iv_begin h <? iv_end low) || negb strict && (iv_begin h =? iv_end low)).
    + apply IH. intros i [<-|A]; cbn; [|apply H; cbn; auto]. specialize (H low (or_introl eq_refl)). lia.
    + intros [<-|A]; [apply H; cbn; auto|]. revert x A. apply IH. intros i A. apply H. cbn. cbn in A. tauto.
Qed.
Lemma merge_data : forall strict k t, (forall i, In i t -> k <= iv_data i) -> forall x, In x (iv_merge strict t) -> k <= iv_data x.
Proof.
  intros strict k t H x. unfold iv_merge. pose proof (sorted_in t) as Q. destruct (iv_sorted t) as [|i r]; [intros []|].
  apply merge_loop_data. intros j A. apply H. apply Q. exact A.
Qed.
Lemma apart_single : forall t, proper t -> apart t -> single t.
Proof.
  induction t as [|x t IH]; intros P A.
  - split; [constructor|intros x y p []].
  - destruct A as [A1 A2]. destruct IH as [N U]; [intros i H; apply P; cbn; auto|exact A2|].
    assert (Px : iv_begin x < iv_end x) by (apply P; cbn; auto). split.
    + constructor; [|exact N]. intros H. specialize (A1 x H). lia.
    + intros a b p [<-|Ha] [<-|Hb] Ca Cb.
      * reflexivity.
      * specialize (A1 b Hb). unfold covers in *. lia.
      * specialize (A1 a Ha). unfold covers in *. lia.
      * now apply (U a b p).
Qed.
Lemma single_at : forall t p, single t -> iv_at t p = [] \/ exists i, iv_at t p = [i] /\ In i t.
Proof.
  intros t p [N U]. destruct (iv_at t p) as [|i [|j r]] eqn:E; [auto|right; exists i; split; [reflexivity|]|].
  - apply (proj1 (In_at t p i)). rewrite E. cbn. auto.
  - exfalso. assert (Nd : NoDup (iv_at t p)) by (now apply NoDup_filter). rewrite E in Nd. inversion_clear Nd as [|? ? K _].
    apply K. left. assert (A : In i t /\ covers i p) by (apply In_at; rewrite E; cbn; auto).
    assert (B : In j t /\ covers j p) by (apply In_at; rewrite E; cbn; auto).
    symmetry. apply (U i j p); tauto.
Qed.
Lemma single_same : forall t u, single t -> NoDup u -> (forall x, In x u <-> In x t) -> single u.
Proof. intros t u [N U] Nu H. split; [exact Nu|]. intros x y p A B. apply U; apply H; assumption. Qed.

(** ** chop *)
Lemma In_chop : forall t b e x, In x (iv_chop t b e) <->
  (In x t /\ ~ (b < e /\ b <= iv_begin x /\ iv_end x <= e) /\ ~ (covers x b /\ iv_begin x < b) /\ ~ (covers x e /\ e < iv_end x)) \/
  (exists i, In i t /\ covers i b /\ iv_begin i < b /\ x = mkIv (iv_begin i) b (iv_data i)) \/
  (exists i, In i t /\ covers i e /\ e < iv_end i /\ x = mkIv e (iv_end i) (iv_data i)).
Proof.
  intros t b e x. unfold iv_chop. rewrite In_update, filter_In, in_app_iff, !in_map_iff, !andb_true_iff, !negb_true_iff.
  assert (Hb : forall i, In i (filter (fun i => iv_begin i <? b) (iv_at t b)) <-> In i t /\ covers i b /\ iv_begin i < b).
  { intros i. rewrite filter_In, In_at, Z.ltb_lt. tauto. }
  assert (He : forall i, In i (filter (fun i => e <? iv_end i) (iv_at t e)) <-> In i t /\ covers i e /\ e < iv_end i).
  { intros i. rewrite filter_In, In_at, Z.ltb_lt. tauto. }
  assert (B : existsb (iv_eqb x) (filter (fun i => iv_begin i <? b) (iv_at t b)) = false <-> ~ (In x t /\ covers x b /\ iv_begin x < b)).
  { rewrite <- Hb, <- existsb_eqb, not_true_iff_false. tauto. }
  assert (E : existsb (iv_eqb x) (filter (fun i => e <? iv_end i) (iv_at t e)) = false <-> ~ (In x t /\ covers x e /\ e < iv_end x)).
  { rewrite <- He, <- existsb_eqb, not_true_iff_false. tauto. }
  rewrite B, E.
  assert (F : ((b <? e) && (b <=? iv_begin x) && (iv_end x <=? e)) = false <-> ~ (b < e /\ b <= iv_begin x /\ iv_end x <= e)).
  { rewrite <- not_true_iff_false, !andb_true_iff, Z.ltb_lt, !Z.leb_le. tauto. }
  rewrite F. split.
  - intros [(A1 & (A2 & A3) & A4)|[(i & A1 & A2)|(i & A1 & A2)]].
    + left. tauto.
    + right. left. exists i. apply Hb in A2. intuition.
    + right. right. exists i. apply He in A2. intuition.
  - intros [A|[(i & A1 & A2 & A3 & A4)|(i & A1 & A2 & A3 & A4)]].
    + left. tauto.
    + right. left. exists i. split; [auto|]. apply Hb. auto.
    + right. right. exists i. split; [auto|]. apply He. auto.
Qed.
Lemma NoDup_chop : forall t b e, NoDup t -> NoDup (iv_chop t b e).
Proof. intros t b e H. unfold iv_chop. apply NoDup_update. now apply NoDup_filter. Qed.
(** Nothing changes if all intervals begin at or after the part cut off, which begins at 0. *)
Lemma chop_left_same : forall t b x, (forall i, In i t -> 0 <= iv_begin i /\ b <= iv_begin i < iv_end i) ->
  In x (iv_chop t 0 b) <-> In x t.
Proof.
  intros t b x H. rewrite In_chop. unfold covers. split.
  - intros [A|[(i & A & B & C & _)|(i & A & B & C & ->)]]; [tauto|specialize (H i A); lia|].
    specialize (H i A). destruct i as [ib ie d]. cbn in *. replace b with ib by lia. exact A.
  - intros A. pose proof (H x A) as K. destruct (Z.eq_dec (iv_begin x) b) as [D|D].
    + right. right. exists x. repeat apply conj; auto; try lia. destruct x as [ib ie d]. cbn in *. now rewrite D.
    + left. repeat apply conj; try lia. exact A.
Qed.
(** Nor does it for an empty part at the beginning that ends before it. *)
Lemma chop_nothing : forall t b e, (forall i, In i t -> b <= iv_begin i < iv_end i) -> e < b -> iv_chop t b e = t.
Proof.
  intros t b e H L. unfold iv_chop.
  assert (K : forall l : intervals, (forall i, ~ In i l) -> l = []) by (intros [|i l] A; [reflexivity|destruct (A i); cbn; auto]).
  assert (B : filter (fun i => iv_begin i <? b) (iv_at t b) = []).
  { apply K. intros i A. apply filter_In in A. destruct A as [A C]. apply Z.ltb_lt in C. apply In_at in A. destruct A as [A _]. specialize (H i A). lia. }
  assert (E : filter (fun i => e <? iv_end i) (iv_at t e) = []).
  { apply K. intros i A. apply filter_In in A. destruct A as [A C]. apply In_at in A. destruct A as [A D]. specialize (H i A). unfold covers in D. lia. }
  rewrite B, E. cbn. unfold iv_update. cbn. replace (b <? e) with false by (symmetry; apply Z.ltb_ge; lia). cbn.
  clear. induction t as [|x t IH]; cbn; [reflexivity|]. now rewrite IH.
Qed.

(** ** deconflict_parent *)
Lemma winners_at_nonneg : forall ours b e ps ws, (forall i, In i ours -> -1 <= iv_data i) ->
  winners_at ours [mkIv b e (-1)] ps = Ok ws -> forall w, In w ws -> 0 <= w.
Proof.
  induction ps as [|p ps IH]; intros ws H E w Hw; cbn [winners_at] in E.
  - injection E as <-. destruct Hw.
  - destruct (last_used ours p) as [a| | |] eqn:A; cbn in E; try discriminate.
    destruct (last_used [mkIv b e (-1)] p) as [c| | |] eqn:C; cbn in E; try discriminate.
    destruct (winners_at ours [mkIv b e (-1)] ps) as [ws'| | |] eqn:W; cbn in E; try discriminate.
    injection E as <-. destruct Hw as [<-|Hw]; [|apply (IH ws' H eq_refl w Hw)].
    assert (-1 <= a).
    { unfold last_used in A. destruct (iv_at ours p) as [|i [|j r]] eqn:F; [injection A as <-; lia| |discriminate].
      injection A as <-. apply H. apply (proj1 (In_at ours p i)). rewrite F. cbn. auto. }
    assert (c = -1).
    { unfold last_used, iv_at in C. cbn in C. destruct ((b <=? p) && (p <? e)); cbn in C; now injection C. }
    lia.
Qed.
Lemma winners_at_length : forall ours theirs ps ws, winners_at ours theirs ps = Ok ws -> length ws = length ps.
Proof.
  induction ps as [|p ps IH]; intros ws E; cbn [winners_at] in E; [injection E as <-; reflexivity|].
  destruct (last_used ours p); cbn in E; try discriminate. destruct (last_used theirs p); cbn in E; try discriminate.
  destruct (winners_at ours theirs ps) as [ws'| | |]; cbn in E; try discriminate. injection E as <-. cbn. now rewrite (IH ws' eq_refl).
Qed.
Lemma z_range_length : forall n b, length (z_range b n) = n.
Proof. induction n; intros; cbn; [reflexivity|]. now rewrite IHn. Qed.
Lemma skip_right_nonneg : forall ws lo hi, (forall w, In w ws -> 0 <= w) -> skip_right ws lo hi = hi.
Proof.
  intros [|w r] lo hi H; cbn; [reflexivity|]. assert (0 <= w) by (apply H; cbn; auto).
  replace (w <? 0) with false by (symmetry; apply Z.ltb_ge; lia). now rewrite andb_false_r.
Qed.
Lemma winners_at_ok : forall ours theirs ps, single ours -> single theirs -> exists ws, winners_at ours theirs ps = Ok ws.
Proof.
  intros ours theirs ps So St. induction ps as [|p ps (ws & IH)]; cbn; [eauto|].
  unfold last_used. destruct (single_at ours p So) as [A|(i & A & _)]; rewrite A; cbn;
  destruct (single_at theirs p St) as [B|(j & B & _)]; rewrite B; cbn; rewrite IH; cbn; eauto.
Qed.
Lemma parent_same : forall ours b e ivs, ours <> [] -> (forall i, In i ours -> b <= iv_begin i < iv_end i /\ -1 <= iv_data i) ->
  deconflict_parent ours [mkIv b e (-1)] = Ok ivs -> ivs = ours.
Proof.
  intros ours b e ivs Nn H E. unfold deconflict_parent, best_subset, winners in E.
  change (iv_first [mkIv b e (-1)]) with b in E.
  destruct (iv_last ours <=? b) eqn:L; [cbn in E; discriminate|]. apply Z.leb_gt in L.
  destruct (winners_at ours [mkIv b e (-1)] (z_range b (Z.to_nat (iv_last ours + 1 - b)))) as [ws| | |] eqn:W; cbn in E; try discriminate.
  pose proof (winners_at_length _ _ _ _ W) as Lw. rewrite z_range_length in Lw.
  assert (P : forall w, In w ws -> 0 <= w) by (intros w; apply (winners_at_nonneg ours b e (z_range b (Z.to_nat (iv_last ours + 1 - b))) ws); [intros i A; apply (H i A)|exact W]).
  destruct ws as [|w r]; [cbn in E; discriminate|]. cbn [skip_left] in E.
  assert (0 <= w) by (apply P; cbn; auto). replace (w <? 0) with false in E by (symmetry; apply Z.ltb_ge; lia).
  cbn [andb bind] in E. rewrite skip_right_nonneg in E by (intros x A; apply in_rev in A; now apply P).
  cbn [fst snd] in E. injection E as <-.
  apply chop_nothing.
  - intros i A. pose proof (H i A). pose proof (first_le ours i A). lia.
  - destruct (first_in ours Nn) as (i & A & B). pose proof (H i A). pose proof (first_le ours i A).
    change (Z.pos (Pos.of_succ_nat (length r))) with (Z.of_nat (length (w :: r))). lia.
Qed.
Lemma parent_ok : forall ours b e, single ours -> ours <> [] -> (forall i, In i ours -> b <= iv_begin i < iv_end i /\ -1 <= iv_data i) ->
  deconflict_parent ours [mkIv b e (-1)] = Ok ours.
Proof.
  intros ours b e S Nn H.
  assert (K : exists ivs, deconflict_parent ours [mkIv b e (-1)] = Ok ivs).
  { unfold deconflict_parent, best_subset, winners. change (iv_first [mkIv b e (-1)]) with b.
    destruct (last_in ours Nn) as (i & A & B). pose proof (H i A).
    destruct (iv_last ours <=? b) eqn:L; [apply Z.leb_le in L; lia|].
    destruct (winners_at_ok ours [mkIv b e (-1)] (z_range b (Z.to_nat (iv_last ours + 1 - b))) S) as (ws & W).
    { split; [constructor; [intros []|constructor]|]. intros x y p [<-|[]] [<-|[]]. auto. }
    rewrite W. cbn [bind]. pose proof (winners_at_length _ _ _ _ W) as Lw. rewrite z_range_length in Lw.
    destruct ws as [|w r]; [cbn in Lw; lia|]. cbn [skip_left].
    assert (0 <= w) by (apply (winners_at_nonneg ours b e _ (w :: r) (fun i A => proj2 (H i A)) W); cbn; auto).
    replace (w <? 0) with false by (symmetry; apply Z.ltb_ge; lia). cbn. eauto. }
  destruct K as (ivs & K). rewrite K. f_equal. exact (parent_same ours b e ivs Nn H K).
Qed.
