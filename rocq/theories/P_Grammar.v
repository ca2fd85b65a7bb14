(** Proofs about grammars: derivations, trees and extraction. *)
From Coq Require Import NArith List Bool Lia.
From Verif Require Import M_Base M_PyGrammar S_Grammar P_Base.
Import ListNotations.
Open Scope N_scope.

(** ** Derivations *)
Lemma derives_app : forall R s1 w1 s2 w2, derives R s1 w1 -> derives R s2 w2 -> derives R (s1 ++ s2) (w1 ++ w2).
Proof.
  intros R s1 w1 s2 w2 H1 H2. induction H1; cbn; auto.
  - rewrite <- app_assoc. constructor. assumption.
  - rewrite <- app_assoc. econstructor; eassumption.
Qed.
Lemma derives_app_inv : forall R s1 s2 w, derives R (s1 ++ s2) w ->
  exists w1 w2, w = w1 ++ w2 /\ derives R s1 w1 /\ derives R s2 w2.
Proof.
  intros R s1. induction s1 as [|x s1 IH]; intros s2 w H; cbn in H.
  - exists [], w. repeat split; [constructor|assumption].
  - inversion H; subst.
    + destruct (IH _ _ H3) as (w1 & w2 & E & A & B). subst. exists (b ++ w1), w2.
      rewrite app_assoc. repeat split; [constructor|]; assumption.
    + destruct (IH _ _ H5) as (w1 & w2 & E & A & B). subst. exists (v ++ w1), w2.
      rewrite app_assoc. repeat split; [econstructor|]; eassumption.
Qed.
Lemma derives_app_iff : forall R s1 s2 w, derives R (s1 ++ s2) w <->
  exists w1 w2, w = w1 ++ w2 /\ derives R s1 w1 /\ derives R s2 w2.
Proof.
  intros; split; [apply derives_app_inv|]. intros (w1 & w2 & -> & A & B). apply derives_app; assumption.
Qed.
Lemma derives_name : forall R n w, derives R [NonTerminal n] w <-> exists body, R n body /\ derives R body w.
Proof.
  intros; split; intro H.
  - inversion H; subst. inversion H5; subst. rewrite app_nil_r. exists body. auto.
  - destruct H as (body & A & B). rewrite <- (app_nil_r w). econstructor; eauto using derives_nil.
Qed.
Lemma derives_terminal_inv : forall R b s w, derives R (Terminal b :: s) w -> exists v, w = b ++ v /\ derives R s v.
Proof. intros R b s w H. inversion H; subst. eauto. Qed.
Lemma derives_name_inv : forall R n s w, derives R (NonTerminal n :: s) w ->
  exists body v v', w = v ++ v' /\ R n body /\ derives R body v /\ derives R s v'.
Proof. intros R n s w H. inversion H; subst. eauto 10. Qed.
Lemma derives_mono : forall (R R' : N -> list symbol -> Prop) s w,
  (forall n body, R n body -> R' n body) -> derives R s w -> derives R' s w.
Proof. intros R R' s w HR H. induction H; econstructor; eauto. Qed.

(** ** combine_terminals *)
Lemma combine_fold : forall R s acc w,
  derives R (rev (fold_left combine_step s acc)) w <-> derives R (rev acc ++ s) w.
Proof.
  intros R s. induction s as [|x s IH]; intros acc w; cbn [fold_left].
  - rewrite app_nil_r. reflexivity.
  - rewrite IH. destruct x as [b|n]; [destruct acc as [|[a|m] r]|]; cbn [combine_step rev];
      repeat rewrite <- app_assoc; cbn [app]; try reflexivity.
    rewrite !derives_app_iff. split; intros (w1 & w2 & E & A & B); exists w1, w2; split; auto; split; auto.
    + inversion B; subst. rewrite <- app_assoc. constructor. constructor. assumption.
    + inversion B; subst. inversion H2; subst. rewrite app_assoc. constructor. assumption.
Qed.
Lemma combine_derives : forall R s w, derives R (combine_terminals s) w <-> derives R s w.
Proof. intros. unfold combine_terminals. rewrite combine_fold. reflexivity. Qed.
Lemma combine_names_fold : forall s acc m,
  In (NonTerminal m) (fold_left combine_step s acc) <-> In (NonTerminal m) acc \/ In (NonTerminal m) s.
Proof.
  induction s as [|x s IH]; intros acc m; cbn [fold_left In]; [tauto|].
  rewrite IH. destruct x as [b|n]; [destruct acc as [|[a|k] r]|]; cbn [combine_step In]; split; intro H;
    repeat match goal with
    | H : _ \/ _ |- _ => destruct H
    | H : Terminal _ = NonTerminal _ |- _ => discriminate
    end; auto.
Qed.
Lemma combine_names : forall s m, In (NonTerminal m) (combine_terminals s) <-> In (NonTerminal m) s.
Proof. intros. unfold combine_terminals. rewrite <- in_rev, combine_names_fold. cbn. tauto. Qed.
Lemma combine_terminal_fold : forall s acc,
  existsb is_terminal (fold_left combine_step s acc) = existsb is_terminal acc || existsb is_terminal s.
Proof.
  induction s as [|x s IH]; intros acc; cbn [fold_left existsb]; [rewrite orb_false_r; reflexivity|].
  rewrite IH. destruct x as [b|n]; [destruct acc as [|[a|k] r]|]; cbn [combine_step existsb is_terminal];
    destruct (existsb is_terminal s); rewrite ?orb_true_r, ?orb_false_r; reflexivity.
Qed.
Lemma combine_nil : forall s, combine_terminals s = [] -> s = [].
Proof.
  intros s H. destruct s as [|x s]; [reflexivity|]. exfalso. unfold combine_terminals in H.
  assert (E : fold_left combine_step s (combine_step [] x) = []).
  { destruct (fold_left combine_step s (combine_step [] x)) eqn:E; [reflexivity|].
    cbn [fold_left] in H. rewrite E in H. cbn in H. destruct (rev l); discriminate. }
  assert (L : forall s acc, acc <> [] -> fold_left combine_step s acc <> []).
  { clear. induction s as [|x s IH]; intros acc Ha; cbn; [assumption|]. apply IH.
    destruct x, acc as [|[a|k] r]; cbn; congruence. }
  revert E. apply L. destruct x; discriminate.
Qed.
Lemma has_terminal_existsb : forall s, existsb is_terminal s = true <-> has_terminal s.
Proof.
  intro s. rewrite existsb_exists. split.
  - intros ([b|n] & A & B); [exists b; assumption|discriminate].
  - intros (b & A). exists (Terminal b). auto.
Qed.

(** ** Equality tests *)
Lemma blist_eqb_eq : forall a b, blist_eqb a b = true <-> a = b.
Proof.
  induction a as [|x a IH]; destruct b as [|y b]; cbn; try (split; congruence).
  rewrite andb_true_iff, N.eqb_eq, IH. split; [intros []|intro H; inversion H]; subst; auto.
Qed.
Lemma symbol_eqb_eq : forall a b, symbol_eqb a b = true <-> a = b.
Proof.
  intros [x|x] [y|y]; try (split; discriminate); unfold symbol_eqb.
  - rewrite blist_eqb_eq. split; congruence.
  - rewrite N.eqb_eq. split; congruence.
Qed.
Lemma seq_eqb_eq : forall a b, seq_eqb a b = true <-> a = b.
Proof.
  induction a as [|x a IH]; destruct b as [|y b]; cbn; try (split; congruence).
  rewrite andb_true_iff, symbol_eqb_eq, IH. split; [intros []|intro H; inversion H]; subst; auto.
Qed.
Lemma rule_eqb_eq : forall a b, rule_eqb a b = true <-> sequence a = sequence b.
Proof. intros. apply seq_eqb_eq. Qed.
Lemma is_name_eq : forall n s, is_name n s = true <-> s = NonTerminal n.
Proof. intros. apply symbol_eqb_eq. Qed.
Lemma rule_in_iff : forall r l, rule_in r l = true <-> In (sequence r) (map sequence l).
Proof.
  intros. unfold rule_in. rewrite existsb_exists, in_map_iff. split.
  - intros (x & A & B). apply rule_eqb_eq in B. exists x. auto.
  - intros (x & A & B). exists x. rewrite rule_eqb_eq. auto.
Qed.
Lemma name_in_iff : forall n l, name_in n l = true <-> In n l.
Proof.
  intros. unfold name_in. rewrite existsb_exists. split.
  - intros (x & A & B). apply N.eqb_eq in B. subst. assumption.
  - intros A. exists n. rewrite N.eqb_refl. auto.
Qed.
Lemma in_non_terminals : forall m s, In m (non_terminals s) <-> In (NonTerminal m) s.
Proof.
  intros. unfold non_terminals. induction s as [|[b|n] s IH]; cbn; [tauto| |].
  - rewrite IH. split; [auto|]. intros [H|H]; [discriminate|assumption].
  - rewrite IH. split; intros [H|H]; auto; [left; congruence|left; congruence].
Qed.

(** ** Productions *)
Definition names (g : grammar) : list N := map fst (productions g).
Lemma find_some_in : forall ps n p, find_prod ps n = Some p -> In (n, p) ps.
Proof.
  induction ps as [|[k q] ps IH]; cbn; intros n p H; [discriminate|].
  destruct (N.eqb_spec k n); [inversion H; subst; auto|auto].
Qed.
Lemma find_none : forall ps n, find_prod ps n = None <-> ~ In n (map fst ps).
Proof.
  induction ps as [|[k q] ps IH]; cbn; intros n; [tauto|].
  destruct (N.eqb_spec k n); [split; [discriminate|intro H; exfalso; auto]|].
  rewrite IH. tauto.
Qed.
Lemma find_in : forall ps n p, NoDup (map fst ps) -> In (n, p) ps -> find_prod ps n = Some p.
Proof.
  induction ps as [|[k q] ps IH]; cbn; intros n p ND H; [contradiction|].
  inversion ND; subst. destruct H as [H|H].
  - inversion H; subst. rewrite N.eqb_refl. reflexivity.
  - destruct (N.eqb_spec k n); [|auto]. subst. exfalso. apply H2. apply in_map_iff. exists (n, p). auto.
Qed.
Lemma in_names_find : forall ps n, In n (map fst ps) -> exists p, find_prod ps n = Some p.
Proof.
  intros ps n H. destruct (find_prod ps n) eqn:E; [eauto|]. apply find_none in E. contradiction.
Qed.
Lemma has_prod_iff : forall g n, has_prod g n = true <-> In n (names g).
Proof.
  intros. unfold has_prod. split; intro H.
  - destruct (find_prod (productions g) n) eqn:E; [|discriminate]. apply find_some_in in E.
    apply in_map_iff. exists (n, p). auto.
  - destruct (in_names_find _ _ H) as (p & ->). reflexivity.
Qed.
Lemma has_prod_false : forall g n, has_prod g n = false <-> ~ In n (names g).
Proof. intros. rewrite <- has_prod_iff. destruct (has_prod g n); split; congruence. Qed.
Lemma get_prod_in : forall g n p, NoDup (names g) -> In (n, p) (productions g) -> get_prod g n = Ok p.
Proof. intros. unfold get_prod. rewrite (find_in _ _ p); auto. Qed.
Lemma get_prod_names : forall g n, In n (names g) -> exists p, get_prod g n = Ok p /\ In (n, p) (productions g).
Proof.
  intros g n H. destruct (in_names_find _ _ H) as (p & E). exists p. unfold get_prod. rewrite E.
  split; [reflexivity|]. apply find_some_in. assumption.
Qed.
Lemma in_names : forall g n p, In (n, p) (productions g) -> In n (names g).
Proof. intros. apply in_map_iff. exists (n, p). auto. Qed.
Lemma prod_unique : forall g n p q, NoDup (names g) -> In (n, p) (productions g) -> In (n, q) (productions g) -> p = q.
Proof.
  intros g n p q ND A B. apply find_in in A; [|assumption]. apply find_in in B; [|assumption]. congruence.
Qed.

Lemma put_names : forall g n p, names (put_prod g n p) = names g.
Proof.
  intros. unfold names, put_prod. cbn. rewrite map_map. apply map_ext_in. intros [k q] _. cbn.
  destruct (N.eqb_spec k n); auto.
Qed.
Lemma in_put : forall g n p m q, In (m, q) (productions (put_prod g n p)) <->
  (m <> n /\ In (m, q) (productions g)) \/ (m = n /\ q = p /\ In n (names g)).
Proof.
  intros. unfold put_prod. cbn. rewrite in_map_iff. split.
  - intros ([k r] & E & H). cbn in E. destruct (N.eqb_spec k n).
    + inversion E; subst. right. repeat split. eapply in_names; eassumption.
    + inversion E; subst. left. auto.
  - intros [[A B]|(A & B & C)].
    + exists (m, q). cbn. destruct (N.eqb_spec m n); [contradiction|auto].
    + subst. apply in_map_iff in C. destruct C as ([k r] & E & H). cbn in E. subst.
      exists (n, r). cbn. rewrite N.eqb_refl. auto.
Qed.
Lemma rule_of_put : forall g n p m body, rule_of (put_prod g n p) m body <->
  (m <> n /\ rule_of g m body) \/ (m = n /\ In n (names g) /\ In body (map sequence (rules p))).
Proof.
  intros. unfold rule_of. split.
  - intros (q & r & A & B & C). apply in_put in A. destruct A as [[A A']|(A & A' & A'')].
    + left. split; [assumption|]. eauto.
    + subst. right. repeat split; [assumption|]. apply in_map. assumption.
  - intros [(A & q & r & B & C & D)|(A & B & C)].
    + exists q, r. rewrite in_put. auto.
    + subst. apply in_map_iff in C. destruct C as (r & C & D). exists p, r. rewrite in_put. auto.
Qed.
Lemma rule_of_names : forall g n body, rule_of g n body -> In n (names g).
Proof. intros g n body (p & r & A & _). eapply in_names; eassumption. Qed.
Lemma rule_of_in : forall g n p body, NoDup (names g) -> In (n, p) (productions g) ->
  (rule_of g n body <-> In body (map sequence (rules p))).
Proof.
  intros g n p body ND H. split.
  - intros (q & r & A & B & C). rewrite (prod_unique _ _ _ _ ND H A). subst. apply in_map. assumption.
  - intro A. apply in_map_iff in A. destruct A as (r & A & B). exists p, r. auto.
Qed.

(** ** The table of users *)
Lemma in_add_name : forall l n x, In x (add_name l n) <-> In x l \/ x = n.
Proof.
  intros. unfold add_name. destruct (name_in n l) eqn:E.
  - apply name_in_iff in E. split; [auto|]. intros [H| ->]; assumption.
  - rewrite in_app_iff. cbn. split; intros [H|H]; auto. destruct H as [H|[]]; auto.
Qed.
Lemma nodup_app_one : forall (A : Type) (l : list A) x, NoDup l -> ~ In x l -> NoDup (l ++ [x]).
Proof.
  intros A l x ND H. induction ND; cbn; [constructor; [intros []|constructor]|].
  constructor.
  - rewrite in_app_iff. cbn. intros [B|[B|[]]]; [auto|subst; apply H; left; reflexivity].
  - apply IHND. intro B. apply H. right. assumption.
Qed.
Lemma nodup_add_name : forall l n, NoDup l -> NoDup (add_name l n).
Proof.
  intros l n H. unfold add_name. destruct (name_in n l) eqn:E; [assumption|].
  apply nodup_app_one; [assumption|]. rewrite <- name_in_iff. congruence.
Qed.
Lemma in_remove_name : forall l n x, In x (remove_name l n) <-> In x l /\ x <> n.
Proof.
  intros. unfold remove_name. rewrite filter_In, negb_true_iff, N.eqb_neq. reflexivity.
Qed.
Lemma nodup_remove_name : forall l n, NoDup l -> NoDup (remove_name l n).
Proof. intros. apply NoDup_filter. assumption. Qed.
Lemma upd_used_same : forall u k l, upd_used u k l k = l.
Proof. intros. unfold upd_used. rewrite N.eqb_refl. reflexivity. Qed.
Lemma in_add_uses : forall vs u user x m, In x (add_uses u user vs m) <-> In x (u m) \/ (x = user /\ In m vs).
Proof.
  unfold add_uses. induction vs as [|v vs IH]; intros u user x m; cbn [fold_left In]; [tauto|].
  rewrite IH. unfold upd_used. destruct (N.eqb_spec m v).
  - subst. rewrite in_add_name. split; [intros [[H|H]|[H H']]|intros [H|[H [H'|H']]]]; auto.
  - split; [intros [H|[H H']]|intros [H|[H [H'|H']]]]; auto. congruence.
Qed.
Lemma nodup_add_uses : forall vs u user, (forall m, NoDup (u m)) -> forall m, NoDup (add_uses u user vs m).
Proof.
  unfold add_uses. induction vs as [|v vs IH]; intros u user H m; cbn [fold_left]; [apply H|].
  apply IH. intro k. unfold upd_used. destruct (k =? v); [apply nodup_add_name|]; apply H.
Qed.

(** ** Trees *)
Fixpoint pre (t : tree) : list tree := t :: (let 'Node _ cs := t in concat (map pre cs)).
Definition pres (ts : list tree) : list tree := concat (map pre ts).
Lemma tree_induct : forall P : tree -> Prop, (forall v cs, Forall P cs -> P (Node v cs)) -> forall t, P t.
Proof.
  intros P H. fix IH 1. intros [v cs]. apply H. induction cs as [|c cs IHcs]; constructor; [apply IH|exact IHcs].
Qed.
Lemma pre_eq : forall v cs, pre (Node v cs) = Node v cs :: pres cs.
Proof. reflexivity. Qed.
Lemma pres_app : forall a b, pres (a ++ b) = pres a ++ pres b.
Proof. intros. unfold pres. rewrite map_app, concat_app. reflexivity. Qed.
Lemma preorder_loop_ok : forall fuel stack, (list_sum (map tree_size stack) <= fuel)%nat ->
  preorder_loop fuel stack = Ok (pres stack).
Proof.
  induction fuel as [|f IH]; intros [|[v cs] r] H; cbn [preorder_loop]; try reflexivity.
  - cbn in H. lia.
  - cbn [children]. rewrite IH.
    + cbn [bind]. rewrite pres_app. unfold pres at 3. cbn [map concat pre]. reflexivity.
    + rewrite map_app, list_sum_app.
      change (list_sum (map tree_size (Node v cs :: r))) with (S (list_sum (map tree_size cs)) + list_sum (map tree_size r))%nat in H. lia.
Qed.
Lemma preorder_ok : forall fuel t, (tree_size t <= fuel)%nat -> preorder fuel t = Ok (pre t).
Proof.
  intros. unfold preorder. rewrite preorder_loop_ok.
  - unfold pres. cbn. rewrite app_nil_r. reflexivity.
  - cbn. lia.
Qed.
Lemma event_induct : forall P : tree -> Prop,
  (forall b, P (Node (VTerminal b) [])) ->
  (forall n bb cs, cs <> [] -> Forall event_tree cs -> Forall P cs -> P (Node (VEvent n bb) cs)) ->
  forall t, event_tree t -> P t.
Proof.
  intros P H1 H2 t. induction t as [v cs IH] using tree_induct. intro H. inversion H; subst; [apply H1|].
  apply H2; auto. rewrite Forall_forall in *. intros c Hc. apply IH; auto.
Qed.
Lemma terminals_app : forall a b, terminals (a ++ b) = do x <- terminals a; do y <- terminals b; Ok (x ++ y).
Proof.
  induction a as [|t a IH]; intros b; cbn [app terminals bind].
  - destruct (terminals b); reflexivity.
  - destruct (value_of t); cbn [bind]; try reflexivity. rewrite IH.
    destruct (terminals a); cbn [bind]; try reflexivity. destruct (terminals b); reflexivity.
Qed.
Definition good_leaves (t : tree) : Prop :=
  exists bs, terminals (filter is_leaf (pre t)) = Ok bs /\ concat bs = yield t.
Lemma leaves_list : forall cs, Forall good_leaves cs ->
  exists bs, terminals (filter is_leaf (pres cs)) = Ok bs /\ concat bs = concat (map yield cs).
Proof.
  intros cs H. induction H as [|c cs (b1 & C & D) _ (bs & A & B)]; [exists []; auto|].
  unfold pres in *. cbn [map concat]. rewrite filter_app, terminals_app, C. cbn [bind]. rewrite A. cbn [bind].
  exists (b1 ++ bs). rewrite concat_app, B, D. auto.
Qed.
Lemma leaves_yield : forall t, event_tree t -> good_leaves t.
Proof.
  intros t H. induction H as [b|n bb cs Hn Hcs IH] using event_induct.
  - exists [b]. cbn. rewrite app_nil_r. auto.
  - destruct (leaves_list cs IH) as (bs & A & B). exists bs. rewrite pre_eq. cbn [filter is_leaf children].
    destruct cs; [congruence|]. auto.
Qed.
Lemma matches_yield : forall fuel t, input_tree t -> (tree_size t <= fuel)%nat -> tree_matches fuel t = Ok (yield t).
Proof.
  intros fuel t H Hf. unfold tree_matches, leaves. rewrite (preorder_ok fuel t Hf). cbn [bind].
  inversion H as [cs Hn Hcs E]. subst t. destruct (leaves_list cs) as (bs & A & B).
  { eapply Forall_impl; [|exact Hcs]. apply leaves_yield. }
  rewrite pre_eq. assert (F : filter is_leaf (Node VStart cs :: pres cs) = filter is_leaf (pres cs)) by (destruct cs; [congruence|reflexivity]).
  rewrite F, A. cbn [bind]. rewrite B. reflexivity.
Qed.

(** ** tree_simplify *)
Lemma simplify_node_cases : forall t, simplify_node t = t \/
  exists v n c, t = Node v [Node (VEvent n true) [c]] /\ simplify_node t = Node v [c].
Proof.
  intros [v [|[[|n [|]|b] [|c [|c' ds]]] [|d cs]]]; try (left; reflexivity). right. exists v, n, c. auto.
Qed.
Lemma event_grandchild : forall n c, Forall event_tree [Node (VEvent n true) [c]] -> Forall event_tree [c].
Proof. intros n c H. inversion H as [|x l A B]. inversion A. assumption. Qed.
Lemma simplify_event : forall t, event_tree t -> event_tree (tree_simplify t) /\ yield (tree_simplify t) = yield t.
Proof.
  intros t H. induction H as [b|n bb cs Hn Hcs IH] using event_induct; [cbn; split; [constructor|reflexivity]|].
  cbn [tree_simplify]. set (t := Node (VEvent n bb) (map tree_simplify cs)).
  assert (E : event_tree t).
  { constructor.
    - destruct cs; [congruence|discriminate].
    - apply Forall_map. eapply Forall_impl; [|exact IH]. intros a [A _]. exact A. }
  assert (Y : yield t = concat (map yield cs)).
  { cbn. rewrite map_map. f_equal. apply map_ext_in. intros c Hc. rewrite Forall_forall in IH. destruct (IH c Hc). assumption. }
  destruct (simplify_node_cases t) as [->|(v & m & c & T & ->)]; [auto|].
  unfold t in T. inversion T. subst v. rewrite H1 in *. clear T.
  subst t. rewrite H1 in *. cbn in Y. rewrite !app_nil_r in Y. split.
  - inversion E as [|n' bb' cs' E1 E2]. constructor; [discriminate|]. eapply event_grandchild. eassumption.
  - cbn. rewrite app_nil_r. assumption.
Qed.
Lemma simplify_input : forall t, input_tree t -> input_tree (tree_simplify t) /\ yield (tree_simplify t) = yield t.
Proof.
  intros t H. inversion H as [cs Hn Hcs E]. cbn [tree_simplify]. set (u := Node VStart (map tree_simplify cs)).
  assert (I : input_tree u).
  { constructor.
    - destruct cs; [congruence|discriminate].
    - apply Forall_map. eapply Forall_impl; [|exact Hcs]. intros a A. apply simplify_event. exact A. }
  assert (Y : yield u = concat (map yield cs)).
  { cbn. rewrite map_map. f_equal. apply map_ext_in. intros c Hc. rewrite Forall_forall in Hcs. apply simplify_event. auto. }
  destruct (simplify_node_cases u) as [->|(v & m & c & T & ->)]; [auto|].
  unfold u in T. inversion T. subst v. rewrite H2 in *. clear T.
  subst u. rewrite H2 in *. cbn in Y. rewrite !app_nil_r in Y. split.
  - inversion I as [cs' E1 E2]. constructor; [discriminate|]. eapply event_grandchild. eassumption.
  - cbn. rewrite app_nil_r. assumption.
Qed.

(** ** Extraction *)
(** A node that can be met: a terminal, or a name with its children. *)
Definition node_name (t : tree) : option N :=
  match value_of t with VTerminal _ => None | VEvent n _ => Some n | VStart => Some START end.
Definition body_of (t : tree) : list symbol := combine_terminals (concat (map symbol_of (children t))).
Definition good_node (t : tree) : Prop := Forall (fun c => value_of c <> VStart) (children t).

Lemma child_symbols_ok : forall cs, Forall (fun c => value_of c <> VStart) cs ->
  child_symbols cs = Ok (concat (map symbol_of cs)).
Proof.
  induction cs as [|c cs IH]; intro H; [reflexivity|]. inversion H; subst. cbn [child_symbols map concat].
  rewrite (IH H3). destruct c as [[|n bb|b] ds]; cbn in H2 |- *; try congruence; reflexivity.
Qed.

(** What extraction keeps true of a grammar under construction; [rem] says which productions
    are removable. *)
Record building_with (rem : N -> bool) (g : grammar) : Prop := {
  b_names : NoDup (names g);
  b_used : forall n body m, rule_of g n body -> In (NonTerminal m) body -> In n (used_by g m);
  b_users : forall n m, In n (used_by g m) -> In n (names g);
  b_exact : forall n m, In n (used_by g m) -> exists body, rule_of g n body /\ In (NonTerminal m) body;
  b_set : forall m, NoDup (used_by g m);
  b_rules : forall n p, In (n, p) (productions g) -> NoDup (map sequence (rules p));
  b_fresh : fresh g;
  b_removable : forall n p, In (n, p) (productions g) -> removable p = rem n;
}.
Definition not_start (n : N) : bool := negb (n =? START).
Notation building := (building_with not_start).
Lemma rule_new_flag : forall ss, has_terminals (rule_new ss) = true <-> has_terminal (sequence (rule_new ss)).
Proof. intros. cbn. apply has_terminal_existsb. Qed.

Lemma new_production_ok : forall rem g n ss, building_with rem g -> ~ In n (names g) ->
  exists g', new_production g n (rule_new ss) (rem n) = Ok g' /\ building_with rem g' /\
    names g' = names g ++ [n] /\
    (forall m body, rule_of g' m body <-> rule_of g m body \/ (m = n /\ body = combine_terminals ss)).
Proof.
  intros rem g n ss B Hn. unfold new_production. rewrite (proj2 (has_prod_false g n) Hn).
  eexists. split; [reflexivity|]. set (g' := mkGrammar _ _).
  assert (R : forall m body, rule_of g' m body <-> rule_of g m body \/ (m = n /\ body = combine_terminals ss)).
  { intros m body. unfold rule_of, g'. cbn [productions]. split.
    - intros (p & r & H1 & H2 & H3). apply in_app_iff in H1. destruct H1 as [H1|[H1|[]]]; [left; eauto|].
      inversion H1; subst. destruct H2 as [<-|[]]. right. auto.
    - intros [(p & r & H1 & H2 & H3)|[-> ->]].
      + exists p, r. rewrite in_app_iff. auto.
      + eexists _, (rule_new ss). split; [apply in_app_iff; right; left; reflexivity|]. cbn. auto. }
  assert (Nm : names g' = names g ++ [n]) by (unfold names, g'; cbn; rewrite map_app; reflexivity).
  split; [|split; [exact Nm|exact R]].
  assert (U : forall x m, In x (used_by g' m) <-> In x (used_by g m) \/ (x = n /\ In (NonTerminal m) (combine_terminals ss))).
  { intros. unfold g'. cbn [used_by]. rewrite in_add_uses, in_non_terminals. reflexivity. }
  constructor.
  - rewrite Nm. apply nodup_app_one; [apply (b_names rem g B)|assumption].
  - intros k body m H1 H2. apply U. apply R in H1. destruct H1 as [H1|[-> ->]]; [left; eapply b_used; eassumption|auto].
  - intros k m H. rewrite Nm, in_app_iff. apply U in H. destruct H as [H|[-> _]]; [left; eapply b_users; eassumption|right; left; reflexivity].
  - intros k m H. apply U in H. destruct H as [H|[-> H]].
    + destruct (b_exact rem g B _ _ H) as (body & H1 & H2). exists body. rewrite R. auto.
    + eexists. rewrite R. split; [right; split; reflexivity|assumption].
  - intro m. apply nodup_add_uses. apply (b_set rem g B).
  - intros k p H. unfold g' in H. cbn [productions] in H. apply in_app_iff in H. destruct H as [H|[H|[]]]; [eapply b_rules; eassumption|].
    inversion H; subst. constructor; [intros []|constructor].
  - intros k p H. unfold g' in H. cbn [productions] in H. apply in_app_iff in H. destruct H as [H|[H|[]]]; [eapply b_fresh; eassumption|].
    inversion H; subst. split; [reflexivity|]. intros r [<-|[]]. apply rule_new_flag.
  - intros k p H. unfold g' in H. cbn [productions] in H. apply in_app_iff in H. destruct H as [H|[H|[]]]; [eapply b_removable; eassumption|].
    inversion H; subst. reflexivity.
Qed.
Lemma rule_in_map : forall r l, rule_in r l = false <-> ~ In (sequence r) (map sequence l).
Proof. intros. rewrite <- rule_in_iff. destruct (rule_in r l); split; congruence. Qed.
Lemma prod_add_ok : forall rem g n p ss, building_with rem g -> In (n, p) (productions g) -> rule_in (rule_new ss) (rules p) = false ->
  exists g', prod_add g n (rule_new ss) = Ok g' /\ building_with rem g' /\ names g' = names g /\
    (forall m body, rule_of g' m body <-> rule_of g m body \/ (m = n /\ body = combine_terminals ss)).
Proof.
  intros rem g n p ss B Hn Hr. unfold prod_add. rewrite (get_prod_in g n p (b_names rem g B) Hn). cbn [bind]. rewrite Hr.
  eexists. split; [reflexivity|]. set (q := mkProd _ _ _). set (g' := mkGrammar _ _).
  assert (R : forall m body, rule_of g' m body <-> rule_of g m body \/ (m = n /\ body = combine_terminals ss)).
  { intros m body. change (rule_of g' m body) with (rule_of (put_prod g n q) m body). rewrite rule_of_put.
    unfold q. cbn [rules]. rewrite map_app, in_app_iff. cbn. split.
    - intros [[H1 H2]|(-> & H1 & [H2|[H2|[]]])]; auto. left. apply rule_of_in with p; auto. apply B.
    - intros [H|[-> ->]].
      + destruct (N.eq_dec m n) as [->|]; [|auto]. right. split; [auto|]. split; [eapply in_names; eassumption|].
        left. rewrite <- (rule_of_in g n p body); auto. apply B.
      + right. split; [auto|]. split; [eapply in_names; eassumption|auto]. }
  assert (Nm : names g' = names g) by (apply put_names).
  split; [|split; [exact Nm|exact R]].
  assert (U : forall x m, In x (used_by g' m) <-> In x (used_by g m) \/ (x = n /\ In (NonTerminal m) (combine_terminals ss))).
  { intros. unfold g'. cbn [used_by put_prod]. rewrite in_add_uses, in_non_terminals. reflexivity. }
  assert (I : forall k r, In (k, r) (productions g') <-> (k <> n /\ In (k, r) (productions g)) \/ (k = n /\ r = q)).
  { intros. change (productions g') with (productions (put_prod g n q)). rewrite in_put.
    split; (intros [H|H]; [auto|right]); [tauto|]. destruct H. repeat split; auto. eapply in_names; eassumption. }
  constructor.
  - rewrite Nm. apply B.
  - intros k body m H1 H2. apply U. apply R in H1. destruct H1 as [H1|[-> ->]]; [left; eapply b_used; eassumption|auto].
  - intros k m H. rewrite Nm. apply U in H. destruct H as [H|[-> _]]; [eapply b_users; eassumption|eapply in_names; eassumption].
  - intros k m H. apply U in H. destruct H as [H|[-> H]].
    + destruct (b_exact rem g B _ _ H) as (body & H1 & H2). exists body. rewrite R. auto.
    + eexists. rewrite R. split; [right; split; reflexivity|assumption].
  - intro m. apply nodup_add_uses. apply (b_set rem g B).
  - intros k r H. apply I in H. destruct H as [[H1 H2]|[-> ->]]; [eapply b_rules; eassumption|].
    unfold q. cbn [rules]. rewrite map_app. apply nodup_app_one; [eapply b_rules; eassumption|].
    apply rule_in_map. exact Hr.
  - intros k r H. apply I in H. destruct H as [[H1 H2]|[-> ->]]; [eapply b_fresh; eassumption|].
    destruct (b_fresh rem g B _ _ Hn) as (F1 & F2). split; [exact F1|]. intros x Hx. unfold q in Hx. cbn [rules] in Hx.
    apply in_app_iff in Hx. destruct Hx as [Hx|[<-|[]]]; [auto|apply rule_new_flag].
  - intros k r H. apply I in H. destruct H as [[H1 H2]|[-> ->]]; [eapply b_removable; eassumption|].
    unfold q. cbn. eapply b_removable; eassumption.
Qed.

Definition extract_named (rem : N -> bool) (g : grammar) (n : N) (ss : list symbol) : Res grammar :=
  if has_prod g n then
    do p <- get_prod g n;
    if rule_in (rule_new ss) (rules p) then Ok g else prod_add g n (rule_new ss)
  else new_production g n (rule_new ss) (rem n).
Lemma extract_named_ok : forall rem g n ss, building_with rem g ->
  exists g', extract_named rem g n ss = Ok g' /\ building_with rem g' /\
    (forall k, In k (names g') <-> In k (names g) \/ k = n) /\
    (forall m body, rule_of g' m body <-> rule_of g m body \/ (m = n /\ body = combine_terminals ss)).
Proof.
  intros rem g n ss B. unfold extract_named. destruct (has_prod g n) eqn:E.
  - apply has_prod_iff in E. destruct (get_prod_names _ _ E) as (p & -> & Hp). cbn [bind].
    destruct (rule_in (rule_new ss) (rules p)) eqn:Er.
    + exists g. split; [reflexivity|]. split; [assumption|]. split.
      * intro k. split; [auto|]. intros [H|H]; [assumption|subst; assumption].
      * intros m body. split; [auto|]. intros [H|[-> ->]]; [assumption|].
        apply (rule_of_in g n p); [apply B|assumption|]. apply rule_in_iff in Er. exact Er.
    + destruct (prod_add_ok rem g n p _ B Hp Er) as (g' & -> & B' & Nm & R). exists g'. split; [reflexivity|].
      split; [assumption|]. split; [|exact R]. intro k. rewrite Nm. split; [auto|]. intros [H|H]; [assumption|subst; assumption].
  - apply has_prod_false in E. destruct (new_production_ok rem g n ss B E) as (g' & -> & B' & Nm & R).
    exists g'. split; [reflexivity|]. split; [assumption|]. split; [|exact R].
    intro k. rewrite Nm, in_app_iff. cbn. split; (intros [H|H]; [auto|right]); [destruct H as [H|[]]; auto|auto].
Qed.
Lemma extract_node_ok : forall g t, building g -> good_node t ->
  exists g', extract_node g t = Ok g' /\ building g' /\
    (forall n, In n (names g') <-> In n (names g) \/ node_name t = Some n) /\
    (forall m body, rule_of g' m body <-> rule_of g m body \/ (node_name t = Some m /\ body = body_of t)).
Proof.
  intros g t B Ht.
  assert (E : extract_node g t = match node_name t with None => Ok g | Some n => extract_named not_start g n (concat (map symbol_of (children t))) end).
  { unfold extract_node, node_name, extract_named. destruct (value_of t); rewrite ?(child_symbols_ok _ Ht); reflexivity. }
  rewrite E. destruct (node_name t) as [n|].
  - destruct (extract_named_ok not_start g n (concat (map symbol_of (children t))) B) as (g' & -> & B' & Nm & R).
    exists g'. split; [reflexivity|]. split; [assumption|]. split.
    + intro k. rewrite Nm. split; (intros [H|H]; [auto|right]); congruence.
    + intros m body. rewrite R. unfold body_of. split; (intros [H|[H1 H2]]; [auto|right]); split; congruence.
  - exists g. split; [reflexivity|]. split; [assumption|]. split.
    + intro k. split; [auto|]. intros [H|H]; [assumption|discriminate].
    + intros k body. split; [auto|]. intros [H|[H _]]; [assumption|discriminate].
Qed.
Lemma extract_loop_ok : forall ts g, building g -> Forall good_node ts ->
  exists g', extract_loop g ts = Ok g' /\ building g' /\
    (forall n, In n (names g') <-> In n (names g) \/ exists t, In t ts /\ node_name t = Some n) /\
    (forall m body, rule_of g' m body <-> rule_of g m body \/ exists t, In t ts /\ node_name t = Some m /\ body = body_of t).
Proof.
  induction ts as [|t ts IH]; intros g B Ht; cbn [extract_loop].
  - exists g. split; [reflexivity|]. split; [assumption|].
    split; [intro n|intros n body]; (split; [auto|]; intros [H|(t & [] & _)]; assumption).
  - inversion Ht; subst. destruct (extract_node_ok g t B H1) as (g1 & -> & B1 & N1 & R1). cbn [bind].
    destruct (IH g1 B1 H2) as (g2 & -> & B2 & N2 & R2). exists g2. split; [reflexivity|]. split; [assumption|]. split.
    + intro n. rewrite N2, N1. split.
      * intros [[H|H]|(u & A & C)]; [auto|right; exists t; split; [left; reflexivity|assumption]|right; exists u; split; [right|]; assumption].
      * intros [H|(u & [->|A] & C)]; eauto.
    + intros m body. rewrite R2, R1. split.
      * intros [[H|H]|(u & A & C)]; [auto|right; exists t; split; [left; reflexivity|assumption]|right; exists u; split; [right|]; assumption].
      * intros [H|(u & [->|A] & C)]; eauto.
Qed.
Lemma building_new : forall rem, building_with rem grammar_new.
Proof.
  intro rem. constructor.
  - constructor.
  - intros n body m (p & r & [] & _).
  - intros n m [].
  - intros n m [].
  - constructor.
  - intros n p [].
  - intros n p [].
  - intros n p [].
Qed.

(** The nodes in preorder. *)
Lemma in_pre : forall t u, In u (pre t) <-> node_of u t.
Proof.
  induction t as [v cs IH] using tree_induct. intro u. rewrite pre_eq. cbn [In]. unfold pres. rewrite in_concat.
  rewrite Forall_forall in IH. split.
  - intros [<-|(l & A & B)]; [constructor|]. apply in_map_iff in A. destruct A as (c & <- & A).
    econstructor; [exact A|]. apply IH; assumption.
  - intro H. inversion H as [|u' v' c cs' A B]; subst; [auto|]. right. exists (pre c). split; [apply in_map; assumption|].
    apply IH; assumption.
Qed.
Lemma event_not_start : forall t, event_tree t -> value_of t <> VStart.
Proof. intros t H. inversion H; discriminate. Qed.
Lemma event_good : forall t, event_tree t -> Forall good_node (pre t).
Proof.
  intros t H. induction H as [b|n bb cs Hn Hcs IH] using event_induct.
  - constructor; constructor.
  - rewrite pre_eq. constructor.
    + unfold good_node. cbn [children]. eapply Forall_impl; [|exact Hcs]. apply event_not_start.
    + unfold pres. apply Forall_concat. apply Forall_map. assumption.
Qed.
Lemma input_good : forall t, input_tree t -> Forall good_node (pre t).
Proof.
  intros t H. inversion H as [cs Hn Hcs E]. rewrite pre_eq. constructor.
  - unfold good_node. cbn [children]. eapply Forall_impl; [|exact Hcs]. apply event_not_start.
  - unfold pres. apply Forall_concat. apply Forall_map. eapply Forall_impl; [|exact Hcs]. apply event_good.
Qed.
(** Every node of a tree is an event tree or the root. *)
Lemma node_event : forall t, event_tree t -> forall u, node_of u t -> event_tree u.
Proof.
  intros t H. induction H as [b|n bb cs Hn Hcs IH] using event_induct; intros u Hu.
  - inversion Hu; subst; [constructor|contradiction].
  - inversion Hu; subst; [constructor; assumption|]. rewrite Forall_forall in IH. eapply IH; eassumption.
Qed.
Lemma node_trans : forall t u, node_of u t -> forall w, node_of w u -> node_of w t.
Proof. intros t u H. induction H; intros w Hw; [assumption|]. econstructor; eauto. Qed.

Lemma extract_ok : forall fuel t, input_tree t -> (tree_size t <= fuel)%nat ->
  exists g, parse_tree_to_grammar fuel t = Ok g /\ building g /\
    (forall n, In n (names g) <-> exists u, node_of u t /\ node_name u = Some n) /\
    (forall n body, rule_of g n body <-> exists u, node_of u t /\ node_name u = Some n /\ body = body_of u).
Proof.
  intros fuel t Ht Hf. unfold parse_tree_to_grammar. rewrite (preorder_ok fuel t Hf). cbn [bind].
  destruct (extract_loop_ok (pre t) grammar_new (building_new not_start) (input_good t Ht)) as (g & -> & B & Nm & R). cbn [bind].
  assert (Nm' : forall n, In n (names g) <-> exists u, node_of u t /\ node_name u = Some n).
  { intro n. rewrite Nm. split.
    - intros [[]|(u & A & C)]. exists u. rewrite <- in_pre. auto.
    - intros (u & A & C). right. exists u. rewrite in_pre. auto. }
  assert (S : In START (names g)).
  { apply Nm'. exists t. split; [constructor|]. inversion Ht; reflexivity. }
  destruct (get_prod_names _ _ S) as (p & -> & _). cbn [bind]. exists g. split; [reflexivity|]. split; [assumption|].
  split; [assumption|]. intros n body. rewrite R. split.
  - intros [(p0 & r & [] & _)|(u & A & C)]. exists u. rewrite <- in_pre. auto.
  - intros (u & A & C). right. exists u. rewrite in_pre. auto.
Qed.
(** Every node derives what is under it. *)
Lemma node_derives : forall (R : N -> list symbol -> Prop) t, event_tree t ->
  (forall u n, node_of u t -> node_name u = Some n -> R n (body_of u)) -> derives R (symbol_of t) (yield t).
Proof.
  intros R t H. induction H as [b|n bb cs Hn Hcs IH] using event_induct; intro HR.
  - cbn. rewrite <- (app_nil_r b) at 2. repeat constructor.
  - cbn [symbol_of value_of]. apply derives_name. exists (body_of (Node (VEvent n bb) cs)).
    split; [apply HR; [constructor|reflexivity]|]. unfold body_of. apply combine_derives. cbn [children yield].
    assert (HR' : forall c u k, In c cs -> node_of u c -> node_name u = Some k -> R k (body_of u)).
    { intros c u k A C. apply HR. econstructor; eassumption. }
    clear HR Hn Hcs. induction cs as [|c cs IHcs]; [constructor|]. inversion IH; subst. cbn [map concat].
    apply derives_app.
    + apply H1. intros u k. apply HR'. left. reflexivity.
    + apply IHcs; [assumption|]. intros d u k A. apply HR'. right. assumption.
Qed.
Lemma input_derives : forall (R : N -> list symbol -> Prop) t, input_tree t ->
  (forall u n, node_of u t -> node_name u = Some n -> R n (body_of u)) -> derives R [NonTerminal START] (yield t).
Proof.
  intros R t H HR. inversion H as [cs Hn Hcs E]. subst t. apply derives_name. exists (body_of (Node VStart cs)).
  split; [apply HR; [constructor|reflexivity]|]. apply combine_derives. cbn [children yield].
  assert (HR' : forall c u k, In c cs -> node_of u c -> node_name u = Some k -> R k (body_of u)).
  { intros c u k A C. apply HR. econstructor; eassumption. }
  clear HR Hn H. induction cs as [|c cs IHcs]; [constructor|]. inversion Hcs; subst. cbn [map concat].
  apply derives_app.
  - apply node_derives; [assumption|]. intros u k. apply HR'. left. reflexivity.
  - apply IHcs; [assumption|]. intros d u k A. apply HR'. right. assumption.
Qed.
Lemma extracted_productive : forall t g, input_tree t ->
  (forall n, In n (names g) <-> exists u, node_of u t /\ node_name u = Some n) ->
  (forall n body, rule_of g n body <-> exists u, node_of u t /\ node_name u = Some n /\ body = body_of u) ->
  productive g.
Proof.
  intros t g Ht Nm R n Hn. apply Nm in Hn. destruct Hn as (u & A & C).
  assert (HR : forall w k, node_of w u -> node_name w = Some k -> rule_of g k (body_of w)).
  { intros w k D E. apply R. exists w. split; [eapply node_trans; eassumption|auto]. }
  exists (yield u). unfold language. inversion Ht as [cs Hc Hcs E]. subst t.
  inversion A as [|u' v' c cs' I J]; subst.
  - cbn in C. inversion C; subst. apply input_derives; [assumption|exact HR].
  - assert (Ev : event_tree u). { eapply node_event; [|exact J]. rewrite Forall_forall in Hcs. auto. }
    pose proof (node_derives (rule_of g) u Ev HR) as D. inversion Ev; subst; cbn in C; inversion C; subst. exact D.
Qed.
Lemma symbol_body : forall t m, In (NonTerminal m) (body_of t) -> good_node t ->
  exists c, In c (children t) /\ node_name c = Some m.
Proof.
  intros t m H G. unfold body_of in H. rewrite combine_names in H. apply in_concat in H. destruct H as (l & A & B).
  apply in_map_iff in A. destruct A as (c & <- & A). exists c. split; [assumption|].
  unfold symbol_of, node_name in *. destruct (value_of c); destruct B as [B|[]]; congruence.
Qed.
Lemma extracted_in_order : forall t g, input_tree t -> building g ->
  (forall n, In n (names g) <-> exists u, node_of u t /\ node_name u = Some n) ->
  (forall n body, rule_of g n body <-> exists u, node_of u t /\ node_name u = Some n /\ body = body_of u) ->
  in_order g.
Proof.
  intros t g Ht B Nm R. constructor.
  - apply B.
  - intros n body m H1 H2. apply R in H1. destruct H1 as (u & A & C & ->).
    assert (G : good_node u). { pose proof (input_good t Ht) as G. rewrite Forall_forall in G. apply G. apply in_pre. assumption. }
    destruct (symbol_body u m H2 G) as (c & D & E). apply Nm. exists c. split; [|assumption].
    apply (node_trans t u); [assumption|]. destruct u as [v cs]. apply node_child with c; [assumption|constructor].
  - apply (b_used not_start g B).
  - apply (b_users not_start g B).
  - intros n m H _. apply (b_exact not_start g B). assumption.
  - apply (b_set not_start g B).
  - apply (b_rules not_start g B).
Qed.
