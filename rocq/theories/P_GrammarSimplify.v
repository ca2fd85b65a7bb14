(** Proofs about Grammar.simplify. *)
From Coq Require Import NArith List Bool Lia.
From Verif Require Import M_Base M_PyGrammar S_Grammar P_Base P_Grammar.
Import ListNotations.
Open Scope N_scope.

(** ** Replacing a name by its only rule *)
Definition subst (P : N) (b : list symbol) (s : list symbol) : list symbol :=
  concat (map (fun x => if is_name P x then b else [x]) s).
Definition contains (P : N) (s : list symbol) : bool := existsb (is_name P) s.
Definition inl (P : N) (b : list symbol) (s : list symbol) : list symbol :=
  if contains P s then combine_terminals (subst P b s) else s.

Lemma contains_iff : forall P s, contains P s = true <-> In (NonTerminal P) s.
Proof.
  intros. unfold contains. rewrite existsb_exists. split.
  - intros (x & A & B). apply is_name_eq in B. subst. assumption.
  - intro H. exists (NonTerminal P). split; [assumption|]. apply is_name_eq. reflexivity.
Qed.
Lemma contains_false : forall P s, contains P s = false <-> ~ In (NonTerminal P) s.
Proof. intros. rewrite <- contains_iff. destruct (contains P s); split; congruence. Qed.
Lemma in_subst : forall P b s m, In (NonTerminal m) (subst P b s) <->
  (In (NonTerminal m) s /\ m <> P) \/ (In (NonTerminal P) s /\ In (NonTerminal m) b).
Proof.
  intros P b s m. unfold subst. rewrite in_concat. split.
  - intros (l & A & B). apply in_map_iff in A. destruct A as (x & A & C). destruct (is_name P x) eqn:E.
    + apply is_name_eq in E. subst. right. auto.
    + subst l. destruct B as [->|[]]. left. split; [assumption|]. intros ->.
      assert (is_name P (NonTerminal P) = true) by (apply is_name_eq; reflexivity). congruence.
  - intros [[A B]|[A B]].
    + exists [NonTerminal m]. split; [|left; reflexivity]. apply in_map_iff. exists (NonTerminal m). split; [|assumption].
      destruct (is_name P (NonTerminal m)) eqn:E; [|reflexivity]. apply is_name_eq in E. congruence.
    + exists b. split; [|assumption]. apply in_map_iff. exists (NonTerminal P). split; [|assumption].
      assert (is_name P (NonTerminal P) = true) as -> by (apply is_name_eq; reflexivity). reflexivity.
Qed.
Lemma in_inl : forall P b s m, ~ In (NonTerminal P) b -> (In (NonTerminal m) (inl P b s) <->
  (In (NonTerminal m) s /\ m <> P) \/ (In (NonTerminal P) s /\ In (NonTerminal m) b)).
Proof.
  intros P b s m Hb. unfold inl. destruct (contains P s) eqn:E.
  - rewrite combine_names. apply in_subst.
  - apply contains_false in E. split; [|tauto]. intro H. left. split; [assumption|]. intros ->. contradiction.
Qed.
Lemma inl_gone : forall P b s, ~ In (NonTerminal P) b -> ~ In (NonTerminal P) (inl P b s).
Proof. intros P b s Hb H. apply in_inl in H; [|assumption]. tauto. Qed.
Lemma inl_same : forall P b s, ~ In (NonTerminal P) s -> inl P b s = s.
Proof. intros P b s H. unfold inl. apply contains_false in H. rewrite H. reflexivity. Qed.

Lemma subst_derives : forall R P b, (forall body, R P body <-> body = b) ->
  forall s w, derives R (subst P b s) w <-> derives R s w.
Proof.
  intros R P b HP. induction s as [|x s IH]; intro w; [reflexivity|].
  unfold subst in *. cbn [map concat]. change (x :: s) with ([x] ++ s). rewrite !derives_app_iff.
  split; intros (w1 & w2 & E & A & B); exists w1, w2; (split; [assumption|]); (split; [|apply IH; assumption]).
  - destruct (is_name P x) eqn:Ex; [|assumption]. apply is_name_eq in Ex. subst x. apply derives_name. exists b. split; [apply HP; reflexivity|assumption].
  - destruct (is_name P x) eqn:Ex; [|assumption]. apply is_name_eq in Ex. subst x. apply derives_name in A. destruct A as (body & A & C).
    apply HP in A. subst. assumption.
Qed.
Lemma inl_derives : forall R P b, (forall body, R P body <-> body = b) ->
  forall s w, derives R (inl P b s) w <-> derives R s w.
Proof.
  intros R P b HP s w. unfold inl. destruct (contains P s); [|reflexivity].
  rewrite combine_derives. apply subst_derives. assumption.
Qed.
(** One step of inlining keeps every derivation. *)
Lemma inline_equiv : forall (R R' : N -> list symbol -> Prop) P b,
  (forall body, R P body <-> body = b) -> (forall body, R' P body <-> body = b) ->
  (forall n body, R n body -> R' n body \/ R' n (inl P b body)) ->
  (forall n body, R' n body -> R n body \/ exists s, R n s /\ body = inl P b s) ->
  forall s w, derives R s w <-> derives R' s w.
Proof.
  intros R R' P b H1 H2 F G s w. split; intro H.
  - induction H as [|x s w H IH|n body s v w HR Hb IHb Hs IHs]; [constructor|constructor; assumption|].
    destruct (F _ _ HR) as [A|A].
    + econstructor; eassumption.
    + econstructor; [exact A| |exact IHs]. apply inl_derives; assumption.
  - induction H as [|x s w H IH|n body s v w HR Hb IHb Hs IHs]; [constructor|constructor; assumption|].
    destruct (G _ _ HR) as [A|(s0 & A & ->)].
    + econstructor; eassumption.
    + econstructor; [exact A| |exact IHs]. apply (inl_derives R P b H1). assumption.
Qed.
(** A production whose only rule uses itself derives nothing. *)
Lemma recursive_empty : forall (R : N -> list symbol -> Prop) P b, (forall body, R P body -> body = b) ->
  In (NonTerminal P) b -> forall s w, derives R s w -> ~ In (NonTerminal P) s.
Proof.
  intros R P b HP Hb s w H. induction H as [|x s w H IH|n body s v w HR Hd IHd Hs IHs]; cbn.
  - tauto.
  - intros [A|A]; [discriminate|contradiction].
  - intros [A|A]; [|contradiction]. inversion A; subst. apply HP in HR. subst. contradiction.
Qed.
(** Rules P ::= P do nothing. *)
Lemma drop_recursive : forall (R R' : N -> list symbol -> Prop) P,
  (forall n body, R' n body <-> R n body /\ ~ (n = P /\ body = [NonTerminal P])) ->
  forall s w, derives R s w <-> derives R' s w.
Proof.
  intros R R' P HR s w. split; intro H.
  - induction H as [|x s w H IH|n body s v w Hr Hb IHb Hs IHs]; [constructor|constructor; assumption|].
    destruct (N.eq_dec n P) as [->|Hn].
    + assert (D : body = [NonTerminal P] \/ body <> [NonTerminal P]).
      { destruct (seq_eqb body [NonTerminal P]) eqn:E; [left; apply seq_eqb_eq; exact E|right]. intro A. apply seq_eqb_eq in A. congruence. }
      destruct D as [->|D].
      * apply derives_name in IHb. destruct IHb as (b' & A & B). econstructor; eassumption.
      * econstructor; [|eassumption|eassumption]. apply HR. split; [assumption|]. intros [_ A]. contradiction.
    + econstructor; [|eassumption|eassumption]. apply HR. split; [assumption|]. intros [A _]. contradiction.
  - eapply derives_mono; [|exact H]. intros n body A. apply HR in A. apply A.
Qed.

(** ** The loop of replace_sub_production *)
Lemma replace_sequence : forall P b r, sequence (snd (rule_replace P b r)) = inl P b (sequence r).
Proof. intros. unfold rule_replace, inl, contains, subst. destruct (existsb (is_name P) (sequence r)); reflexivity. Qed.
Lemma replace_flag : forall P b r, has_terminals (snd (rule_replace P b r)) = has_terminals r.
Proof. intros. unfold rule_replace. destruct (existsb (is_name P) (sequence r)); reflexivity. Qed.
Lemma replace_modified : forall P b r, fst (rule_replace P b r) = contains P (sequence r).
Proof. intros. unfold rule_replace, contains. destruct (existsb (is_name P) (sequence r)); reflexivity. Qed.
Lemma in_remove_rule : forall l r s, In s (map sequence (remove_rule l r)) <-> In s (map sequence l) /\ s <> sequence r.
Proof.
  intros. unfold remove_rule. rewrite !in_map_iff. split.
  - intros (x & <- & A). apply filter_In in A. destruct A as [A B]. split; [exists x; auto|].
    intro E. apply negb_true_iff in B. assert (rule_eqb r x = true) by (apply rule_eqb_eq; auto). congruence.
  - intros [(x & <- & A) B]. exists x. split; [reflexivity|]. apply filter_In. split; [assumption|].
    apply negb_true_iff. destruct (rule_eqb r x) eqn:E; [|reflexivity]. apply rule_eqb_eq in E. congruence.
Qed.
Lemma in_add_rule : forall l r s, In s (map sequence (add_rule l r)) <-> In s (map sequence l) \/ s = sequence r.
Proof.
  intros. unfold add_rule. destruct (rule_in r l) eqn:E.
  - apply rule_in_iff in E. split; [auto|]. intros [H| ->]; assumption.
  - rewrite map_app, in_app_iff. cbn. split; intros [H|H]; auto. destruct H as [H|[]]; auto.
Qed.
Lemma nodup_add_rule : forall l r, NoDup (map sequence l) -> NoDup (map sequence (add_rule l r)).
Proof.
  intros. unfold add_rule. destruct (rule_in r l) eqn:E; [assumption|]. rewrite map_app.
  apply nodup_app_one; [assumption|]. apply rule_in_map. assumption.
Qed.
Lemma nodup_filter_map : forall (A B : Type) (f : A -> B) (p : A -> bool) l, NoDup (map f l) -> NoDup (map f (filter p l)).
Proof.
  induction l as [|x l IH]; cbn; intro H; [constructor|]. inversion H; subst. destruct (p x); [|auto].
  cbn. constructor; [|auto]. intro C. apply H2. apply in_map_iff in C. destruct C as (y & D & E).
  apply filter_In in E. apply in_map_iff. exists y. tauto.
Qed.
Lemma filter_length_le : forall (A : Type) (p : A -> bool) l, (length (filter p l) <= length l)%nat.
Proof. induction l as [|x l IH]; cbn; [lia|]. destruct (p x); cbn; lia. Qed.
Lemma remove_rule_length : forall l r, In (sequence r) (map sequence l) -> (S (length (remove_rule l r)) <= length l)%nat.
Proof.
  induction l as [|x l IH]; cbn; intros r H; [contradiction|].
  destruct (rule_eqb r x) eqn:E; cbn.
  - pose proof (filter_length_le rule (fun y => negb (rule_eqb r y)) l). unfold remove_rule. lia.
  - destruct H as [H|H].
    + assert (rule_eqb r x = true) by (apply rule_eqb_eq; auto). congruence.
    + specialize (IH r H). unfold remove_rule in IH. lia.
Qed.
Lemma add_rule_length : forall l r, (length (add_rule l r) <= S (length l))%nat.
Proof. intros. unfold add_rule. destruct (rule_in r l); [lia|]. rewrite app_length. cbn. lia. Qed.

Lemma replace_loop_ok : forall P b todo cur m, ~ In (NonTerminal P) b ->
  NoDup (map sequence todo) -> NoDup (map sequence cur) -> incl (map sequence todo) (map sequence cur) ->
  (forall s, In s (map sequence cur) -> In s (map sequence todo) \/ ~ In (NonTerminal P) s) ->
  exists rs, replace_loop P b todo cur m = Ok (rs, existsb (fun r => contains P (sequence r)) todo || m) /\
    NoDup (map sequence rs) /\ (length rs <= length cur)%nat /\
    (forall s, In s (map sequence rs) <->
       (In s (map sequence cur) /\ ~ In (NonTerminal P) s) \/ exists r, In r todo /\ s = inl P b (sequence r)) /\
    (Forall (fun r => has_terminals r = true) cur -> Forall (fun r => has_terminals r = true) todo ->
     Forall (fun r => has_terminals r = true) rs).
Proof.
  intros P b todo. induction todo as [|r todo IH]; intros cur m Hb Nt Nc Inc Hc; cbn [replace_loop].
  - exists cur. split; [reflexivity|]. split; [assumption|]. split; [lia|]. split; [|auto].
    intro s. split; [|intros [[H _]|(r & [] & _)]; assumption]. intro H. left. split; [assumption|].
    destruct (Hc s H) as [[]|A]. assumption.
  - cbn [map] in *. inversion Nt as [|? ? Nr Nt']; subst.
    assert (Ir : In (sequence r) (map sequence cur)) by (apply Inc; left; reflexivity).
    rewrite (proj2 (rule_in_iff r cur) Ir).
    pose proof (replace_sequence P b r) as Es. pose proof (replace_flag P b r) as Ef. pose proof (replace_modified P b r) as Em.
    destruct (rule_replace P b r) as [bb r'] eqn:Er. cbn [fst snd] in Es, Ef, Em. subst bb.
    set (cur1 := add_rule (remove_rule cur r) r').
    assert (C1 : forall s, In s (map sequence cur1) <-> (In s (map sequence cur) /\ s <> sequence r) \/ s = inl P b (sequence r)).
    { intro s. unfold cur1. rewrite in_add_rule, in_remove_rule, Es. reflexivity. }
    destruct (IH cur1 (contains P (sequence r) || m)) as (rs & E & N1 & L1 & S1 & F1).
    + assumption.
    + assumption.
    + apply nodup_add_rule. apply nodup_filter_map. assumption.
    + intros s Hs. apply C1. left. split; [apply Inc; right; assumption|]. intros ->. contradiction.
    + intros s Hs. apply C1 in Hs. destruct Hs as [[A B]| ->]; [|right; apply inl_gone; assumption].
      destruct (Hc s A) as [[C|C]|C]; auto; congruence.
    + exists rs. split; [rewrite E; cbn [existsb]; f_equal; f_equal; destruct (contains P (sequence r)), m, (existsb (fun r0 => contains P (sequence r0)) todo); reflexivity|].
      split; [assumption|]. split.
      { pose proof (remove_rule_length cur r Ir). pose proof (add_rule_length (remove_rule cur r) r'). unfold cur1 in L1. lia. }
      split.
      * intro s. rewrite S1. split.
        -- intros [[A B]|(x & A & B)].
           ++ apply C1 in A. destruct A as [[A C]|A]; [left; auto|right; exists r; split; [left; reflexivity|assumption]].
           ++ right. exists x. split; [right; assumption|assumption].
        -- intros [[A B]|(x & [<-|A] & B)].
           ++ left. split; [|assumption]. apply C1. destruct (seq_eqb s (sequence r)) eqn:Eq.
              ** apply seq_eqb_eq in Eq. right. rewrite inl_same by (rewrite <- Eq; assumption). assumption.
              ** left. split; [assumption|]. intro C. apply seq_eqb_eq in C. congruence.
           ++ left. split; [apply C1; right; assumption|]. subst s. apply inl_gone. assumption.
           ++ right. exists x. auto.
      * intros Fc Ft. inversion Ft; subst. apply F1; [|assumption]. unfold cur1, add_rule, remove_rule.
        assert (Ff : Forall (fun x => has_terminals x = true) (filter (fun x => negb (rule_eqb r x)) cur)).
        { rewrite Forall_forall in *. intros x Hx. apply filter_In in Hx. apply Fc. apply Hx. }
        destruct (rule_in r' _); [assumption|]. apply Forall_app. split; [assumption|]. constructor; [congruence|constructor].
Qed.

(** ** How a production may change *)
Record evolves (p q : production) : Prop := {
  ev_removable : removable q = removable p;
  ev_cpt : cpt q = cpt p;
  ev_length : (length (rules q) <= length (rules p))%nat;
  ev_flags : Forall (fun r => has_terminals r = true) (rules p) -> Forall (fun r => has_terminals r = true) (rules q);
}.
Lemma evolves_refl : forall p, evolves p p.
Proof. intro. constructor; auto. Qed.
Lemma evolves_trans : forall p q r, evolves p q -> evolves q r -> evolves p r.
Proof. intros p q r [A B C D] [A' B' C' D']. constructor; try congruence; [lia|auto]. Qed.
Definition evo (g g' : grammar) : Prop :=
  forall n q, In (n, q) (productions g') -> exists p, In (n, p) (productions g) /\ evolves p q.
Lemma evo_refl : forall g, evo g g.
Proof. intros g n q H. exists q. split; [assumption|apply evolves_refl]. Qed.
Lemma evo_trans : forall a b c, evo a b -> evo b c -> evo a c.
Proof.
  intros a b c H1 H2 n q H. destruct (H2 _ _ H) as (p & A & B). destruct (H1 _ _ A) as (o & C & D).
  exists o. split; [assumption|]. eapply evolves_trans; eassumption.
Qed.
Lemma evo_put : forall g n p q, In (n, p) (productions g) -> evolves p q -> evo g (put_prod g n q).
Proof.
  intros g n p q Hp He m r H. apply in_put in H. destruct H as [[A B]|(-> & -> & B)].
  - exists r. split; [assumption|apply evolves_refl].
  - exists p. auto.
Qed.
Lemma evo_names : forall g g', evo g g' -> forall n, In n (names g') -> In n (names g).
Proof.
  intros g g' H n Hn. apply in_map_iff in Hn. destruct Hn as ([k q] & <- & A). destruct (H _ _ A) as (p & B & _).
  eapply in_names; eassumption.
Qed.

(** ** Removing the rules P ::= P *)
Lemma is_recursive_iff : forall n r, is_recursive n r = true <-> sequence r = [NonTerminal n].
Proof.
  intros. unfold is_recursive. destruct (sequence r) as [|s [|]]; try (split; discriminate).
  rewrite is_name_eq. split; congruence.
Qed.
Lemma remove_recursive_ok : forall g n, in_order g -> In n (names g) ->
  exists g', remove_recursive_rules g n = Ok g' /\ in_order g' /\ names g' = names g /\ evo g g' /\
    (forall m body, rule_of g' m body <-> rule_of g m body /\ ~ (m = n /\ body = [NonTerminal n])).
Proof.
  intros g n I Hn. unfold remove_recursive_rules. destruct (get_prod_names g n Hn) as (p & -> & Hp). cbn [bind].
  eexists. split; [reflexivity|]. set (q := mkProd _ _ _). set (g' := put_prod g n q).
  assert (Nm : names g' = names g) by apply put_names.
  assert (R : forall m body, rule_of g' m body <-> rule_of g m body /\ ~ (m = n /\ body = [NonTerminal n])).
  { intros m body. unfold g'. rewrite rule_of_put. unfold q. cbn [rules].
    assert (F : In body (map sequence (filter (fun r => negb (is_recursive n r)) (rules p))) <-> In body (map sequence (rules p)) /\ body <> [NonTerminal n]).
    { rewrite !in_map_iff. split.
      - intros (r & <- & A). apply filter_In in A. destruct A as [A B]. split; [exists r; auto|].
        intro C. apply is_recursive_iff in C. rewrite C in B. discriminate.
      - intros [(r & <- & A) B]. exists r. split; [reflexivity|]. apply filter_In. split; [assumption|].
        apply negb_true_iff. destruct (is_recursive n r) eqn:E; [|reflexivity]. apply is_recursive_iff in E. congruence. }
    rewrite F. rewrite <- (rule_of_in g n p body (io_names g I) Hp). split.
    - intros [[A B]|(-> & _ & A & B)]; split; auto; intros [? ?]; contradiction.
    - intros [A B]. destruct (N.eq_dec m n) as [->|C]; [|auto]. right. split; [reflexivity|]. split; [assumption|].
      split; [assumption|]. intros ->. apply B. auto. }
  split; [|split; [exact Nm|split; [|exact R]]].
  2: { apply evo_put with p; [assumption|]. constructor; cbn; auto; [apply filter_length_le|].
       rewrite !Forall_forall. intros F r A. apply filter_In in A. apply F. apply A. }
  constructor.
  - fold (names g'). rewrite Nm. apply I.
  - intros k body m A B. fold (names g'). rewrite Nm. apply R in A. eapply (io_closed g I); [apply A|assumption].
  - intros k body m A B. apply R in A. eapply (io_used g I); [apply A|assumption].
  - intros k m A. fold (names g'). rewrite Nm. eapply (io_users g I). exact A.
  - intros k m A B. destruct (io_exact g I k m A B) as (body & C & D). exists body. split; [|assumption].
    apply R. split; [assumption|]. intros [-> ->]. destruct D as [D|[]]. congruence.
  - intro m. apply (io_set g I).
  - intros k r A. apply in_put in A. destruct A as [[A B]|(-> & -> & B)]; [eapply io_rules; eassumption|].
    unfold q. cbn [rules]. apply nodup_filter_map. eapply io_rules; eassumption.
Qed.

(** ** Replacing in one user *)
Definition only_rule (g : grammar) (P : N) (r : rule) : Prop := exists p, In (P, p) (productions g) /\ rules p = [r].
Lemma only_rule_of : forall g P r, NoDup (names g) -> only_rule g P r -> forall body, rule_of g P body <-> body = sequence r.
Proof.
  intros g P r ND (p & A & B) body. rewrite (rule_of_in g P p body ND A), B. cbn. split; [intros [H|[]]|]; auto.
Qed.
Lemma in_order_names : forall g, in_order g -> NoDup (names g).
Proof. intros g I. apply I. Qed.
Global Hint Resolve in_order_names : core.

Lemma replace_ok : forall g u P r, in_order g -> only_rule g P r -> ~ In (NonTerminal P) (sequence r) ->
  In u (used_by g P) ->
  exists g', replace_sub_production g u P r = Ok g' /\ in_order g' /\ names g' = names g /\ evo g g' /\
    only_rule g' P r /\
    (forall m body, rule_of g' m body <-> (m <> u /\ rule_of g m body) \/ (m = u /\ exists s, rule_of g u s /\ body = inl P (sequence r) s)) /\
    (forall x, In x (used_by g' P) <-> In x (used_by g P) /\ (x <> u \/ x = P)).
Proof.
  intros g u P r I Ho Hr Hu.
  pose proof (io_users g I u P Hu) as Nu. destruct (get_prod_names g u Nu) as (p & Gp & Hp).
  unfold replace_sub_production. rewrite Gp. cbn [bind].
  destruct (replace_loop_ok P (sequence r) (rules p) (rules p) false Hr) as (rs & E & N1 & L1 & S1 & F1).
  { eapply io_rules; eassumption. }
  { eapply io_rules; eassumption. }
  { intros x Hx; exact Hx. }
  { auto. }
  rewrite E. cbn [bind]. rewrite orb_false_r.
  set (q := mkProd rs (removable p) (cpt p)). set (g1 := put_prod g u q).
  assert (S2 : forall s, In s (map sequence rs) <-> exists s0, rule_of g u s0 /\ s = inl P (sequence r) s0).
  { intro s. rewrite S1. split.
    - intros [[A B]|(x & A & B)].
      + exists s. split; [apply (rule_of_in g u p); auto|]. symmetry. apply inl_same. assumption.
      + exists (sequence x). split; [|assumption]. apply (rule_of_in g u p); auto. apply in_map. assumption.
    - intros (s0 & A & B). right. apply (rule_of_in g u p) in A; auto. apply in_map_iff in A. destruct A as (x & <- & A).
      exists x. auto. }
  assert (R1 : forall m body, rule_of g1 m body <-> (m <> u /\ rule_of g m body) \/ (m = u /\ exists s, rule_of g u s /\ body = inl P (sequence r) s)).
  { intros m body. unfold g1. rewrite rule_of_put. unfold q at 1. cbn [rules]. rewrite S2. tauto. }
  assert (Nm : names g1 = names g) by apply put_names.
  assert (Ev : evo g g1).
  { apply evo_put with p; [assumption|]. constructor; cbn; auto. }
  assert (On : only_rule g1 P r).
  { destruct Ho as (p0 & A & B). destruct (N.eq_dec P u) as [->|D].
    - exists q. split; [apply in_put; right; auto|]. assert (p0 = p) by (eapply prod_unique; eauto). subst p0. unfold q. cbn [rules].
      rewrite B in E. cbn [replace_loop] in E. unfold rule_in in E. cbn [existsb] in E. rewrite (proj2 (rule_eqb_eq r r) eq_refl) in E.
      cbn [orb] in E. unfold rule_replace in E. apply contains_false in Hr. unfold contains in Hr. rewrite Hr in E.
      unfold remove_rule, add_rule in E. cbn [filter rule_in existsb] in E. rewrite (proj2 (rule_eqb_eq r r) eq_refl) in E. cbn in E. congruence.
    - exists p0. split; [apply in_put; left; auto|assumption]. }
  assert (I1rules : forall k x, In (k, x) (productions g1) -> NoDup (map sequence (rules x))).
  { intros k x A. apply in_put in A. destruct A as [[A B]|(-> & -> & B)]; [eapply io_rules; eassumption|exact N1]. }
  destruct (N.eq_dec u P) as [->|D].
  - (* P uses itself only in the table *)
    assert (Ex : existsb (fun x => contains P (sequence x)) (rules p) = false).
    { destruct Ho as (p0 & A & B). assert (p0 = p) by (eapply prod_unique; eauto). subst p0. rewrite B. cbn. apply contains_false in Hr. rewrite Hr. reflexivity. }
    rewrite Ex. exists g1. split; [reflexivity|].
    assert (R0 : forall m body, rule_of g1 m body <-> rule_of g m body).
    { intros m body. rewrite R1. destruct (N.eq_dec m P) as [->|]; [|split; [intros [[]|[]]|]; auto; congruence].
      rewrite (only_rule_of g P r (in_order_names g I) Ho). split.
      - intros [[]|(_ & s & A & ->)]; [congruence|]. apply (only_rule_of g P r) in A; auto. subst s. apply inl_same. assumption.
      - intros ->. right. split; [reflexivity|]. exists (sequence r). split; [apply (only_rule_of g P r); auto|]. symmetry. apply inl_same. assumption. }
    split; [|split; [exact Nm|split; [exact Ev|split; [exact On|split; [exact R1|]]]]].
    + constructor.
      * fold (names g1). rewrite Nm. apply I.
      * intros k body m A B. fold (names g1). rewrite Nm. apply R0 in A. eapply (io_closed g I); eassumption.
      * intros k body m A B. apply R0 in A. eapply (io_used g I); eassumption.
      * intros k m A. fold (names g1). rewrite Nm. eapply (io_users g I). exact A.
      * intros k m A B. destruct (io_exact g I k m A B) as (body & C & F). exists body. split; [apply R0|]; assumption.
      * intro m. apply (io_set g I).
      * exact I1rules.
    + intro x. change (used_by g1 P) with (used_by g P). split; [|tauto]. intro A. split; [assumption|]. destruct (N.eq_dec x P); auto.
  - (* another production that uses P *)
    destruct (io_exact g I u P Hu D) as (b0 & B0 & B1).
    assert (Ex : existsb (fun x => contains P (sequence x)) (rules p) = true).
    { apply (rule_of_in g u p) in B0; auto. apply in_map_iff in B0. destruct B0 as (x & <- & B0).
      apply existsb_exists. exists x. split; [assumption|]. apply contains_iff. assumption. }
    rewrite Ex. change (used_by g1 P) with (used_by g P). rewrite (proj2 (name_in_iff u (used_by g P)) Hu).
    eexists. split; [reflexivity|]. set (g' := mkGrammar _ _).
    assert (R' : forall m body, rule_of g' m body <-> rule_of g1 m body) by (intros; reflexivity).
    assert (U : forall x m, In x (used_by g' m) <-> (In x (used_by g m) /\ ~ (m = P /\ x = u)) \/ (x = u /\ In (NonTerminal m) (sequence r))).
    { intros x m. unfold g'. cbn [used_by]. rewrite in_add_uses, in_non_terminals. unfold upd_used.
      change (used_by g1 m) with (used_by g m). destruct (N.eqb_spec m P) as [->|F].
      - rewrite in_remove_name. split; (intros [A|A]; [left|auto]); [split; [tauto|]; intros []; tauto|].
        split; [tauto|]. intros ->. tauto.
      - split; (intros [A|A]; [left|auto]); [split; [assumption|]; intros []; tauto|tauto]. }
    split; [|split; [exact Nm|split; [exact Ev|split; [exact On|split; [intros m body; rewrite R'; apply R1|]]]]].
    + constructor.
      * fold (names g'). change (names g') with (names g1). rewrite Nm. apply I.
      * intros k body m A B. change (map fst (productions g')) with (names g1). rewrite Nm. apply R', R1 in A.
        destruct A as [[A C]|(-> & s & A & ->)]; [eapply (io_closed g I); eassumption|].
        apply in_inl in B; [|assumption]. destruct B as [[B C]|[B C]]; [eapply (io_closed g I); eassumption|].
        eapply (io_closed g I); [|exact C]. apply (only_rule_of g P r); auto.
      * intros k body m A B. apply U. apply R', R1 in A. destruct A as [[A C]|(-> & s & A & ->)].
        -- left. split; [eapply (io_used g I); eassumption|]. intros [_ F]. contradiction.
        -- apply in_inl in B; [|assumption]. destruct B as [[B C]|[B C]]; [left|right; auto].
           split; [eapply (io_used g I); eassumption|]. intros [F _]. contradiction.
      * intros k m A. change (map fst (productions g')) with (names g1). rewrite Nm. apply U in A.
        destruct A as [[A _]|[-> A]]; [eapply (io_users g I); exact A|assumption].
      * intros k m A B. apply U in A. destruct A as [[A C]|[-> A]].
        -- destruct (io_exact g I k m A B) as (body & F & G). destruct (N.eq_dec k u) as [->|H].
           ++ exists (inl P (sequence r) body). split; [apply R', R1; right; eauto|]. apply in_inl; [assumption|]. left.
              split; [assumption|]. intros ->. apply C. auto.
           ++ exists body. split; [apply R', R1; left; auto|assumption].
        -- exists (inl P (sequence r) b0). split; [apply R', R1; right; eauto|]. apply in_inl; [assumption|]. right. auto.
      * intro m. unfold g'. cbn [used_by]. apply nodup_add_uses. intro k. unfold upd_used.
        destruct (k =? P); [apply nodup_remove_name|]; apply (io_set g I).
      * exact I1rules.
    + intro x. rewrite U. split.
      * intros [[A B]|[-> A]]; [|contradiction]. split; [assumption|]. left. intros ->. apply B. auto.
      * intros [A [B| ->]]; left; split; auto; intros [_ C]; congruence.
Qed.

Lemma replace_equiv : forall g g' u P r, in_order g -> in_order g' -> only_rule g P r -> only_rule g' P r ->
  (forall m body, rule_of g' m body <-> (m <> u /\ rule_of g m body) \/ (m = u /\ exists s, rule_of g u s /\ body = inl P (sequence r) s)) ->
  forall s w, derives (rule_of g) s w <-> derives (rule_of g') s w.
Proof.
  intros g g' u P r I I' Ho Ho' R. apply inline_equiv with P (sequence r).
  - apply only_rule_of; auto.
  - apply only_rule_of; auto.
  - intros n body H. destruct (N.eq_dec n u) as [->|D]; [right|left]; apply R; [right; eauto|left; auto].
  - intros n body H. apply R in H. destruct H as [[_ H]|(-> & s & H & ->)]; [left; assumption|right; eauto].
Qed.

(** ** All users *)
Lemma inline_users_ok : forall l g P r, in_order g -> only_rule g P r -> ~ In (NonTerminal P) (sequence r) ->
  NoDup l -> (forall u, In u l -> In u (used_by g P)) ->
  exists g', inline_users g l P = Ok g' /\ in_order g' /\ names g' = names g /\ evo g g' /\ only_rule g' P r /\
    (forall x, In x (used_by g' P) <-> In x (used_by g P) /\ (~ In x l \/ x = P)) /\
    (forall s w, derives (rule_of g) s w <-> derives (rule_of g') s w).
Proof.
  induction l as [|u l IH]; intros g P r I Ho Hr ND Hl; cbn [inline_users].
  - exists g. split; [reflexivity|]. split; [assumption|]. split; [reflexivity|]. split; [apply evo_refl|]. split; [assumption|].
    split; [|reflexivity]. intro x. cbn. tauto.
  - destruct Ho as (p & A & B). rewrite (get_prod_in g P p (in_order_names g I) A). cbn [bind]. rewrite B.
    assert (Ho : only_rule g P r) by (exists p; auto). inversion ND; subst.
    destruct (replace_ok g u P r I Ho Hr (Hl u (or_introl eq_refl))) as (g1 & -> & I1 & Nm1 & E1 & O1 & R1 & U1). cbn [bind].
    destruct (IH g1 P r I1 O1 Hr H2) as (g2 & -> & I2 & Nm2 & E2 & O2 & U2 & D2).
    { intros x Hx. apply U1. split; [apply Hl; right; assumption|]. left. intros ->. contradiction. }
    exists g2. split; [reflexivity|]. split; [assumption|]. split; [congruence|]. split; [eapply evo_trans; eassumption|].
    split; [assumption|]. split.
    + intro x. rewrite U2, U1. cbn. split.
      * intros [[C D] [E|E]]; split; auto. destruct D as [D|D]; auto. left. intros [F|F]; [congruence|contradiction].
      * intros [C [D|D]]; auto. split; [split; [assumption|]|]; [left; intros ->; tauto|left; tauto].
    + intros s w. rewrite <- D2. apply (replace_equiv g g1 u P r I I1 Ho O1 R1).
Qed.

(** ** Removing a production that is used no more *)
Lemma remove_uses : forall vs u n, forall x m,
  In x (fold_left (fun u v => upd_used u v (remove_name (u v) n)) vs u m) <-> In x (u m) /\ ~ (In m vs /\ x = n).
Proof.
  induction vs as [|v vs IH]; intros u n x m; cbn [fold_left In]; [tauto|].
  rewrite IH. unfold upd_used. destruct (N.eqb_spec m v) as [->|D].
  - rewrite in_remove_name. tauto.
  - split; intros [A B]; split; auto; intros [C E]; apply B; [|tauto]. destruct C as [C|C]; [congruence|tauto].
Qed.
Lemma nodup_remove_uses : forall vs u n, (forall m, NoDup (u m)) -> forall m : N,
  NoDup (fold_left (fun u v => upd_used u v (remove_name (u v) n)) vs u m).
Proof.
  induction vs as [|v vs IH]; intros u n H m; cbn [fold_left]; [apply H|]. apply IH. intro k. unfold upd_used.
  destruct (k =? v); [apply nodup_remove_name|]; apply H.
Qed.
Lemma remove_users_self : forall l g P, Forall (fun u => u = P) l -> remove_users g l P = Ok g.
Proof.
  induction l as [|u l IH]; intros g P H; cbn [remove_users]; [reflexivity|]. inversion H; subst. rewrite N.eqb_refl. cbn [bind]. auto.
Qed.
Lemma remove_ok : forall g P, in_order g -> In P (names g) -> (forall x, In x (used_by g P) -> x = P) ->
  exists g', grammar_remove g P = Ok (g', true) /\ in_order g' /\
    (forall n p, In (n, p) (productions g') <-> In (n, p) (productions g) /\ n <> P) /\
    (forall n body, n <> P -> rule_of g n body -> ~ In (NonTerminal P) body).
Proof.
  intros g P I HP HU. destruct (get_prod_names g P HP) as (p & Gp & Hp). unfold grammar_remove.
  rewrite (find_in _ _ p (in_order_names g I) Hp).
  set (vs := concat _). set (u := fold_left _ vs (used_by g)).
  assert (Uv : forall m, In m vs <-> exists body, rule_of g P body /\ In (NonTerminal m) body).
  { intro m. unfold vs. rewrite in_concat. split.
    - intros (l & A & B). apply in_map_iff in A. destruct A as (r & <- & A). apply in_non_terminals in B.
      exists (sequence r). split; [|assumption]. apply (rule_of_in g P p); auto. apply in_map. assumption.
    - intros (body & A & B). apply (rule_of_in g P p) in A; auto. apply in_map_iff in A. destruct A as (r & <- & A).
      exists (non_terminals (sequence r)). split; [apply in_map_iff; exists r; auto|]. apply in_non_terminals. assumption. }
  assert (Uu : forall x m, In x (u m) <-> In x (used_by g m) /\ ~ (In m vs /\ x = P)) by (intros; apply remove_uses).
  cbn [used_by]. rewrite remove_users_self.
  2: { apply Forall_forall. intros x Hx. apply Uu in Hx. apply HU. apply Hx. }
  cbn [bind productions used_by]. eexists. split; [reflexivity|]. set (g' := mkGrammar _ _).
  assert (Pr : forall n q, In (n, q) (productions g') <-> In (n, q) (productions g) /\ n <> P).
  { intros n q. unfold g'. cbn [productions]. rewrite filter_In, negb_true_iff, N.eqb_neq. reflexivity. }
  assert (Nm : forall n, In n (names g') <-> In n (names g) /\ n <> P).
  { intro n. unfold names. rewrite !in_map_iff. split.
    - intros ([k q] & <- & A). apply Pr in A. destruct A as [A B]. split; [exists (k, q); auto|exact B].
    - intros [([k q] & <- & A) B]. exists (k, q). split; [reflexivity|]. apply Pr. auto. }
  assert (R : forall n body, rule_of g' n body <-> rule_of g n body /\ n <> P).
  { intros n body. unfold rule_of. split.
    - intros (q & r & A & B & C). apply Pr in A. split; [exists q, r; tauto|apply A].
    - intros [(q & r & A & B & C) D]. exists q, r. rewrite Pr. auto. }
  assert (Gone : forall n body, n <> P -> rule_of g n body -> ~ In (NonTerminal P) body).
  { intros n body A B C. apply A. apply HU. eapply (io_used g I); eassumption. }
  assert (U' : forall x m, In x (used_by g' m) <-> m <> P /\ In x (used_by g m) /\ ~ (In m vs /\ x = P)).
  { intros x m. unfold g'. cbn [used_by]. unfold upd_used. destruct (N.eqb_spec m P) as [->|D]; [cbn; tauto|]. rewrite Uu. tauto. }
  split; [|split; [exact Pr|exact Gone]].
  assert (UP : forall x m, In x (used_by g' m) -> x <> P).
  { intros x m A ->. apply U' in A. destruct A as (A & B & C).
    destruct (io_exact g I P m B) as (body & E & F); [congruence|]. apply C. split; [|reflexivity]. apply Uv. eauto. }
  constructor.
  - fold (names g'). unfold names, g'. cbn [productions]. apply nodup_filter_map. apply I.
  - intros n body m A B. apply Nm. apply R in A. destruct A as [A C]. split; [eapply (io_closed g I); eassumption|].
    intros ->. eapply Gone; eassumption.
  - intros n body m A B. apply R in A. destruct A as [A C]. apply U'. split; [intros ->; eapply Gone; eassumption|].
    split; [eapply (io_used g I); eassumption|]. intros [_ E]. contradiction.
  - intros n m A. apply Nm. split; [|eapply UP; exact A]. apply U' in A. eapply (io_users g I). apply A.
  - intros n m A B. pose proof (UP _ _ A) as C. apply U' in A. destruct A as (A & D & E).
    destruct (io_exact g I n m D B) as (body & F & G). exists body. split; [apply R; auto|assumption].
  - intro m. unfold g'. cbn [used_by]. unfold upd_used. destruct (m =? P); [constructor|]. apply nodup_remove_uses. apply (io_set g I).
  - intros n q A. apply Pr in A. eapply (io_rules g I). apply A.
Qed.
Lemma remove_equiv : forall g g' P,
  (forall n p, In (n, p) (productions g') <-> In (n, p) (productions g) /\ n <> P) ->
  (forall n body, n <> P -> rule_of g n body -> ~ In (NonTerminal P) body) ->
  forall s w, ~ In (NonTerminal P) s -> (derives (rule_of g) s w <-> derives (rule_of g') s w).
Proof.
  intros g g' P Pr Gone s w Hs. split; intro H.
  - induction H as [|x s w H IH|n body s v w HR Hb IHb Hse IHs]; [constructor|constructor; apply IH; intro A; apply Hs; right; assumption|].
    assert (D : n <> P) by (intros ->; apply Hs; left; reflexivity).
    econstructor; [|apply IHb; eapply Gone; eassumption|apply IHs; intro A; apply Hs; right; assumption].
    destruct HR as (q & r & A & B & C). exists q, r. rewrite Pr. auto.
  - eapply derives_mono; [|exact H]. intros n body (q & r & A & B & C). apply Pr in A. exists q, r. tauto.
Qed.

(** ** One round of the first loop *)
Lemma productive_equiv : forall g g', productive g -> (forall n, In n (names g') -> In n (names g)) ->
  (forall n w, In n (names g') -> (language g n w <-> language g' n w)) -> productive g'.
Proof. intros g g' Hp Hn He n A. destruct (Hp n (Hn n A)) as (w & B). exists w. apply He; assumption. Qed.

Lemma simplify_trivial_ok : forall g m n, in_order g -> productive g -> In n (names g) ->
  exists g' m', simplify_trivial g m n = Ok (g', m') /\ in_order g' /\ evo g g' /\
    (forall k, In k (names g) -> k <> n -> In k (names g')) /\
    (forall p, In (n, p) (productions g) -> removable p = false -> In n (names g')) /\
    (forall p, In (n, p) (productions g') -> removable p = true -> length (rules p) <> 1%nat) /\
    (forall k w, In k (names g') -> (language g k w <-> language g' k w)).
Proof.
  intros g m n I Hp Hn. unfold simplify_trivial.
  destruct (remove_recursive_ok g n I Hn) as (g1 & -> & I1 & Nm1 & E1 & R1). cbn [bind].
  assert (D1 : forall s w, derives (rule_of g) s w <-> derives (rule_of g1) s w) by (apply drop_recursive with n; exact R1).
  assert (Hn1 : In n (names g1)) by (rewrite Nm1; assumption).
  destruct (get_prod_names g1 n Hn1) as (p & Gp & Ip). rewrite Gp. cbn [bind].
  assert (Stay : (removable p = true -> length (rules p) <> 1%nat) ->
    in_order g1 /\ evo g g1 /\ (forall k, In k (names g) -> k <> n -> In k (names g1)) /\
    (forall q, In (n, q) (productions g) -> removable q = false -> In n (names g1)) /\
    (forall q, In (n, q) (productions g1) -> removable q = true -> length (rules q) <> 1%nat) /\
    (forall k w, In k (names g1) -> (language g k w <-> language g1 k w))).
  { intro H. split; [assumption|]. split; [assumption|]. split; [intros; rewrite Nm1; assumption|].
    split; [intros; assumption|]. split; [|intros; apply D1].
    intros q A B. assert (q = p) by (eapply prod_unique; eauto). subst. auto. }
  destruct (rules p) as [|r [|r2 rs]] eqn:Ers.
  - exists g1, m. split; [reflexivity|]. apply Stay. intros _. discriminate.
  - destruct (removable p) eqn:Er.
    2: { exists g1, m. split; [reflexivity|]. apply Stay. discriminate. }
    assert (Ho : only_rule g1 n r) by (exists p; auto).
    assert (Hr : ~ In (NonTerminal n) (sequence r)).
    { intro A. destruct (Hp n Hn) as (w & B). unfold language in B. apply D1 in B.
      apply (recursive_empty (rule_of g1) n (sequence r)) with (s := [NonTerminal n]) (w := w); [|assumption|assumption|left; reflexivity].
      intros body C. apply (only_rule_of g1 n r); auto. }
    assert (Fa : forallb (has_prod g1) (used_by g1 n) = true).
    { apply forallb_forall. intros x A. apply has_prod_iff. eapply (io_users g1 I1). exact A. }
    rewrite Fa.
    destruct (inline_users_ok (used_by g1 n) g1 n r I1 Ho Hr (io_set g1 I1 n) (fun u H => H)) as (g2 & -> & I2 & Nm2 & E2 & O2 & U2 & D2).
    cbn [bind].
    assert (Hn2 : In n (names g2)) by (rewrite Nm2; assumption).
    destruct (remove_ok g2 n I2 Hn2) as (g3 & -> & I3 & Pr & Gone).
    { intros x A. apply U2 in A. destruct A as [A [B|B]]; [contradiction|assumption]. }
    cbn [bind]. exists g3, true. split; [reflexivity|]. split; [assumption|].
    assert (Nm3 : forall k, In k (names g3) <-> In k (names g) /\ k <> n).
    { intro k. rewrite <- Nm1, <- Nm2. unfold names. rewrite !in_map_iff. split.
      - intros ([j q] & <- & A). apply Pr in A. destruct A as [A B]. split; [exists (j, q); auto|exact B].
      - intros [([j q] & <- & A) B]. exists (j, q). split; [reflexivity|]. apply Pr. auto. }
    split.
    { eapply evo_trans; [exact E1|]. eapply evo_trans; [exact E2|]. intros k q A. apply Pr in A. exists q. split; [apply A|apply evolves_refl]. }
    split; [intros k A B; apply Nm3; auto|]. split.
    { intros q A B. exfalso. destruct (E1 _ _ Ip) as (q' & C & F). assert (q' = q) by (exact (prod_unique g n q' q (in_order_names g I) C A)). subst q'.
      pose proof (ev_removable _ _ F). congruence. }
    split; [intros q A; apply Pr in A; tauto|].
    intros k w A. apply Nm3 in A. unfold language. rewrite D1, D2.
    apply (remove_equiv g2 g3 n Pr Gone). intros [B|[]]. inversion B. tauto.
  - exists g1, m. split; [reflexivity|]. apply Stay. intros _. discriminate.
Qed.

(** ** The first loop *)
Lemma trivial_loop_ok : forall l g m, in_order g -> productive g -> NoDup l -> (forall n, In n l -> In n (names g)) ->
  exists g' m', trivial_loop g m l = Ok (g', m') /\ in_order g' /\ productive g' /\ evo g g' /\
    (forall k, In k (names g) -> ~ In k l -> In k (names g')) /\
    (forall n p, In (n, p) (productions g) -> removable p = false -> In n (names g')) /\
    (forall k w, In k (names g') -> (language g k w <-> language g' k w)) /\
    (forall n p, In n l -> In (n, p) (productions g') -> removable p = true ->
       (forall q, In (n, q) (productions g) -> removable q = true ->
          (length (rules q) <= 1)%nat \/ Forall (fun r => has_terminals r = true) (rules q)) ->
       Forall (fun r => has_terminals r = true) (rules p)).
Proof.
  induction l as [|n l IH]; intros g m I Hp ND Hl; cbn [trivial_loop].
  - exists g, m. split; [reflexivity|]. split; [assumption|]. split; [assumption|]. split; [apply evo_refl|].
    split; [auto|]. split; [intros; eapply in_names; eassumption|]. split; [reflexivity|]. intros n p [].
  - inversion ND; subst.
    destruct (simplify_trivial_ok g m n I Hp (Hl n (or_introl eq_refl))) as (g1 & m1 & -> & I1 & E1 & K1 & S1 & L1 & D1). cbn [bind].
    assert (Hp1 : productive g1) by (eapply productive_equiv; [exact Hp|apply evo_names; exact E1|exact D1]).
    destruct (IH g1 m1 I1 Hp1 H2) as (g2 & m2 & -> & I2 & Hp2 & E2 & K2 & S2 & D2 & F2).
    { intros k A. apply K1; [apply Hl; right; assumption|]. intros ->. contradiction. }
    exists g2, m2. split; [reflexivity|]. split; [assumption|]. split; [assumption|]. split; [eapply evo_trans; eassumption|].
    assert (Keep : forall k p, In (k, p) (productions g) -> removable p = false -> exists q, In (k, q) (productions g1) /\ removable q = false).
    { intros k p A B. assert (C : In k (names g1)).
      { destruct (N.eq_dec k n) as [->|D]; [eapply S1; eassumption|]. apply K1; [eapply in_names; eassumption|assumption]. }
      destruct (get_prod_names g1 k C) as (q & _ & D). exists q. split; [assumption|]. destruct (E1 _ _ D) as (p' & F & G).
      assert (p' = p) by (exact (prod_unique g k p' p (in_order_names g I) F A)). subst p'. rewrite (ev_removable _ _ G). assumption. }
    split.
    { intros k A B. apply K2; [apply K1; [assumption|]|]; intro C; apply B; [left; auto|right; assumption]. }
    split.
    { intros k p A B. destruct (Keep k p A B) as (q & C & D). eapply S2; eassumption. }
    split.
    { intros k w A. rewrite D1; [|eapply evo_names; eassumption]. apply D2. assumption. }
    intros k p [<-|A] B C Hq.
    + destruct (E2 _ _ B) as (p1 & P1 & V1). destruct (E1 _ _ P1) as (p0 & P0 & V0).
      assert (R1 : removable p1 = true) by (rewrite <- (ev_removable _ _ V1); assumption).
      assert (R0 : removable p0 = true) by (rewrite <- (ev_removable _ _ V0); assumption).
      apply (ev_flags _ _ V1). destruct (Hq p0 P0 R0) as [L|L]; [|apply (ev_flags _ _ V0); assumption].
      pose proof (L1 p1 P1 R1) as L2. pose proof (ev_length _ _ V0) as L3.
      destruct (rules p1) as [|x [|y rs]] eqn:E; cbn in L2, L3; [constructor|congruence|lia].
    + apply (F2 k p A B C). intros q Q1 Q2. destruct (E1 _ _ Q1) as (q0 & P0 & V0).
      assert (R0 : removable q0 = true) by (rewrite <- (ev_removable _ _ V0); assumption).
      destruct (Hq q0 P0 R0) as [L|L]; [left; pose proof (ev_length _ _ V0); lia|right; apply (ev_flags _ _ V0); assumption].
Qed.

(** ** The second loop, where every production is found to have a terminal *)
(** Only the cached answers change. *)
Definition cached_only (g g' : grammar) : Prop :=
  used_by g' = used_by g /\
  map (fun q => (fst q, rules (snd q), removable (snd q))) (productions g') = map (fun q => (fst q, rules (snd q), removable (snd q))) (productions g).
Lemma cached_refl : forall g, cached_only g g.
Proof. intro. split; reflexivity. Qed.
Lemma cached_trans : forall a b c, cached_only a b -> cached_only b c -> cached_only a c.
Proof. intros a b c [A B] [C D]. split; congruence. Qed.
Lemma cached_names : forall g g', cached_only g g' -> names g' = names g.
Proof.
  intros g g' [_ E]. unfold names.
  assert (H : forall ps : list (N * production), map fst ps = map (fun x => fst (fst x)) (map (fun q => (fst q, rules (snd q), removable (snd q))) ps)).
  { intro ps. rewrite map_map. reflexivity. }
  rewrite (H (productions g')), (H (productions g)), E. reflexivity.
Qed.
Lemma cached_in : forall g g', cached_only g g' -> forall n p, In (n, p) (productions g') ->
  exists q, In (n, q) (productions g) /\ rules q = rules p /\ removable q = removable p.
Proof.
  intros g g' [_ E] n p H.
  assert (A : In (n, rules p, removable p) (map (fun q => (fst q, rules (snd q), removable (snd q))) (productions g'))).
  { apply in_map_iff. exists (n, p). auto. }
  rewrite E in A. apply in_map_iff in A. destruct A as ([k q] & B & C). cbn in B. inversion B; subst. exists q. auto.
Qed.
Lemma cached_sym : forall g g', cached_only g g' -> cached_only g' g.
Proof. intros g g' [A B]. split; congruence. Qed.
Lemma cached_rules : forall g g', cached_only g g' -> forall n body, rule_of g' n body <-> rule_of g n body.
Proof.
  assert (H : forall g g', cached_only g g' -> forall n body, rule_of g' n body -> rule_of g n body).
  { intros g g' C n body (p & r & A & B & D). destruct (cached_in g g' C n p A) as (q & E & F & _).
    exists q, r. rewrite F. auto. }
  intros g g' C n body. split; [apply H|apply H, cached_sym]; assumption.
Qed.
Lemma cached_put : forall g n p c, NoDup (names g) -> In (n, p) (productions g) ->
  cached_only g (put_prod g n (mkProd (rules p) (removable p) c)).
Proof.
  intros g n p c ND H. split; [reflexivity|]. unfold put_prod. cbn [productions]. rewrite map_map. apply map_ext_in.
  intros [k q] A. cbn. destruct (N.eqb_spec k n) as [->|]; [|reflexivity].
  assert (q = p) by (eapply prod_unique; eassumption). subst. reflexivity.
Qed.
Lemma mark_ok : forall g n, NoDup (names g) -> cached_only g (mark g n) /\
  (forall k p, In (k, p) (productions (mark g n)) -> (k = n /\ cpt p = Some true) \/ In (k, p) (productions g)).
Proof.
  intros g n ND. unfold mark. destruct (find_prod (productions g) n) as [p|] eqn:E.
  - apply find_some_in in E. split; [apply cached_put; assumption|]. intros k q H. apply in_put in H.
    destruct H as [[A B]|(-> & -> & B)]; [auto|left; auto].
  - split; [apply cached_refl|auto].
Qed.
Lemma marks_ok : forall l g, NoDup (names g) -> cached_only g (fold_left mark l g) /\
  (forall k p, In (k, p) (productions (fold_left mark l g)) -> (In k l /\ cpt p = Some true) \/ (In (k, p) (productions g) /\ ~ In k l)).
Proof.
  induction l as [|n l IH]; intros g ND; cbn [fold_left]; [split; [apply cached_refl|cbn; tauto]|].
  destruct (mark_ok g n ND) as (C1 & M1).
  assert (ND1 : NoDup (names (mark g n))) by (rewrite (cached_names _ _ C1); assumption).
  destruct (IH (mark g n) ND1) as (C2 & M2).
  split; [eapply cached_trans; eassumption|]. intros k p H. destruct (M2 k p H) as [[A B]|[A B]]; [left; cbn; auto|].
  destruct (N.eq_dec k n) as [->|D].
  - left. split; [left; reflexivity|]. unfold mark in A. destruct (find_prod (productions g) n) as [q|] eqn:E.
    + apply in_put in A. destruct A as [[A _]|(_ & -> & _)]; [congruence|reflexivity].
    + apply find_none in E. exfalso. apply E. eapply in_names; exact A.
  - destruct (M1 k p A) as [[F G]|F]; [congruence|]. right. split; [assumption|]. intros [G|G]; [congruence|contradiction].
Qed.

(** What is left to visit. *)
Lemma rules_eqb_refl : forall l, rules_eqb l l = true.
Proof.
  intro l. unfold rules_eqb. apply andb_true_iff. split; apply forallb_forall; intros r H; apply rule_in_iff; apply in_map; assumption.
Qed.
Definition todo_count (g : grammar) (visited : list (list rule)) : nat :=
  length (filter (fun n => negb (visited_in g visited n)) (names g)).
Lemma visited_app : forall g v w n, visited_in g (v ++ w) n = visited_in g v n || visited_in g w n.
Proof. intros. unfold visited_in. apply existsb_app. Qed.
Lemma visited_self : forall g l n, In n l -> visited_in g (map (rules_of g) l) n = true.
Proof.
  intros g l n H. unfold visited_in. apply existsb_exists. exists (rules_of g n). split; [apply in_map; assumption|apply rules_eqb_refl].
Qed.
Lemma count_less : forall (f f' : N -> bool) new l, NoDup new -> incl new l ->
  (forall n, In n new -> f n = true /\ f' n = false) -> (forall n, f' n = true -> f n = true) ->
  (length new + length (filter f' l) <= length (filter f l))%nat.
Proof.
  intros f f' new l ND Inc Hn Hf.
  assert (H : (length (new ++ filter f' l) <= length (new ++ filter f' l))%nat) by lia. clear H.
  (* every element of [new] occurs in [filter f l] and not in [filter f' l] *)
  revert l Inc. induction ND as [|n new Hnn ND IH]; intros l Inc; cbn [length plus].
  - clear Inc. induction l as [|x l IHl]; cbn; [lia|]. destruct (f' x) eqn:E.
    + rewrite (Hf x E). cbn. lia.
    + destruct (f x); cbn; lia.
  - assert (A : In n l) by (apply Inc; left; reflexivity). apply in_split in A. destruct A as (l1 & l2 & ->).
    assert (Inc' : incl new (l1 ++ l2)).
    { intros x Hx. assert (B : In x (l1 ++ n :: l2)) by (apply Inc; right; assumption). apply in_app_iff in B. apply in_app_iff.
      destruct B as [B|[B|B]]; auto. subst. contradiction. }
    specialize (IH (fun k H => Hn k (or_intror H)) _ Inc'). destruct (Hn n (or_introl eq_refl)) as [F F'].
    rewrite !filter_app, !app_length in *. cbn [filter]. rewrite F, F'. cbn [length]. lia.
Qed.
Lemma cached_rules_of : forall g g' n, cached_only g g' -> rules_of g' n = rules_of g n.
Proof.
  intros g g' n [_ E]. unfold rules_of. revert E. generalize (productions g) as ps, (productions g') as ps'.
  intros ps. induction ps as [|[k q] ps IH]; intros [|[k' q'] ps'] E; cbn in *; try discriminate; [reflexivity|].
  inversion E; subst. destruct (k =? n); [assumption|]. apply IH. assumption.
Qed.
Lemma cached_visited : forall g g' v n, cached_only g g' -> visited_in g' v n = visited_in g v n.
Proof. intros. unfold visited_in. rewrite (cached_rules_of g g' n H). reflexivity. Qed.

Lemma propagate_ok : forall fuel g queue visited, in_order g ->
  (length queue + todo_count g visited <= fuel)%nat ->
  exists g', propagate fuel g queue visited = Ok g' /\ cached_only g g' /\
    (forall k p, In (k, p) (productions g') -> cpt p = Some true \/ In (k, p) (productions g)).
Proof.
  induction fuel as [|f IH]; intros g queue visited I Hf.
  - destruct queue as [|n rest]; [|cbn in Hf; lia]. exists g. split; [reflexivity|]. split; [apply cached_refl|auto].
  - destruct queue as [|n rest]; cbn [propagate]; [exists g; split; [reflexivity|]; split; [apply cached_refl|auto]|].
    assert (Fa : forallb (has_prod g) (used_by g n) = true).
    { apply forallb_forall. intros x A. apply has_prod_iff. eapply (io_users g I). exact A. }
    rewrite Fa. set (new := filter _ (used_by g n)). destruct (marks_ok new g (io_names g I)) as (C1 & M1).
    set (g1 := fold_left mark new g) in *.
    assert (I1 : in_order g1).
    { pose proof (cached_names _ _ C1) as Nm. destruct C1 as [Cu Ce]. pose proof (cached_rules g g1 (conj Cu Ce)) as R. constructor.
      - fold (names g1). rewrite Nm. apply I.
      - intros k body m A B. fold (names g1). rewrite Nm. apply R in A. eapply (io_closed g I); eassumption.
      - intros k body m A B. rewrite Cu. apply R in A. eapply (io_used g I); eassumption.
      - intros k m A. fold (names g1). rewrite Nm. rewrite Cu in A. eapply (io_users g I); exact A.
      - intros k m A B. rewrite Cu in A. destruct (io_exact g I k m A B) as (body & C & D). exists body. rewrite R. auto.
      - intro m. rewrite Cu. apply I.
      - intros k p A. destruct (cached_in g g1 (conj Cu Ce) k p A) as (q & B & C & _). rewrite <- C. eapply (io_rules g I); exact B. }
    destruct (IH g1 (rev new ++ rest) (visited ++ map (rules_of g) new) I1) as (g2 & -> & C2 & M2).
    + rewrite app_length, rev_length. unfold todo_count in *. rewrite (cached_names _ _ C1).
      assert (L : (length new + length (filter (fun k => negb (visited_in g1 (visited ++ map (rules_of g) new) k)) (names g))
                   <= length (filter (fun k => negb (visited_in g visited k)) (names g)))%nat).
      { apply count_less.
        - apply NoDup_filter. apply I.
        - intros x A. apply filter_In in A. eapply (io_users g I). apply A.
        - intros x A. split; [apply filter_In in A; apply A|]. rewrite (cached_visited g g1 _ _ C1), visited_app, (visited_self g new x A), orb_true_r. reflexivity.
        - intros x A. rewrite (cached_visited g g1 _ _ C1), visited_app, negb_orb in A. apply andb_true_iff in A. apply A. }
      cbn in Hf. lia.
    + exists g2. split; [reflexivity|]. split; [eapply cached_trans; eassumption|]. intros k p A.
      destruct (M2 k p A) as [B|B]; [auto|]. destruct (M1 k p B) as [[_ C]|[C _]]; auto.
Qed.

(** Nothing was found to produce no terminal. *)
Definition no_false (g : grammar) : Prop := forall n p, In (n, p) (productions g) -> cpt p = None \/ cpt p = Some true.
Definition all_flagged (g : grammar) : Prop := forall n p, In (n, p) (productions g) -> removable p = true ->
  rules p <> [] /\ Forall (fun r => has_terminals r = true) (rules p).

Lemma can_produce_ok : forall fuel g n p, in_order g -> no_false g -> all_flagged g -> In (n, p) (productions g) -> removable p = true ->
  (length (productions g) <= fuel)%nat ->
  exists g', can_produce_terminal fuel g n = Ok (true, g') /\ cached_only g g' /\ no_false g'.
Proof.
  intros fuel g n p I NF AF Hp Hr Hf. unfold can_produce_terminal. rewrite (get_prod_in g n p (io_names g I) Hp). cbn [bind].
  destruct (NF n p Hp) as [E|E]; rewrite E; [|exists g; split; [reflexivity|]; split; [apply cached_refl|assumption]].
  set (sel := filter _ (productions g)). set (queue := map fst sel).
  assert (Q : In n queue).
  { apply in_map_iff. exists (n, p). split; [reflexivity|]. apply filter_In. split; [assumption|]. cbn. rewrite E.
    destruct (AF n p Hp Hr) as (A & B). destruct (rules p) as [|r rs]; [congruence|]. inversion B; subst. cbn. rewrite H1. reflexivity. }
  destruct (marks_ok queue g (io_names g I)) as (C1 & M1). set (g1 := fold_left mark queue g) in *.
  assert (I1 : in_order g1).
  { pose proof (cached_names _ _ C1) as Nm. destruct C1 as [Cu Ce]. pose proof (cached_rules g g1 (conj Cu Ce)) as R. constructor.
    - fold (names g1). rewrite Nm. apply I.
    - intros k body m A B. fold (names g1). rewrite Nm. apply R in A. eapply (io_closed g I); eassumption.
    - intros k body m A B. rewrite Cu. apply R in A. eapply (io_used g I); eassumption.
    - intros k m A. fold (names g1). rewrite Nm. rewrite Cu in A. eapply (io_users g I); exact A.
    - intros k m A B. rewrite Cu in A. destruct (io_exact g I k m A B) as (body & C & D). exists body. rewrite R. auto.
    - intro m. rewrite Cu. apply I.
    - intros k q A. destruct (cached_in g g1 (conj Cu Ce) k q A) as (q' & B & C & _). rewrite <- C. eapply (io_rules g I); exact B. }
  destruct (propagate_ok fuel g1 (rev queue) (map (rules_of g) queue) I1) as (g2 & -> & C2 & M2).
  { rewrite rev_length. unfold todo_count. rewrite (cached_names _ _ C1).
    assert (L : (length queue + length (filter (fun k => negb (visited_in g1 (map (rules_of g) queue) k)) (names g))
                 <= length (filter (fun _ => true) (names g)))%nat).
    { apply count_less.
      - unfold queue, sel. apply nodup_filter_map. apply I.
      - intros x A. apply in_map_iff in A. destruct A as ([k q] & <- & A). apply filter_In in A. eapply in_names. apply A.
      - intros x A. split; [reflexivity|]. rewrite (cached_visited g g1 _ _ C1), (visited_self g queue x A). reflexivity.
      - reflexivity. }
    assert (F : forall l : list N, filter (fun _ => true) l = l) by (induction l as [|x l IHl]; cbn; [reflexivity|rewrite IHl; reflexivity]).
    rewrite F in L. unfold names in L at 2. rewrite map_length in L. lia. }
  cbn [bind]. assert (C : cached_only g g2) by (eapply cached_trans; eassumption).
  assert (N2 : In n (names g2)) by (rewrite (cached_names _ _ C); eapply in_names; exact Hp).
  destruct (get_prod_names g2 n N2) as (p2 & -> & Hp2). cbn [bind].
  assert (T : cpt p2 = Some true).
  { destruct (M2 n p2 Hp2) as [A|A]; [assumption|]. destruct (M1 n p2 A) as [[_ B]|[_ B]]; [assumption|contradiction]. }
  rewrite T. exists g2. split; [reflexivity|]. split; [assumption|]. intros k q A.
  destruct (M2 k q A) as [B|B]; [auto|]. destruct (M1 k q B) as [[_ D]|[D _]]; [auto|]. eapply NF; exact D.
Qed.
Lemma cached_in_order : forall g g', in_order g -> cached_only g g' -> in_order g'.
Proof.
  intros g g1 I C1. pose proof (cached_names _ _ C1) as Nm. destruct C1 as [Cu Ce]. pose proof (cached_rules g g1 (conj Cu Ce)) as R. constructor.
  - fold (names g1). rewrite Nm. apply I.
  - intros k body m A B. fold (names g1). rewrite Nm. apply R in A. eapply (io_closed g I); eassumption.
  - intros k body m A B. rewrite Cu. apply R in A. eapply (io_used g I); eassumption.
  - intros k m A. fold (names g1). rewrite Nm. rewrite Cu in A. eapply (io_users g I); exact A.
  - intros k m A B. rewrite Cu in A. destruct (io_exact g I k m A B) as (body & C & D). exists body. rewrite R. auto.
  - intro m. rewrite Cu. apply I.
  - intros k q A. destruct (cached_in g g1 (conj Cu Ce) k q A) as (q' & B & C & _). rewrite <- C. eapply (io_rules g I); exact B.
Qed.
Lemma empty_loop_ok : forall fuel l g m, in_order g -> no_false g -> all_flagged g -> (forall n, In n l -> In n (names g)) ->
  (length (productions g) <= fuel)%nat ->
  exists g', empty_loop fuel g m l = Ok (g', m) /\ cached_only g g'.
Proof.
  intros fuel l. induction l as [|n l IH]; intros g m I NF AF Hl Hf; cbn [empty_loop].
  - exists g. split; [reflexivity|apply cached_refl].
  - unfold simplify_empty. destruct (get_prod_names g n (Hl n (or_introl eq_refl))) as (p & -> & Hp). cbn [bind].
    destruct (removable p) eqn:Er.
    + destruct (can_produce_ok fuel g n p I NF AF Hp Er Hf) as (g1 & -> & C1 & NF1). cbn [bind].
      destruct (IH g1 m) as (g2 & -> & C2).
      * eapply cached_in_order; eassumption.
      * assumption.
      * intros k q A B. destruct (cached_in g g1 C1 k q A) as (q' & D & E & F). rewrite <- E. apply (AF k q'); [assumption|congruence].
      * intros k A. rewrite (cached_names _ _ C1). apply Hl. right. assumption.
      * destruct C1 as [_ E]. apply (f_equal (@length _)) in E. rewrite !map_length in E. lia.
      * exists g2. split; [reflexivity|]. eapply cached_trans; eassumption.
    + cbn [bind]. apply IH; auto. intros k A. apply Hl. right. assumption.
Qed.

(** ** The whole of simplify *)
Lemma language_rules : forall g g', (forall n body, rule_of g' n body <-> rule_of g n body) ->
  forall n w, language g n w <-> language g' n w.
Proof. intros g g' R n w. split; apply derives_mono; intros; apply R; assumption. Qed.
Lemma productive_rules : forall g n p, productive g -> NoDup (names g) -> In (n, p) (productions g) -> rules p <> [].
Proof.
  intros g n p Hp ND H E. destruct (Hp n) as (w & A); [eapply in_names; exact H|]. apply derives_name in A.
  destruct A as (body & A & _). apply (rule_of_in g n p) in A; auto. rewrite E in A. contradiction.
Qed.
Lemma simplify_ok : forall fuel g, in_order g -> productive g -> fresh g ->
  (forall n p, In (n, p) (productions g) -> removable p = true ->
     (length (rules p) <= 1)%nat \/ forall r, In r (rules p) -> has_terminal (sequence r)) ->
  (length (productions g) <= fuel)%nat ->
  exists g' m, grammar_simplify fuel g = Ok (g', m) /\ in_order g' /\
    (forall n p, In (n, p) (productions g) -> removable p = false -> In n (names g')) /\
    (forall n w, In n (names g') -> (language g n w <-> language g' n w)).
Proof.
  intros fuel g I Hp Fr Hq Hf. unfold grammar_simplify.
  destruct (trivial_loop_ok (names g) g false I Hp (io_names g I) (fun n H => H)) as (g1 & m1 & E1 & I1 & Hp1 & V1 & _ & S1 & D1 & F1).
  unfold names in E1. rewrite E1. cbn [bind].
  assert (NF : no_false g1).
  { intros n p A. destruct (V1 _ _ A) as (q & B & C). left. rewrite (ev_cpt _ _ C). apply (Fr n q B). }
  assert (AF : all_flagged g1).
  { intros n p A B. split; [eapply productive_rules; eauto|]. apply (F1 n p); auto.
    - eapply evo_names; [exact V1|]. eapply in_names; exact A.
    - intros q C D. destruct (Hq n q C D) as [L|L]; [left; assumption|right]. apply Forall_forall. intros r Hr.
      apply (Fr n q C); auto. }
  destruct (empty_loop_ok fuel (map fst (productions g1)) g1 m1 I1 NF AF (fun n H => H)) as (g2 & E2 & C2).
  { assert (L : (length (names g1) <= length (names g))%nat).
    { apply NoDup_incl_length; [auto|]. intros x Hx. eapply evo_names; eassumption. }
    unfold names in L. rewrite !map_length in L. lia. }
  exists g2, m1. split; [exact E2|]. split; [eapply cached_in_order; eassumption|]. split.
  - intros n p A B. rewrite (cached_names _ _ C2). eapply S1; eassumption.
  - intros n w A. rewrite (cached_names _ _ C2) in A. rewrite (D1 n w A). apply language_rules. apply cached_rules. assumption.
Qed.

(** ** The second loop when it drops nothing *)
Lemma mark_names : forall g n, names (mark g n) = names g.
Proof. intros. unfold mark. destruct (find_prod _ _); [apply put_names|reflexivity]. Qed.
Lemma marks_names : forall l g, names (fold_left mark l g) = names g.
Proof. induction l as [|n l IH]; intro g; cbn; [reflexivity|]. rewrite IH. apply mark_names. Qed.
Lemma propagate_names : forall fuel g queue visited g', propagate fuel g queue visited = Ok g' -> names g' = names g.
Proof.
  induction fuel as [|f IH]; intros g [|n q] v g' H; cbn [propagate] in H; try discriminate; try (inversion H; reflexivity).
  destruct (forallb _ _); [|discriminate]. apply IH in H. rewrite H. apply marks_names.
Qed.
Lemma can_produce_names : forall fuel g n b g', can_produce_terminal fuel g n = Ok (b, g') -> names g' = names g.
Proof.
  intros fuel g n b g' H. unfold can_produce_terminal in H. destruct (get_prod g n) as [p| | |]; try discriminate. cbn [bind] in H.
  destruct (cpt p); [inversion H; reflexivity|].
  set (queue := map fst _) in H. destruct (propagate _ _ _ _) as [g1| | |] eqn:E; try discriminate. cbn [bind] in H.
  apply propagate_names in E. rewrite marks_names in E.
  destruct (get_prod g1 n) as [p1| | |]; try discriminate. cbn [bind] in H.
  destruct (cpt p1); inversion H; subst; [assumption|]. rewrite put_names. assumption.
Qed.
Lemma can_produce_cached : forall fuel g n b g', in_order g -> can_produce_terminal fuel g n = Ok (b, g') -> cached_only g g'.
Proof.
  intros fuel g n b g' I H. unfold can_produce_terminal in H. destruct (get_prod g n) as [p| | |]; try discriminate. cbn [bind] in H.
  destruct (cpt p); [inversion H; apply cached_refl|].
  set (queue := map fst _) in H. destruct (marks_ok queue g (io_names g I)) as (C1 & _).
  assert (G : forall fuel g queue visited g', in_order g -> propagate fuel g queue visited = Ok g' -> cached_only g g').
  { clear. induction fuel as [|f IH]; intros g [|n q] v g' I H; cbn [propagate] in H; try discriminate; try (inversion H; apply cached_refl).
    destruct (forallb _ _); [|discriminate]. set (new := filter _ _) in H.
    destruct (marks_ok new g (io_names g I)) as (C1 & _). eapply cached_trans; [exact C1|].
    eapply IH; [|exact H]. eapply cached_in_order; eassumption. }
  destruct (propagate _ _ _ _) as [g1| | |] eqn:E; try discriminate. cbn [bind] in H.
  apply G in E; [|eapply cached_in_order; eassumption].
  assert (C : cached_only g g1) by (eapply cached_trans; eassumption).
  destruct (get_prod g1 n) as [p1| | |] eqn:Ep; try discriminate. cbn [bind] in H.
  destruct (cpt p1); inversion H; subst; [assumption|]. eapply cached_trans; [exact C|]. apply cached_put.
  - rewrite (cached_names _ _ C). apply I.
  - unfold get_prod in Ep. destruct (find_prod (productions g1) n) eqn:F; inversion Ep; subst. apply find_some_in. assumption.
Qed.
Lemma remove_sub_names : forall g u n g', remove_sub_production g u n = Ok g' -> names g' = names g.
Proof.
  intros g u n g' H. unfold remove_sub_production in H. destruct (get_prod g u); try discriminate. cbn [bind] in H.
  destruct (name_in _ _); inversion H. apply put_names.
Qed.
Lemma remove_users_names : forall l g n g', remove_users g l n = Ok g' -> names g' = names g.
Proof.
  induction l as [|u l IH]; intros g n g' H; cbn [remove_users] in H; [inversion H; reflexivity|].
  destruct (u =? n); cbn [bind] in H; [apply IH in H; assumption|].
  destruct (remove_sub_production g u n) eqn:E; try discriminate. cbn [bind] in H. apply IH in H. rewrite H. eapply remove_sub_names; exact E.
Qed.
Lemma remove_names : forall g n g', grammar_remove g n = Ok (g', true) -> ~ In n (names g') /\ forall k, In k (names g') -> In k (names g).
Proof.
  intros g n g' H. unfold grammar_remove in H. destruct (find_prod _ _); [|inversion H].
  set (g1 := mkGrammar _ _) in H. destruct (remove_users _ _ _) as [g2| | |] eqn:E; try discriminate. cbn [bind] in H.
  apply remove_users_names in E. inversion H; subst. clear H. unfold names in *. cbn [productions] in *. split.
  - intro A. apply in_map_iff in A. destruct A as ([k q] & B & C). apply filter_In in C. cbn in *. subst. rewrite N.eqb_refl in C. destruct C; discriminate.
  - intros k A. apply in_map_iff in A. destruct A as ([j q] & B & C). apply filter_In in C. cbn in *. subst. fold (names g).
    change (productions g1) with (productions g) in E. unfold names. rewrite <- E. apply in_map_iff. exists (k, q). tauto.
Qed.
Lemma simplify_empty_names : forall fuel g m n g' m', simplify_empty fuel g m n = Ok (g', m') -> forall k, In k (names g') -> In k (names g).
Proof.
  intros fuel g m n g' m' H k A. unfold simplify_empty in H. destruct (get_prod g n) as [p| | |]; try discriminate. cbn [bind] in H.
  destruct (removable p); [|inversion H; subst; assumption].
  destruct (can_produce_terminal fuel g n) as [[b g1]| | |] eqn:E; try discriminate. cbn [bind] in H.
  pose proof (can_produce_names _ _ _ _ _ E) as Nm. destruct b; [inversion H; subst; rewrite <- Nm; assumption|].
  destruct (grammar_remove g1 n) as [[g2 b]| | |] eqn:F; try discriminate. cbn [bind] in H. destruct b; inversion H; subst.
  rewrite <- Nm. eapply remove_names; eassumption.
Qed.
Lemma empty_loop_names : forall fuel l g m g' m', empty_loop fuel g m l = Ok (g', m') -> forall k, In k (names g') -> In k (names g).
Proof.
  intros fuel l. induction l as [|n l IH]; intros g m g' m' H k A; cbn [empty_loop] in H; [inversion H; subst; assumption|].
  destruct (simplify_empty fuel g m n) as [[g1 m1]| | |] eqn:E; try discriminate. cbn [bind] in H.
  eapply simplify_empty_names; [exact E|]. eapply IH; eassumption.
Qed.
Lemma empty_loop_kept : forall fuel l g m g' m', in_order g -> (forall n, In n l -> In n (names g)) ->
  empty_loop fuel g m l = Ok (g', m') -> (forall n, In n (names g) -> In n (names g')) -> cached_only g g'.
Proof.
  intros fuel l. induction l as [|n l IH]; intros g m g' m' I Hl H K; cbn [empty_loop] in H; [inversion H; apply cached_refl|].
  destruct (simplify_empty fuel g m n) as [[g1 m1]| | |] eqn:E; try discriminate. cbn [bind] in H.
  unfold simplify_empty in E. destruct (get_prod g n) as [p| | |]; try discriminate. cbn [bind] in E.
  assert (Hl' : forall k, In k l -> In k (names g)) by (intros; apply Hl; right; assumption).
  destruct (removable p); [|inversion E; subst; eapply IH; eassumption].
  destruct (can_produce_terminal fuel g n) as [[b g2]| | |] eqn:F; try discriminate. cbn [bind] in E.
  pose proof (can_produce_cached _ _ _ _ _ I F) as C. pose proof (cached_names _ _ C) as Nm. destruct b.
  - inversion E; subst. eapply cached_trans; [exact C|]. eapply IH; [eapply cached_in_order; eassumption| |exact H|].
    + intros k A. rewrite Nm. auto.
    + intros k A. rewrite Nm in A. auto.
  - exfalso. destruct (grammar_remove g2 n) as [[g3 b]| | |] eqn:G; try discriminate. cbn [bind] in E. destruct b; inversion E; subst.
    apply (proj1 (remove_names _ _ _ G)). eapply empty_loop_names; [exact H|]. apply K. apply Hl. left. reflexivity.
Qed.
(** Whatever the grammar: if the second loop drops nothing, nothing changes. *)
Lemma simplify_kept : forall fuel g g' m, in_order g -> productive g -> grammar_simplify fuel g = Ok (g', m) ->
  (forall g1 m1, trivial_loop g false (map fst (productions g)) = Ok (g1, m1) -> forall n, In n (names g1) -> In n (names g')) ->
  in_order g' /\ forall n w, In n (names g') -> (language g n w <-> language g' n w).
Proof.
  intros fuel g g' m I Hp H K. unfold grammar_simplify in H.
  destruct (trivial_loop_ok (names g) g false I Hp (io_names g I) (fun n H => H)) as (g1 & m1 & E1 & I1 & _ & _ & _ & _ & D1 & _).
  unfold names in E1. rewrite E1 in H. cbn [bind] in H.
  pose proof (empty_loop_kept fuel _ g1 m1 g' m I1 (fun n H => H) H (K g1 m1 E1)) as C.
  split; [eapply cached_in_order; eassumption|]. intros n w A. rewrite (cached_names _ _ C) in A. rewrite (D1 n w A).
  apply language_rules. apply cached_rules. assumption.
Qed.
