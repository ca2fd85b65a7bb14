(** Proofs about the Earley parser. *)
From Coq Require Import NArith ZArith List Bool Lia Arith.
From Verif Require Import M_Base M_PyGrammar M_PyEarley S_Grammar S_Earley P_Grammar P_GrammarSimplify.
Import ListNotations.
Open Scope N_scope.

(** ** can_produce_terminal answers True *)
Definition marked (g : grammar) (n : N) : Prop := exists p, In (n, p) (productions g) /\ cpt p = Some true.
Definition flags_right (g : grammar) : Prop := forall n p, In (n, p) (productions g) ->
  forall r, In r (rules p) -> (has_terminals r = true <-> has_terminal (sequence r)).
(** A production with a rule with a terminal, or with a rule that names such a production. *)
Inductive reaches (g : grammar) : N -> Prop :=
| reaches_here : forall n body, rule_of g n body -> has_terminal body -> reaches g n
| reaches_there : forall n body m, rule_of g n body -> In (NonTerminal m) body -> reaches g m -> reaches g n.
Definition answers (g : grammar) : Prop :=
  in_order g /\ ((forall n p, In (n, p) (productions g) -> cpt p = Some true) \/
                 ((forall n p, In (n, p) (productions g) -> cpt p = None) /\ flags_right g /\ forall n, In n (names g) -> reaches g n)).

Lemma bytes_reaches : forall g s w, derives (rule_of g) s w -> w <> [] ->
  has_terminal s \/ exists m, In (NonTerminal m) s /\ reaches g m.
Proof.
  intros g s w H. induction H as [|b s w H IH|n body s v w HR H1 IH1 H2 IH2]; intro Hw; [congruence| |].
  - left. exists b. left. reflexivity.
  - destruct v as [|x v].
    + destruct IH2 as [(b & A)|(m & A & B)]; [exact Hw| |].
      * left. exists b. right. assumption.
      * right. exists m. split; [right; assumption|assumption].
    + right. exists n. split; [left; reflexivity|]. destruct IH1 as [A|(m & A & B)]; [discriminate| |].
      * eapply reaches_here; eassumption.
      * eapply reaches_there; eassumption.
Qed.
Lemma fresh_answers : forall g, in_order g -> fresh g -> produces_bytes g -> answers g.
Proof.
  intros g I F P. split; [assumption|]. right. split; [intros n p A; apply (F n p A)|]. split; [intros n p A; apply (F n p A)|].
  intros n Hn. destruct (P n Hn) as (w & Hw & D). apply derives_name in D. destruct D as (body & A & D).
  destruct (bytes_reaches g body w D Hw) as [B|(m & B & C)]; [eapply reaches_here; eassumption|eapply reaches_there; eassumption].
Qed.

Lemma rules_eqb_iff : forall a b, rules_eqb a b = true <-> (forall s, In s (map sequence a) <-> In s (map sequence b)).
Proof.
  intros a b. unfold rules_eqb. rewrite andb_true_iff, !forallb_forall. split.
  - intros [A B] s. split; intro H; apply in_map_iff in H; destruct H as (r & <- & H); apply rule_in_iff; auto.
  - intro H. split; intros r A; apply rule_in_iff; apply H; apply in_map; assumption.
Qed.
Lemma rules_of_in : forall g n body, NoDup (names g) -> (In body (map sequence (rules_of g n)) <-> rule_of g n body).
Proof.
  intros g n body ND. unfold rules_of. destruct (find_prod (productions g) n) as [p|] eqn:E.
  - apply find_some_in in E. split.
    + intro H. apply in_map_iff in H. destruct H as (r & A & B). exists p, r. auto.
    + intros (q & r & A & B & C). assert (q = p) by (eapply prod_unique; eassumption). subst. apply in_map. assumption.
  - split; [contradiction|]. intros (q & r & A & _). apply find_none in E. apply E. apply in_map_iff. exists (n, q). auto.
Qed.
Lemma prod_eqb_iff : forall g n m, NoDup (names g) -> (prod_eqb g n m = true <-> same_rules g n m).
Proof.
  intros g n m ND. unfold prod_eqb. rewrite rules_eqb_iff. split; intros H body.
  - rewrite <- !(rules_of_in g) by assumption. apply H.
  - rewrite !(rules_of_in g) by assumption. apply H.
Qed.
Lemma visited_iff : forall g l n, NoDup (names g) ->
  (visited_in g (map (rules_of g) l) n = true <-> exists m, In m l /\ same_rules g n m).
Proof.
  intros g l n ND. unfold visited_in. rewrite existsb_exists. split.
  - intros (x & A & B). apply in_map_iff in A. destruct A as (m & <- & A). exists m. split; [assumption|].
    apply prod_eqb_iff; assumption.
  - intros (m & A & B). exists (rules_of g m). split; [apply in_map; assumption|]. apply (prod_eqb_iff g n m); assumption.
Qed.
Lemma marks_marked : forall l g n, NoDup (names g) -> marked g n -> marked (fold_left mark l g) n.
Proof.
  intros l g n ND (p & A & B). destruct (marks_ok l g ND) as (C & M).
  assert (Hn : In n (names (fold_left mark l g))) by (rewrite (cached_names _ _ C); eapply in_names; exact A).
  destruct (get_prod_names _ _ Hn) as (q & _ & Hq). exists q. split; [assumption|].
  destruct (M n q Hq) as [[_ D]|[D _]]; [assumption|]. rewrite (prod_unique g n q p ND D A). assumption.
Qed.
Lemma marks_new : forall l g n, NoDup (names g) -> In n l -> In n (names g) -> marked (fold_left mark l g) n.
Proof.
  intros l g n ND Hl Hn. destruct (marks_ok l g ND) as (C & M).
  assert (Hn' : In n (names (fold_left mark l g))) by (rewrite (cached_names _ _ C); assumption).
  destruct (get_prod_names _ _ Hn') as (q & _ & Hq). exists q. split; [assumption|].
  destruct (M n q Hq) as [[_ D]|[_ D]]; [assumption|contradiction].
Qed.
Lemma same_rules_cached : forall g g' n m, cached_only g g' -> same_rules g n m -> same_rules g' n m.
Proof. intros g g' n m C H body. rewrite !(cached_rules g g' C). apply H. Qed.

Lemma propagate_marks : forall fuel g queue visited g', in_order g ->
  propagate fuel g queue visited = Ok g' ->
  (forall n, In n queue -> visited_in g visited n = true) ->
  (forall n, In n (names g) -> visited_in g visited n = true -> marked g n) ->
  (forall n u, marked g n -> ~ In n queue -> In u (used_by g n) -> marked g u) ->
  (forall n, marked g n -> marked g' n) /\
  (forall n u, marked g' n -> In u (used_by g n) -> marked g' u).
Proof.
  induction fuel as [|f IH]; intros g queue visited g' I H Ha Hb Hc.
  - destruct queue as [|n rest]; cbn in H; [|discriminate]. inversion H; subst. split; [auto|]. intros; eapply Hc; eauto.
  - destruct queue as [|n rest]; cbn [propagate] in H; [inversion H; subst; split; [auto|intros; eapply Hc; eauto]|].
    destruct (forallb (has_prod g) (used_by g n)); [|discriminate].
    set (new := filter (fun u => negb (visited_in g visited u)) (used_by g n)) in *.
    pose proof (io_names g I) as ND. fold (names g) in ND.
    destruct (marks_ok new g ND) as (C1 & M1). set (g1 := fold_left mark new g) in *.
    assert (U1 : used_by g1 = used_by g) by apply C1.
    assert (Rl : map (rules_of g) new = map (rules_of g1) new) by (apply map_ext; intro; symmetry; apply cached_rules_of; assumption).
    assert (ND1 : NoDup (names g1)) by (rewrite (cached_names _ _ C1); assumption).
    assert (K : forall u, marked g u -> marked g1 u) by (intros u Hu; apply marks_marked; assumption).
    assert (Un : forall u, In u (used_by g n) -> marked g1 u).
    { intros u Hu. pose proof (io_users g I u n Hu) as Hun. destruct (visited_in g visited u) eqn:E.
      - apply K. apply Hb; assumption.
      - apply marks_new; [assumption| |assumption]. apply filter_In. rewrite E. auto. }
    apply IH in H.
    + destruct H as (A & B). split; [intros; apply A, K; assumption|]. intros m u. rewrite <- U1. apply B.
    + eapply cached_in_order; eassumption.
    + intros m A. rewrite (cached_visited g g1 _ _ C1), visited_app. apply orb_true_iff. apply in_app_iff in A. destruct A as [A|A].
      * right. apply visited_self. apply in_rev. assumption.
      * left. apply Ha. right. assumption.
    + intros m Hm A. rewrite (cached_names _ _ C1) in Hm. rewrite (cached_visited g g1 _ _ C1), visited_app in A. apply orb_true_iff in A.
      destruct A as [A|A]; [apply K, Hb; assumption|]. apply visited_iff in A; [|assumption]. destruct A as (u & A & S).
      apply filter_In in A. destruct A as [A B]. apply negb_true_iff in B.
      assert (Hun : u <> n). { intros ->. rewrite (Ha n (or_introl eq_refl)) in B. discriminate. }
      destruct (io_exact g I u n A Hun) as (body & D & E). apply Un. eapply (io_used g I); [apply S; exact D|exact E].
    + intros m u A B D. rewrite U1 in D. destruct (N.eq_dec m n) as [->|Hmn]; [apply Un; assumption|].
      assert (Hm : marked g m).
      { destruct A as (p & A & E). destruct (M1 m p A) as [[F _]|[F _]]; [|exists p; auto].
        exfalso. apply B. apply in_app_iff. left. apply in_rev. rewrite rev_involutive. assumption. }
      apply K. apply (Hc m u); [assumption| |assumption]. intros [F|F]; [congruence|]. apply B. apply in_app_iff. auto.
Qed.
Lemma answers_true : forall fuel g n b g', answers g -> can_produce_terminal fuel g n = Ok (b, g') ->
  b = true /\ cached_only g g' /\ answers g'.
Proof.
  intros fuel g n b g' [I A] H. pose proof (can_produce_cached _ _ _ _ _ I H) as C.
  pose proof (cached_in_order g g' I C) as I'. unfold can_produce_terminal in H.
  destruct (get_prod g n) as [p| | |] eqn:Ep; try discriminate. cbn [bind] in H.
  assert (Hp : In (n, p) (productions g)).
  { unfold get_prod in Ep. destruct (find_prod (productions g) n) eqn:F; inversion Ep; subst. apply find_some_in. assumption. }
  destruct A as [A|(A & Fl & Re)].
  - rewrite (A n p Hp) in H. inversion H; subst. split; [reflexivity|]. split; [apply cached_refl|]. split; [assumption|left; assumption].
  - rewrite (A n p Hp) in H. set (queue := map fst _) in H. pose proof (io_names g I) as ND. fold (names g) in ND.
    destruct (marks_ok queue g ND) as (C1 & M1). set (g1 := fold_left mark queue g) in *.
    destruct (propagate _ _ _ _) as [g2| | |] eqn:E; try discriminate. cbn [bind] in H.
    assert (ND1 : NoDup (names g1)) by (rewrite (cached_names _ _ C1); assumption).
    assert (I1 : in_order g1) by exact (cached_in_order g g1 I C1).
    assert (Qi : forall k, In k queue <-> exists body, rule_of g k body /\ has_terminal body).
    { intro k. unfold queue. rewrite in_map_iff. split.
      - intros ([j q] & B & D). cbn in B. subst j. apply filter_In in D. destruct D as [D F]. cbn in F. destruct (cpt q); [discriminate|].
        apply existsb_exists in F. destruct F as (r & F & G). exists (sequence r). split; [exists q, r; auto|]. apply (Fl k q D r F). assumption.
      - intros (body & (q & r & B & D & <-) & F). exists (k, q). split; [reflexivity|]. apply filter_In. split; [assumption|]. cbn.
        rewrite (A k q B). apply existsb_exists. exists r. split; [assumption|]. apply (Fl k q B r D). assumption. }
    assert (Rl : map (rules_of g) queue = map (rules_of g1) queue) by (apply map_ext; intro; symmetry; apply cached_rules_of; assumption).
    assert (Pm : (forall k, marked g1 k -> marked g2 k) /\ (forall k u, marked g2 k -> In u (used_by g1 k) -> marked g2 u)).
    { apply (propagate_marks _ _ _ _ _ I1 E).
      - intros k B. rewrite Rl. apply visited_self. apply in_rev. assumption.
      - intros k B D. rewrite Rl in D. apply visited_iff in D; [|assumption]. destruct D as (m & D & S).
        rewrite (cached_names _ _ C1) in B. apply marks_new; [assumption| |assumption].
        apply Qi. apply Qi in D. destruct D as (body & D & F). exists body. split; [|assumption].
        apply (cached_rules g g1 C1). apply S. apply (cached_rules g g1 C1). assumption.
      - intros k u (q & B & D) F. exfalso. apply F. apply in_rev. rewrite rev_involutive.
        destruct (M1 k q B) as [[G _]|[G _]]; [assumption|]. rewrite (A k q G) in D. discriminate. }
    destruct Pm as [Pm1 Pm2].
    assert (Al : forall k, reaches g k -> marked g2 k).
    { intros k R. induction R as [k body B D|k body m B D R IHR].
      - apply Pm1. apply marks_new; [assumption|apply Qi; eauto|eapply rule_of_names; exact B].
      - apply (Pm2 m k IHR). destruct C1 as [-> _]. eapply (io_used g I); eassumption. }
    assert (G2 : in_order g2 /\ names g2 = names g).
    { assert (Gp : forall fuel g queue visited g', in_order g -> propagate fuel g queue visited = Ok g' -> cached_only g g').
      { clear. induction fuel as [|f IH]; intros g [|n q] v g' I H; cbn [propagate] in H; try discriminate; try (inversion H; apply cached_refl).
        destruct (forallb _ _); [|discriminate]. set (new := filter _ _) in H.
        destruct (marks_ok new g (io_names g I)) as (C1 & _). eapply cached_trans; [exact C1|].
        eapply IH; [|exact H]. eapply cached_in_order; eassumption. }
      apply Gp in E; [|assumption]. split; [exact (cached_in_order g1 g2 I1 E)|]. rewrite (cached_names _ _ E), (cached_names _ _ C1). reflexivity. }
    destruct G2 as [I2 Nm2].
    assert (All : forall k q, In (k, q) (productions g2) -> cpt q = Some true).
    { intros k q B. assert (Hk : In k (names g)) by (rewrite <- Nm2; eapply in_names; exact B).
      destruct (Al k (Re k Hk)) as (q' & D & F). rewrite (prod_unique g2 k q q' (io_names g2 I2) B D). assumption. }
    destruct (get_prod g2 n) as [p1| | |] eqn:Ep1; try discriminate. cbn [bind] in H.
    assert (Hp1 : In (n, p1) (productions g2)).
    { unfold get_prod in Ep1. destruct (find_prod (productions g2) n) eqn:F; inversion Ep1; subst. apply find_some_in. assumption. }
    rewrite (All n p1 Hp1) in H. inversion H; subst. split; [reflexivity|]. split; [assumption|]. split; [assumption|left; assumption].
Qed.
Lemma can_produce_total : forall fuel g n, in_order g -> In n (names g) -> (length (productions g) <= fuel)%nat ->
  exists r, can_produce_terminal fuel g n = Ok r.
Proof.
  intros fuel g n I Hn Hf. unfold can_produce_terminal. destruct (get_prod_names g n Hn) as (p & -> & Hp). cbn [bind].
  destruct (cpt p) as [b|]; [eauto|]. set (sel := filter _ (productions g)). set (queue := map fst sel).
  destruct (marks_ok queue g (io_names g I)) as (C1 & M1). set (g1 := fold_left mark queue g) in *.
  pose proof (cached_in_order g g1 I C1) as I1.
  destruct (propagate_ok fuel g1 (rev queue) (map (rules_of g) queue) I1) as (g2 & -> & C2 & M2).
  { rewrite rev_length. unfold todo_count. rewrite (cached_names _ _ C1).
    assert (L : (length queue + length (filter (fun k => negb (visited_in g1 (map (rules_of g) queue) k)) (names g))
                 <= length (filter (fun _ => true) (names g)))%nat).
    { apply count_less.
      - unfold queue, sel. apply nodup_filter_map. apply I.
      - intros x A. apply in_map_iff in A. destruct A as ([k q] & <- & A). apply filter_In in A. eapply in_names. apply A.
      - intros x A. split; [reflexivity|]. rewrite (cached_visited g g1 _ _ C1), (visited_self g queue x A). reflexivity.
      - reflexivity. }
    assert (F : forall l : list N, filter (fun _ => true) l = l) by (induction l as [|x l IHl]; cbn; [reflexivity|rewrite IHl; reflexivity]).
    rewrite F in L. unfold names in L at 2. rewrite map_length in L. lia. }
  cbn [bind]. assert (C : cached_only g g2) by (eapply cached_trans; eassumption).
  assert (N2 : In n (names g2)) by (rewrite (cached_names _ _ C); assumption).
  destruct (get_prod_names g2 n N2) as (p2 & -> & Hp2). cbn [bind]. destruct (cpt p2); eauto.
Qed.

(** ** Parts of the sentence *)
Definition sub (w : list N) (i k : N) : list N := firstn (N.to_nat (k - i)) (skipn (N.to_nat i) w).
Lemma sub_nil : forall w i, sub w i i = [].
Proof. intros. unfold sub. rewrite N.sub_diag. reflexivity. Qed.
Lemma firstn_skipn_app : forall (A : Type) (l : list A) a b, firstn (a + b) l = firstn a l ++ firstn b (skipn a l).
Proof.
  intros A l a. revert l. induction a as [|a IH]; intros l b; cbn; [reflexivity|]. destruct l as [|x l]; cbn; [destruct b; reflexivity|].
  rewrite IH. reflexivity.
Qed.
Lemma skipn_add : forall (A : Type) (l : list A) a b, skipn (a + b) l = skipn b (skipn a l).
Proof. intros A l a. revert l. induction a as [|a IH]; intros l b; cbn; [reflexivity|]. destruct l; cbn; [destruct b; reflexivity|apply IH]. Qed.
Lemma sub_app : forall w i j k, i <= j -> j <= k -> sub w i k = sub w i j ++ sub w j k.
Proof.
  intros w i j k A B. unfold sub. replace (N.to_nat (k - i)) with (N.to_nat (j - i) + N.to_nat (k - j))%nat by lia.
  rewrite firstn_skipn_app, <- skipn_add. replace (N.to_nat i + N.to_nat (j - i))%nat with (N.to_nat j) by lia. reflexivity.
Qed.
Lemma len_length : forall (A : Type) (l : list A), N.to_nat (len l) = length l.
Proof. intros. unfold len. apply Nnat.Nat2N.id. Qed.
Lemma sub_all : forall w, sub w 0 (len w) = w.
Proof. intros. unfold sub. rewrite N.sub_0_r, len_length. cbn. apply firstn_all. Qed.
Lemma sub_len : forall w i k, i <= k -> k <= len w -> len (sub w i k) = k - i.
Proof.
  intros w i k A B. unfold len, sub. rewrite firstn_length, skipn_length. pose proof (len_length _ w). unfold len in *. lia.
Qed.
Lemma starts_with_iff : forall t s, starts_with s t = true <-> firstn (length t) s = t.
Proof.
  induction t as [|y t IH]; intro s; [destruct s; cbn; split; reflexivity|]. destruct s as [|x s]; cbn; [split; discriminate|].
  rewrite andb_true_iff, N.eqb_eq, IH. split; [intros [-> ->]; reflexivity|]. intro H. inversion H. rewrite H2. auto.
Qed.
Lemma starts_sub : forall w k t, k <= len w -> (starts_with (skipn (N.to_nat k) w) t = true <-> k + len t <= len w /\ sub w k (k + len t) = t).
Proof.
  intros w k t Hk. rewrite starts_with_iff. unfold sub. replace (N.to_nat (k + len t - k)) with (length t) by (rewrite <- (len_length _ t); lia).
  split; [|tauto]. intro H. split; [|assumption]. apply (f_equal (@length _)) in H. rewrite firstn_length, skipn_length in H.
  pose proof (len_length _ t). pose proof (len_length _ w). lia.
Qed.

(** ** Every state is justified *)
Section Sound.
Variable g0 : grammar.
Variable w : list N.
(** Whether to follow that states of the start begin at 0. *)
Variable strict : Prop.
Hypothesis unused : strict -> start_unused g0.

Record sound_at (k : N) (s : estate) : Prop := {
  sd_index : index s <= k;
  sd_end : k <= len w;
  sd_rule : rule_of g0 (pname s) (prule s);
  sd_word : exists pre, prule s = pre ++ expected s /\ derives (rule_of g0) pre (sub w (index s) k);
  sd_start : strict -> index s = 0 \/ ~ same_rules g0 (pname s) START;
}.
Record sound (p : parser) : Prop := {
  so_cached : cached_only g0 (pg p);
  so_answers : answers (pg p);
  so_sentence : sentence p = w;
  so_states : nstates p = len w + 1;
  so_queue : forall k s, In s (queue (charts p k)) -> sound_at k s;
  so_waiting : forall k n s, In s (waiting_for (charts p k) n) -> sound_at k s /\ exists r, expected s = NonTerminal n :: r;
  so_completed : forall k n d js j, In (d, js) (already_completed (charts p k) n) -> In j js ->
    sound_at j d /\ expected d = [] /\ index d = k /\ pname d = n;
  so_nonempty : forall k n d js, In (d, js) (already_completed (charts p k) n) -> js <> [];
}.

Lemma find_state_some : forall g s l x, find_state g s l = Some x -> In x l /\ estate_eqb g x s = true.
Proof.
  intros g s l. induction l as [|y l IH]; intros x H; cbn in H; [discriminate|]. destruct (estate_eqb g y s) eqn:E.
  - inversion H; subst. split; [left; reflexivity|assumption].
  - destruct (IH x H). split; [right; assumption|assumption].
Qed.
Lemma in_add_state : forall g l s x, In x (add_state g l s) -> In x l \/ x = s.
Proof.
  intros g l s x H. unfold add_state in H. destruct (find_state g s l); [auto|]. apply in_app_iff in H. destruct H as [H|[H|[]]]; auto.
Qed.
Lemma completion_sound : forall k i s d n r, sound_at i s -> expected s = NonTerminal n :: r ->
  sound_at k d -> expected d = [] -> index d = i -> pname d = n -> sound_at k (completion s d).
Proof.
  intros k i s d n r A E B F G H. destruct A as [A1 A2 A3 (pre & A4 & A5) A6]. destruct B as [B1 B2 B3 (pre' & B4 & B5) B6].
  rewrite F, app_nil_r in B4. subst pre' n i. constructor; cbn [completion index pname prule expected]; try assumption.
  - lia.
  - exists (pre ++ [NonTerminal (pname d)]). split; [rewrite A4, E, <- app_assoc; reflexivity|].
    rewrite (sub_app w (index s) (index d) k) by assumption. apply derives_app; [assumption|].
    apply derives_name. exists (prule d). auto.
Qed.
Lemma set_chart_sound : forall p k c, sound p ->
  (forall s, In s (queue c) -> sound_at k s) ->
  (forall n s, In s (waiting_for c n) -> sound_at k s /\ exists r, expected s = NonTerminal n :: r) ->
  (forall n d js j, In (d, js) (already_completed c n) -> In j js -> sound_at j d /\ expected d = [] /\ index d = k /\ pname d = n) ->
  (forall n d js, In (d, js) (already_completed c n) -> js <> []) ->
  sound (set_chart p k c).
Proof.
  intros p k c [S1 S2 S3 S4 S5 S6 S7 S8] H1 H2 H3 H4. constructor; cbn [set_chart pg sentence nstates charts]; try assumption.
  - intros j s. destruct (N.eqb_spec j k) as [->|]; auto.
  - intros j n s. destruct (N.eqb_spec j k) as [->|]; auto.
  - intros j n d js i. destruct (N.eqb_spec j k) as [->|]; [apply H3|apply S7].
  - intros j n d js. destruct (N.eqb_spec j k) as [->|]; [apply H4|apply S8].
Qed.
Lemma upd_name_in : forall (A : Type) (f : N -> list A) n v x y, In y (upd_name f n v x) -> (x = n /\ In y v) \/ In y (f x).
Proof. intros A f n v x y H. unfold upd_name in H. destruct (N.eqb_spec x n) as [->|]; auto. Qed.
Lemma add_sound : forall fuel p k s p', sound p -> sound_at k s -> add fuel p k s = Ok p' -> sound p'.
Proof.
  induction fuel as [|f IH]; intros p k s p' S Hs H; [discriminate|]. cbn [add] in H.
  destruct (k <? nstates p); [|discriminate].
  set (s1 := match find_state (pg p) s (queue (charts p k)) with Some x => x | None => s end) in *.
  assert (S1 : sound_at k s1).
  { unfold s1. destruct (find_state _ _ _) as [x|] eqn:E; [|assumption]. apply find_state_some in E. eapply so_queue; [exact S|apply E]. }
  assert (Q : forall x, In x (add_state (pg p) (queue (charts p k)) s) -> sound_at k x).
  { intros x A. apply in_add_state in A. destruct A as [A| ->]; [eapply so_queue; eassumption|assumption]. }
  destruct (expected s1) as [|[t|n] r] eqn:Ee.
  - inversion H; subst. apply set_chart_sound; [assumption|exact Q|apply (so_waiting p S)|apply (so_completed p S)|apply (so_nonempty p S)].
  - inversion H; subst. apply set_chart_sound; [assumption|exact Q|apply (so_waiting p S)|apply (so_completed p S)|apply (so_nonempty p S)].
  - cbn [queue waiting_for already_completed] in H. revert H.
    set (p2 := set_chart p k _). assert (S2 : sound p2).
    { apply set_chart_sound; [assumption|exact Q| |apply (so_completed p S)|apply (so_nonempty p S)]. cbn [waiting_for]. intros m x A.
      apply upd_name_in in A. destruct A as [[-> A]|A]; [|apply (so_waiting p S k m x A)].
      apply in_add_state in A. destruct A as [A| ->]; [apply (so_waiting p S k n x A)|]. split; [assumption|eauto]. }
    set (l := concat _).
    assert (L : forall d j, In (d, j) l -> sound_at j d /\ expected d = [] /\ index d = k /\ pname d = n).
    { intros d j A. unfold l in A. apply in_concat in A. destruct A as (x & A & B). apply in_map_iff in A. destruct A as ([d' js] & <- & A).
      apply in_map_iff in B. destruct B as (j' & B & C). inversion B; subst. eapply (so_completed p S); eassumption. }
    clearbody l p2. revert p2 S2 L. induction l as [|[d j] l IHl]; intros p2 S2 L H; cbn [fold_left] in H; [inversion H; subst; assumption|].
    cbn [bind fst snd] in H. destruct (add f p2 j (completion s1 d)) as [q| | |] eqn:Ea.
    + apply (IHl q); [|intros; apply L; right; assumption|exact H]. eapply (IH p2); [assumption| |exact Ea].
      destruct (L d j (or_introl eq_refl)) as (A & B & C & D). eapply completion_sound; eassumption.
    + exfalso. revert H. clear. induction l as [|x l IHl]; cbn; [discriminate|assumption].
    + exfalso. revert H. clear. induction l as [|x l IHl]; cbn; [discriminate|assumption].
    + exfalso. revert H. clear. induction l as [|x l IHl]; cbn; [discriminate|assumption].
Qed.
Lemma prediction_sound : forall k n body, k <= len w -> rule_of g0 n body -> (strict -> k = 0 \/ ~ same_rules g0 n START) ->
  sound_at k (mkState KPrediction n body k [] body k).
Proof.
  intros k n body Hk R H. constructor; cbn; try assumption; [lia|]. exists []. split; [reflexivity|]. rewrite sub_nil. constructor.
Qed.
Lemma predictions_sound : forall rs fuel p k n p', sound p -> k <= len w -> (strict -> k = 0 \/ ~ same_rules g0 n START) ->
  (forall r, In r rs -> rule_of g0 n (sequence r)) -> add_predictions fuel p k n rs = Ok p' -> sound p'.
Proof.
  induction rs as [|r rs IH]; intros fuel p k n p' S Hk Hn Hr H; cbn [add_predictions] in H; [inversion H; subst; assumption|].
  destruct (add fuel p k _) as [p1| | |] eqn:E; try discriminate. cbn [bind] in H.
  eapply IH; [|exact Hk|exact Hn|intros; apply Hr; right; assumption|exact H].
  eapply add_sound; [exact S| |exact E]. apply prediction_sound; [assumption|apply Hr; left; reflexivity|assumption].
Qed.
Lemma pg_sound : forall p g1 l, sound p -> cached_only (pg p) g1 -> answers g1 ->
  sound (mkParser g1 (sentence p) (nstates p) (charts p) l).
Proof.
  intros p g1 l [S1 S2 S3 S4 S5 S6 S7 S8] C A. constructor; cbn; try assumption. eapply cached_trans; eassumption.
Qed.
Lemma predict_sound : forall fuel p k s n r p', sound p -> sound_at k s -> expected s = NonTerminal n :: r ->
  predict fuel p k s n = Ok p' -> sound p'.
Proof.
  intros fuel p k s n r p' S Hs He H. unfold predict in H.
  destruct (get_prod (pg p) n) as [pr| | |] eqn:Ep; try discriminate. cbn [bind] in H.
  destruct (can_produce_terminal fuel (pg p) n) as [[b g1]| | |] eqn:Ec; try discriminate. cbn [bind] in H.
  destruct (answers_true _ _ _ _ _ (so_answers p S) Ec) as (-> & C & A).
  eapply predictions_sound; [|apply (sd_end k s Hs)| | |exact H].
  - apply pg_sound; assumption.
  - intro St. right. destruct Hs as [_ _ R (pre & E & _) _]. eapply (unused St); [exact R|]. rewrite E, He. apply in_app_iff. right. left. reflexivity.
  - intros x Hx. apply (cached_rules g0 (pg p) (so_cached p S)). exists pr, x. split; [|auto].
    unfold get_prod in Ep. destruct (find_prod (productions (pg p)) n) eqn:F; inversion Ep; subst. apply find_some_in. assumption.
Qed.
Lemma scan_sound : forall fuel p k s t r p', sound p -> sound_at k s -> expected s = Terminal t :: r ->
  scan fuel p k s t = Ok p' -> sound p'.
Proof.
  intros fuel p k s t r p' S Hs He H. unfold scan in H. rewrite (so_sentence p S) in H.
  destruct (starts_with _ _) eqn:Es; [|inversion H; subst; assumption].
  apply starts_sub in Es; [|apply Hs]. destruct Es as [El Ew].
  destruct (add fuel p _ _) as [p1| | |] eqn:Ea; try discriminate. cbn [bind] in H. inversion H; subst.
  apply add_sound in Ea; [apply pg_sound; [exact Ea|apply cached_refl|apply Ea]|assumption|].
  destruct Hs as [A1 A2 A3 (pre & A4 & A5) A6]. constructor; cbn; try assumption; [lia|].
  exists (pre ++ [Terminal t]). split; [rewrite A4, He, <- app_assoc; reflexivity|].
  rewrite (sub_app w (index s) k) by lia. rewrite Ew. apply derives_app; [assumption|]. rewrite <- (app_nil_r t) at 2. repeat constructor.
Qed.
Lemma in_add_completed : forall g l d k x js, In (x, js) (add_completed g l d k) ->
  forall j, In j js -> (exists js', In (x, js') l /\ In j js') \/ (j = k /\ (x = d \/ estate_eqb g x d = true /\ exists js', In (x, js') l)).
Proof.
  intros g l d k. induction l as [|[y ys] l IH]; intros x js H j Hj; cbn [add_completed] in H.
  - destruct H as [H|[]]. inversion H; subst. destruct Hj as [<-|[]]. auto.
  - destruct (estate_eqb g y d) eqn:E.
    + destruct H as [H|H]; [inversion H; subst|left; exists js; split; [right; assumption|assumption]].
      apply in_add_name in Hj. destruct Hj as [Hj| ->]; [left; exists ys; split; [left; reflexivity|assumption]|].
      right. split; [reflexivity|]. right. split; [assumption|]. exists ys. left. reflexivity.
    + destruct H as [H|H]; [inversion H; subst; left; exists js; split; [left; reflexivity|assumption]|].
      destruct (IH x js H j Hj) as [(js' & A & B)|(A & [B|[B (js' & C)]])].
      * left. exists js'. split; [right; assumption|assumption].
      * right. auto.
      * right. split; [assumption|]. right. split; [assumption|]. exists js'. right. assumption.
Qed.
Lemma estate_eqb_parts : forall g a b, estate_eqb g a b = true ->
  index a = index b /\ expected a = expected b /\ prule a = prule b /\ parsed a = parsed b /\ porigin a = porigin b.
Proof.
  intros g a b H. unfold estate_eqb in H. repeat (apply andb_true_iff in H; destruct H as [H ?]).
  repeat match goal with A : seq_eqb _ _ = true |- _ => apply seq_eqb_eq in A | A : (_ =? _) = true |- _ => apply N.eqb_eq in A end. auto.
Qed.
Lemma complete_loop_sound : forall ws fuel p k d size p', sound p -> sound_at k d -> expected d = [] ->
  (forall s, In s ws -> sound_at (index d) s /\ exists r, expected s = NonTerminal (pname d) :: r) ->
  complete_loop fuel p k d size ws = Ok p' -> sound p'.
Proof.
  induction ws as [|s ws IH]; intros fuel p k d size p' S Hd He Hw H; cbn [complete_loop] in H; [inversion H; subst; assumption|].
  destruct (add fuel p k _) as [p1| | |] eqn:Ea; try discriminate. cbn [bind] in H.
  destruct (Nat.eqb _ _); [|discriminate]. eapply IH; [|exact Hd|exact He|intros; apply Hw; right; assumption|exact H].
  eapply add_sound; [exact S| |exact Ea]. destruct (Hw s (or_introl eq_refl)) as (A & r & B). eapply completion_sound; eauto.
Qed.
Lemma add_completed_nonempty : forall g l d k, (forall x js, In (x, js) l -> js <> []) -> forall x js, In (x, js) (add_completed g l d k) -> js <> [].
Proof.
  intros g l d k. induction l as [|[y ys] l IH]; intros Hl x js H; cbn [add_completed] in H.
  - destruct H as [H|[]]. inversion H. discriminate.
  - destruct (estate_eqb g y d).
    + destruct H as [H|H]; [inversion H; subst|apply (Hl x js); right; assumption].
      intro E. assert (A : In k (add_name ys k)) by (apply in_add_name; auto). rewrite E in A. destruct A.
    + destruct H as [H|H]; [apply (Hl x js); left; assumption|]. eapply IH; [|exact H]. intros; apply (Hl x0 js0); right; assumption.
Qed.
Lemma complete_sound : forall fuel p k d p', sound p -> sound_at k d -> expected d = [] -> complete fuel p k d = Ok p' -> sound p'.
Proof.
  intros fuel p k d p' S Hd He H. unfold complete in H. cbn [waiting_for] in H.
  eapply complete_loop_sound; [|exact Hd|exact He| |exact H].
  - apply set_chart_sound; [assumption|apply (so_queue p S)|apply (so_waiting p S)| |]; cbn [already_completed].
    + intros n x js j A B.
      apply upd_name_in in A. destruct A as [[-> A]|A]; [|eapply (so_completed p S); eassumption].
      destruct (in_add_completed _ _ _ _ _ _ A j B) as [(js' & C & D)|(-> & [->|[C (js' & D)]])].
      * eapply (so_completed p S); eassumption.
      * auto.
      * apply estate_eqb_parts in C. destruct C as (C1 & C2 & C3 & _ & _).
        pose proof (so_nonempty p S _ _ _ _ D) as Ne. destruct js' as [|j' js']; [congruence|].
        destruct (so_completed p S _ _ _ _ j' D (or_introl eq_refl)) as (F1 & F2 & F3 & F4).
        split; [|auto]. destruct F1 as [G1 G2 G3 G4 G5]. destruct Hd as [K1 K2 K3 (pre & K4 & K5) K6].
        constructor; try assumption; [congruence|]. exists (prule x). split; [rewrite F2, app_nil_r; reflexivity|].
        rewrite He, app_nil_r in K4. rewrite C3, K4, C1. assumption.
    + intros n x js A. apply upd_name_in in A. destruct A as [[-> A]|A]; [|eapply (so_nonempty p S); eassumption].
      eapply add_completed_nonempty; [|exact A]. intros; eapply (so_nonempty p S); eassumption.
  - intros s A. apply (so_waiting p S (index d) (pname d) s A).
Qed.
Lemma process_sound : forall fuel p k s p', sound p -> sound_at k s -> process fuel p k s = Ok p' -> sound p'.
Proof.
  intros fuel p k s p' S Hs H. unfold process in H. destruct (expected s) as [|[t|n] r] eqn:E.
  - eapply complete_sound; eassumption.
  - eapply scan_sound; eassumption.
  - destruct (kind s); try (eapply predict_sound; eassumption). destruct (parsed s); [eapply predict_sound; eassumption|].
    inversion H; subst; assumption.
Qed.
Lemma chart_loop_sound : forall fuel p k i p', sound p -> chart_loop fuel p k i = Ok p' -> sound p'.
Proof.
  induction fuel as [|f IH]; intros p k i p' S H; [discriminate|]. cbn [chart_loop] in H.
  destruct (nth_error (queue (charts p k)) i) as [s|] eqn:E; [|inversion H; subst; assumption].
  destruct (process (Datatypes.S f) p k s) as [p1| | |] eqn:Ep; try discriminate. cbn [bind] in H.
  eapply IH; [|exact H]. eapply process_sound; [exact S| |exact Ep]. eapply so_queue; [exact S|]. eapply nth_error_In; exact E.
Qed.
Lemma parse_loop_sound : forall ks fuel p p', sound p -> parse_loop fuel p ks = Ok p' -> sound p'.
Proof.
  induction ks as [|k ks IH]; intros fuel p p' S H; cbn [parse_loop] in H; [inversion H; subst; assumption|].
  destruct (k <? nstates p); [|discriminate]. destruct (chart_loop fuel p k 0) as [p1| | |] eqn:E; try discriminate. cbn [bind] in H.
  eapply IH; [|exact H]. eapply chart_loop_sound; eassumption.
Qed.
Lemma new_sound : answers g0 -> sound (parser_new g0 w (len w)).
Proof.
  intro A. constructor; cbn; try contradiction; try reflexivity; [apply cached_refl|assumption].
Qed.
End Sound.

Lemma match_sound : forall fuel g w, answers g -> start_unused g ->
  match_bool fuel g w (len w) = Ok true -> accepts g w.
Proof.
  intros fuel g w A U H. unfold match_bool in H. destruct (get_prod g START) as [st| | |] eqn:Es; try discriminate. cbn [bind] in H.
  assert (Hs : In (START, st) (productions g)).
  { unfold get_prod in Es. destruct (find_prod (productions g) START) eqn:F; inversion Es; subst. apply find_some_in. assumption. }
  destruct (add_predictions _ _ _ _ _) as [p0| | |] eqn:E0; try discriminate. cbn [bind] in H.
  destruct (parse_loop _ _ _) as [p1| | |] eqn:E1; try discriminate. cbn [bind] in H.
  destruct (_ <? _)%Z; [discriminate|]. inversion H as [H']. clear H. apply existsb_exists in H'. destruct H' as (s & B & C).
  assert (S1 : sound g w True p1).
  { eapply parse_loop_sound; [intros _; exact U| |exact E1]. eapply predictions_sound; [apply new_sound; exact A| | | |exact E0].
    - lia.
    - intros _. left. reflexivity.
    - intros r Hr. exists st, r. auto. }
  rewrite (so_states g w True p1 S1) in B. replace (len w + 1 - 1) with (len w) in B by lia.
  destruct (so_queue g w True p1 S1 _ _ B) as [F1 F2 F3 (pre & F4 & F5) F6]. destruct (expected s) eqn:Ee; [|discriminate].
  rewrite app_nil_r in F4. subst pre. apply prod_eqb_iff in C; [|apply (so_answers g w True p1 S1)].
  assert (SR : same_rules g (pname s) START).
  { intro body. rewrite <- !(cached_rules g (pg p1) (so_cached g w True p1 S1)). apply C. }
  destruct (F6 Logic.I) as [F6'|F6']; [|contradiction]. rewrite F6', sub_all in F5.
  apply derives_name. exists (prule s). split; [|assumption]. apply SR. assumption.
Qed.
