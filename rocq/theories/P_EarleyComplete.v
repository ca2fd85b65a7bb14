(** Proofs that the Earley parser ends and finds every match, for grammars without empty rules. *)
From Coq Require Import NArith ZArith List Bool Lia Arith.
From Verif Require Import M_Base P_Base M_PyGrammar M_PyEarley S_Grammar S_Earley P_Grammar P_GrammarSimplify P_PyEarley.
Import ListNotations.
Open Scope N_scope.

Lemma nonempty_derives : forall (R : N -> list symbol -> Prop), (forall n body, R n body -> body <> [] /\ ~ In (Terminal []) body) ->
  forall s w, derives R s w -> s <> [] -> ~ In (Terminal []) s -> w <> [].
Proof.
  intros R HR s w H. induction H as [|b s w H IH|n body s v w Hn H1 IH1 H2 IH2]; intros A B; [congruence| |].
  - destruct b as [|x b]; [exfalso; apply B; left; reflexivity|discriminate].
  - destruct (HR n body Hn) as [C D]. specialize (IH1 C D). destruct v; [congruence|discriminate].
Qed.

(** Lists over an alphabet. *)
Fixpoint lists {A} (l : list A) (n : nat) : list (list A) :=
  match n with
  | O => [[]]
  | S m => [] :: concat (map (fun a => map (cons a) (lists l m)) l)
  end.
Lemma in_lists : forall (A : Type) (l : list A) n x, Forall (fun a => In a l) x -> (length x <= n)%nat -> In x (lists l n).
Proof.
  intros A l. induction n as [|n IH]; intros x H Hl.
  - destruct x; [left; reflexivity|cbn in Hl; lia].
  - destruct x as [|a x]; [left; reflexivity|]. right. inversion H; subst. apply in_concat. exists (map (cons a) (lists l n)). split.
    + apply in_map_iff. exists a. auto.
    + apply in_map. apply IH; [assumption|cbn in Hl; lia].
Qed.
Fixpoint suffixes {A} (l : list A) : list (list A) := l :: match l with [] => [] | _ :: r => suffixes r end.
Lemma in_suffixes : forall (A : Type) (a b : list A), In b (suffixes (a ++ b)).
Proof. induction a as [|x a IH]; intro b; cbn; [destruct b; left; reflexivity|right; apply IH]. Qed.

Section Complete.
Variable g0 : grammar.
Variable w : list N.
Hypothesis order : in_order g0.
Hypothesis nonempty : nonempty_rules g0.
Hypothesis distinct : distinct_productions g0.

Definition bodies : list (list symbol) := concat (map (fun q => map sequence (rules (snd q))) (productions g0)).
Definition letters : list symbol := concat bodies.
Lemma in_bodies : forall n body, rule_of g0 n body -> In body bodies.
Proof.
  intros n body (p & r & A & B & <-). unfold bodies. apply in_concat. exists (map sequence (rules p)). split; [|apply in_map; assumption].
  apply in_map_iff. exists (n, p). auto.
Qed.
Lemma in_letters : forall n body x, rule_of g0 n body -> In x body -> In x letters.
Proof. intros n body x A B. apply in_concat. exists body. split; [eapply in_bodies; exact A|assumption]. Qed.
Lemma letter_nonempty : ~ In (Terminal []) letters.
Proof.
  intro H. apply in_concat in H. destruct H as (body & A & B). apply in_concat in A. destruct A as (l & A & C).
  apply in_map_iff in A. destruct A as ([n p] & <- & A). apply in_map_iff in C. destruct C as (r & D & C).
  assert (R : rule_of g0 n body) by (exists p, r; auto). apply (nonempty n body R). assumption.
Qed.

Definition kind_ok (s : estate) : Prop :=
  match kind s with
  | KPrediction => parsed s = []
  | KScanned t => In (Terminal t) letters
  | KCompletion => True
  | KEmpty _ => False
  end.
Record good (m : N) (s : estate) : Prop := {
  gd_sound : sound_at g0 w False m s;
  gd_kind : kind_ok s;
  gd_origin : porigin s = index s;
  gd_parsed : exists ts, parsed s = map Terminal ts /\ Forall (fun t => In (Terminal t) letters) ts /\ len (concat ts) = m - index s;
}.

(** Finitely many states. *)
Definition kinds : list ekind :=
  KPrediction :: KCompletion :: map (fun x => match x with Terminal t => KScanned t | NonTerminal _ => KCompletion end) letters.
Definition universe : list estate :=
  map (fun x : ekind * (N * (list symbol * (N * (list symbol * list symbol)))) =>
         let '(k, (n, (b, (i, (ps, e))))) := x in mkState k n b i ps e i)
      (list_prod kinds (list_prod (names g0) (list_prod bodies (list_prod (nseq 0 (S (length w)))
         (list_prod (lists letters (length w)) (concat (map suffixes bodies))))))).
Lemma parts_short : forall ts, Forall (fun t => In (Terminal t) letters) ts -> (length ts <= length (concat ts))%nat.
Proof.
  induction ts as [|t ts IH]; intro H; cbn; [lia|]. inversion H; subst. rewrite app_length. specialize (IH H3).
  destruct t as [|x t]; [exfalso; apply letter_nonempty; assumption|cbn; lia].
Qed.
Lemma in_universe : forall m s, good m s -> In s universe.
Proof.
  intros m [k n b o ps e i] [[A1 A2 A3 (pre & A4 & A5) A6] Hk Ho (ts & B1 & B2 & B3)].
  cbn [pname prule index expected porigin parsed kind] in *. subst o.
  unfold universe. apply in_map_iff. exists (k, (n, (b, (i, (ps, e))))). split; [reflexivity|].
  apply in_prod; [|apply in_prod; [|apply in_prod; [|apply in_prod; [|apply in_prod]]]].
  - unfold kinds, kind_ok in *. cbn [kind parsed] in Hk. destruct k as [|t| |]; [left; reflexivity| |right; left; reflexivity|contradiction].
    right. right. apply in_map_iff. exists (Terminal t). auto.
  - eapply rule_of_names; exact A3.
  - eapply in_bodies; exact A3.
  - apply in_nseq. pose proof (len_length _ w). lia.
  - subst ps. apply in_lists.
    + apply Forall_forall. intros x H. apply in_map_iff in H. destruct H as (t & <- & H). rewrite Forall_forall in B2. auto.
    + rewrite map_length. pose proof (parts_short ts B2). pose proof (len_length _ (concat ts)). pose proof (len_length _ w). lia.
  - subst b. apply in_concat. exists (suffixes (pre ++ e)). split; [|apply in_suffixes]. apply in_map. eapply in_bodies; exact A3.
Qed.

(** Equality of states. *)
Lemma good_eqb : forall g m j a b, cached_only g0 g -> good m a -> good j b -> estate_eqb g a b = true -> a = b.
Proof.
  intros g m j [k1 n1 b1 o1 p1 e1 i1] [k2 n2 b2 o2 p2 e2 i2] C [[_ _ A _ _] Ka _ _] [[_ _ B _ _] Kb _ _] H. unfold estate_eqb in H. cbn in *.
  repeat (apply andb_true_iff in H; destruct H as [H ?]).
  repeat match goal with X : seq_eqb _ _ = true |- _ => apply seq_eqb_eq in X | X : (_ =? _) = true |- _ => apply N.eqb_eq in X end. subst.
  assert (ND : NoDup (names g)) by (rewrite (cached_names _ _ C); apply (io_names g0 order)).
  match goal with X : prod_eqb _ _ _ = true |- _ => apply prod_eqb_iff in X; [rename X into SR|exact ND] end.
  assert (n1 = n2).
  { apply distinct; [eapply rule_of_names; exact A|eapply rule_of_names; exact B|]. intro body. rewrite <- !(cached_rules g0 g C). apply SR. }
  subst n2. f_equal. unfold kind_ok in *. cbn in *. destruct k1, k2; try discriminate; try contradiction; try reflexivity.
  apply blist_eqb_eq in H. congruence.
Qed.
Lemma blist_refl : forall l, blist_eqb l l = true.
Proof. intro. apply blist_eqb_eq. reflexivity. Qed.
Lemma seq_refl : forall l, seq_eqb l l = true.
Proof. intro. apply seq_eqb_eq. reflexivity. Qed.
Lemma good_refl : forall g m s, good m s -> estate_eqb g s s = true.
Proof.
  intros g m s [_ K _ _]. unfold estate_eqb, prod_eqb. rewrite !N.eqb_refl, !seq_refl, rules_eqb_refl, !andb_true_r.
  unfold kind_ok in K. destruct (kind s); cbn; try reflexivity; [apply blist_refl|contradiction].
Qed.
Lemma find_state_eq : forall g m s l, cached_only g0 g -> good m s -> (forall x, In x l -> good m x) ->
  (find_state g s l = Some s /\ In s l) \/ (find_state g s l = None /\ ~ In s l).
Proof.
  intros g m s l C Hs. induction l as [|x l IH]; intro Hl; cbn; [auto|]. destruct (estate_eqb g x s) eqn:E.
  - left. assert (x = s) by (eapply good_eqb; [exact C|apply Hl; left; reflexivity|exact Hs|exact E]). subst. auto.
  - destruct IH as [[A B]|[A B]]; [intros; apply Hl; right; assumption|left; auto|]. right. split; [assumption|].
    intros [D|D]; [|contradiction]. subst. rewrite (good_refl g m s Hs) in E. discriminate.
Qed.

Record base (k : N) (p : parser) : Prop := {
  ba_cached : cached_only g0 (pg p);
  ba_answers : answers (pg p);
  ba_sentence : sentence p = w;
  ba_states : nstates p = len w + 1;
  ba_good : forall m s, In s (queue (charts p m)) -> good m s;
  ba_wait : forall m s n r, In s (queue (charts p m)) -> expected s = NonTerminal n :: r -> In s (waiting_for (charts p m) n);
  ba_waiting : forall m n s, In s (waiting_for (charts p m) n) -> In s (queue (charts p m)) /\ exists r, expected s = NonTerminal n :: r;
  ba_done : forall m n, k <= m -> already_completed (charts p m) n = [];
  ba_nodup : forall m, NoDup (queue (charts p m));
}.
Record grows (k : N) (p p' : parser) : Prop := {
  gr_queue : forall m, exists l, queue (charts p' m) = queue (charts p m) ++ l;
  gr_waiting : forall m n, m < k -> waiting_for (charts p' m) n = waiting_for (charts p m) n;
}.
Lemma grows_refl : forall k p, grows k p p.
Proof. intros. split; [|reflexivity]. intro m. exists []. rewrite app_nil_r. reflexivity. Qed.
Lemma grows_trans : forall k a b c, grows k a b -> grows k b c -> grows k a c.
Proof.
  intros k a b c [A B] [C D]. split.
  - intro m. destruct (A m) as (l & E), (C m) as (l' & F). exists (l ++ l'). rewrite F, E, app_assoc. reflexivity.
  - intros m n H. rewrite D, B by assumption. reflexivity.
Qed.
Lemma grows_in : forall k p p' m s, grows k p p' -> In s (queue (charts p m)) -> In s (queue (charts p' m)).
Proof. intros k p p' m s [A _] H. destruct (A m) as (l & ->). apply in_app_iff. auto. Qed.

Lemma add_state_in : forall g m s l, cached_only g0 g -> good m s -> (forall x, In x l -> good m x) ->
  (forall x, In x (add_state g l s) <-> In x l \/ x = s) /\ (NoDup l -> NoDup (add_state g l s)) /\ exists r, add_state g l s = l ++ r.
Proof.
  intros g m s l C Hs Hl. unfold add_state. destruct (find_state_eq g m s l C Hs Hl) as [[-> A]|[-> A]].
  - split; [|split; [auto|exists []; rewrite app_nil_r; reflexivity]]. intro x. split; [auto|]. intros [B| ->]; assumption.
  - split; [|split; [|exists [s]; reflexivity]].
    + intro x. rewrite in_app_iff. cbn. split; [intros [B|[B|[]]]; auto|intros [B|B]; auto].
    + intro ND. apply nodup_app_one; assumption.
Qed.
Lemma add_base : forall f k p m s, base k p -> k <= m -> m <= len w -> good m s ->
  exists p', add (S f) p m s = Ok p' /\ base k p' /\ grows k p p' /\ In s (queue (charts p' m)) /\
    last_match p' = last_match p /\ (forall j, j <> m -> charts p' j = charts p j).
Proof.
  intros f k p m s B Hk Hm Hs. cbn [add]. rewrite (ba_states k p B).
  destruct (N.ltb_spec m (len w + 1)) as [_|]; [|lia].
  pose proof (ba_cached k p B) as C.
  assert (E1 : match find_state (pg p) s (queue (charts p m)) with Some x => x | None => s end = s).
  { destruct (find_state_eq (pg p) m s (queue (charts p m)) C Hs (ba_good k p B m)) as [[-> _]|[-> _]]; reflexivity. }
  rewrite E1. cbn [queue waiting_for already_completed].
  destruct (add_state_in (pg p) m s _ C Hs (ba_good k p B m)) as (Q1 & Q2 & r & Q3).
  set (wf := match expected s with NonTerminal n :: _ => upd_name (waiting_for (charts p m)) n (add_state (pg p) (waiting_for (charts p m) n) s) | _ => waiting_for (charts p m) end).
  set (c := mkChart (add_state (pg p) (queue (charts p m)) s) wf (already_completed (charts p m))).
  assert (Eq : (match expected s with
     | NonTerminal n :: _ =>
         fold_left (fun r dk => do q <- r; add f q (snd dk) (completion s (fst dk)))
           (concat (map (fun d => map (fun j => (fst d, j)) (snd d)) (already_completed (charts p m) n)))
           (Ok (set_chart p m (mkChart (add_state (pg p) (queue (charts p m)) s) (upd_name (waiting_for (charts p m)) n (add_state (pg p) (waiting_for (charts p m) n) s)) (already_completed (charts p m)))))
     | _ => Ok (set_chart p m (mkChart (add_state (pg p) (queue (charts p m)) s) (waiting_for (charts p m)) (already_completed (charts p m))))
     end) = Ok (set_chart p m c)).
  { unfold c, wf. destruct (expected s) as [|[t|n] e]; try reflexivity. rewrite (ba_done k p B m n Hk). reflexivity. }
  rewrite Eq. exists (set_chart p m c). split; [reflexivity|].
  assert (Wf : forall n x, In x (wf n) <-> In x (waiting_for (charts p m) n) \/ (x = s /\ exists e, expected s = NonTerminal n :: e)).
  { intros n x. unfold wf. destruct (expected s) as [|[t|n'] e] eqn:Ee.
    - split; [auto|]. intros [A|(_ & e & A)]; [assumption|discriminate].
    - split; [auto|]. intros [A|(_ & e' & A)]; [assumption|discriminate].
    - assert (Gw : forall y, In y (waiting_for (charts p m) n') -> good m y).
      { intros y Hy. apply (ba_good k p B). apply (ba_waiting k p B m n' y Hy). }
      destruct (add_state_in (pg p) m s (waiting_for (charts p m) n') C Hs Gw) as (W1 & _ & _).
      unfold upd_name. destruct (N.eqb_spec n n') as [->|D].
      + rewrite W1. split; [intros [A|A]; [auto|right; split; [assumption|eauto]]|]. intros [A|[A _]]; auto.
      + split; [auto|]. intros [A|(_ & e' & A)]; [assumption|congruence]. }
  split; [|split; [|split; [|split]]].
  - destruct B as [B1 B2 B3 B4 B5 B6 B7 B8 B9]. constructor; cbn [set_chart pg sentence nstates charts]; try assumption.
    + intros j x. destruct (N.eqb_spec j m) as [->|]; [|apply B5]. unfold c. cbn [queue]. rewrite Q1. intros [A| ->]; [apply B5; assumption|assumption].
    + intros j x n e. destruct (N.eqb_spec j m) as [->|]; [|apply B6]. unfold c. cbn [queue waiting_for]. rewrite Q1, Wf.
      intros [A| ->] F; [left; eapply B6; eassumption|right; eauto].
    + intros j n x. destruct (N.eqb_spec j m) as [->|]; [|apply B7]. unfold c. cbn [queue waiting_for]. rewrite Q1, Wf.
      intros [A|(-> & e & A)]; [|eauto]. destruct (B7 m n x A). auto.
    + intros j n Hj. destruct (N.eqb_spec j m) as [->|]; [|apply B8; assumption]. apply B8. assumption.
    + intro j. destruct (N.eqb_spec j m) as [->|]; [|apply B9]. apply Q2. apply B9.
  - constructor; cbn [set_chart charts].
    + intro j. destruct (N.eqb_spec j m) as [->|]; [|exists []; rewrite app_nil_r; reflexivity]. exists r. exact Q3.
    + intros j n Hj. destruct (N.eqb_spec j m) as [->|]; [lia|reflexivity].
  - cbn [set_chart charts]. rewrite N.eqb_refl. apply Q1. auto.
  - reflexivity.
  - intros j Hj. cbn [set_chart charts]. destruct (N.eqb_spec j m); [contradiction|reflexivity].
Qed.

Lemma len_app : forall (A : Type) (a b : list A), len (a ++ b) = len a + len b.
Proof. intros. unfold len. rewrite app_length. lia. Qed.
Lemma completion_good : forall k s d r, good (index d) s -> expected s = NonTerminal (pname d) :: r -> good k d -> expected d = [] ->
  good k (completion s d).
Proof.
  intros k s d r [S1 S2 S3 (ts & S4 & S5 & S6)] E [D1 D2 D3 (us & D4 & D5 & D6)] F. constructor.
  - eapply completion_sound; eauto.
  - exact I.
  - exact S3.
  - exists (ts ++ us). cbn [completion parsed index]. rewrite S4, D4, map_app. split; [reflexivity|]. split; [apply Forall_app; auto|].
    rewrite concat_app, len_app, S6, D6. pose proof (sd_index _ _ _ _ _ S1). pose proof (sd_index _ _ _ _ _ D1). lia.
Qed.
Lemma prediction_good : forall k n body, k <= len w -> rule_of g0 n body ->
  good k (mkState KPrediction n body k [] body k).
Proof.
  intros k n body Hk R. constructor; cbn; [apply prediction_sound; [assumption|assumption|contradiction]|reflexivity|reflexivity|].
  exists []. split; [reflexivity|]. split; [constructor|]. rewrite N.sub_diag. reflexivity.
Qed.
Lemma finished_before : forall k d, good k d -> expected d = [] -> index d < k.
Proof.
  intros k d [[A1 A2 A3 (pre & A4 & A5) A6] _ _ _] E. rewrite E, app_nil_r in A4. subst pre.
  destruct (nonempty _ _ A3) as [B C]. pose proof (nonempty_derives _ nonempty _ _ A5 B C) as D.
  destruct (N.eq_dec (index d) k) as [F|F]; [|lia]. rewrite F, sub_nil in D. congruence.
Qed.

Lemma complete_loop_base : forall ws f k p d size, base k p -> good k d -> expected d = [] -> k <= len w ->
  (forall s, In s ws -> good (index d) s /\ exists r, expected s = NonTerminal (pname d) :: r) ->
  size = length (waiting_for (charts p (index d)) (pname d)) ->
  exists p', complete_loop (S f) p k d size ws = Ok p' /\ base k p' /\ grows k p p' /\
    (forall s, In s ws -> In (completion s d) (queue (charts p' k))) /\
    last_match p' = last_match p /\ (forall j, j <> k -> charts p' j = charts p j).
Proof.
  induction ws as [|s ws IH]; intros f k p d size B Hd Hf Hk Hw Hs; cbn [complete_loop].
  - exists p. split; [reflexivity|]. split; [assumption|]. split; [apply grows_refl|]. split; [contradiction|]. auto.
  - destruct (Hw s (or_introl eq_refl)) as (Gs & r & Es).
    pose proof (completion_good k s d r Gs Es Hd Hf) as Gc.
    destruct (add_base f k p k (completion s d) B (N.le_refl k) Hk Gc) as (p1 & -> & B1 & G1 & I1 & L1 & O1). cbn [bind].
    pose proof (finished_before k d Hd Hf) as Hi. rewrite (O1 (index d)) by lia. rewrite <- Hs, Nat.eqb_refl.
    destruct (IH f k p1 d size B1 Hd Hf Hk) as (p2 & -> & B2 & G2 & I2 & L2 & O2).
    { intros; apply Hw; right; assumption. }
    { rewrite (O1 (index d)) by lia. assumption. }
    exists p2. split; [reflexivity|]. split; [assumption|]. split; [eapply grows_trans; eassumption|]. split; [|split].
    + intros x [->|A]; [eapply grows_in; eassumption|apply I2; assumption].
    + congruence.
    + intros j Hj. rewrite O2, O1 by assumption. reflexivity.
Qed.
Lemma complete_base : forall f k p d, base k p -> In d (queue (charts p k)) -> expected d = [] -> k <= len w ->
  exists p', complete (S f) p k d = Ok p' /\ base k p' /\ grows k p p' /\
    (forall s, In s (waiting_for (charts p (index d)) (pname d)) -> In (completion s d) (queue (charts p' k))) /\
    last_match p' = last_match p /\ (forall j, j <> k -> queue (charts p' j) = queue (charts p j)).
Proof.
  intros f k p d B Hd Hf Hk. unfold complete. cbn [waiting_for]. pose proof (ba_good k p B k d Hd) as Gd.
  pose proof (finished_before k d Gd Hf) as Hi.
  set (c1 := mkChart (queue (charts p (index d))) (waiting_for (charts p (index d))) _).
  assert (B0 : base k (set_chart p (index d) c1)).
  { destruct B as [B1 B2 B3 B4 B5 B6 B7 B8 B9]. constructor; cbn [set_chart pg sentence nstates charts]; try assumption.
    - intros j x. destruct (N.eqb_spec j (index d)) as [->|]; apply B5.
    - intros j x n e. destruct (N.eqb_spec j (index d)) as [->|]; apply B6.
    - intros j n x. destruct (N.eqb_spec j (index d)) as [->|]; apply B7.
    - intros j n Hj. destruct (N.eqb_spec j (index d)) as [->|]; [lia|apply B8; assumption].
    - intro j. destruct (N.eqb_spec j (index d)) as [->|]; apply B9. }
  destruct (complete_loop_base (waiting_for (charts p (index d)) (pname d)) f k (set_chart p (index d) c1) d
              (length (waiting_for (charts p (index d)) (pname d))) B0 Gd Hf Hk) as (p' & -> & B1 & G1 & I1 & L1 & O1).
  - intros s A. destruct (ba_waiting k p B _ _ _ A) as (C & D). split; [apply (ba_good k p B); assumption|assumption].
  - cbn [set_chart charts]. rewrite N.eqb_refl. reflexivity.
  - exists p'. split; [reflexivity|]. split; [assumption|]. split; [|split; [assumption|split; [assumption|]]].
    + eapply grows_trans; [|exact G1]. constructor; cbn [set_chart charts].
      * intro m. exists []. rewrite app_nil_r. destruct (N.eqb_spec m (index d)) as [->|]; reflexivity.
      * intros m n _. destruct (N.eqb_spec m (index d)) as [->|]; reflexivity.
    + intros j Hj. rewrite O1 by assumption. cbn [set_chart charts]. destruct (N.eqb_spec j (index d)) as [->|]; reflexivity.
Qed.
Lemma predictions_base : forall rs f k p n, base k p -> k <= len w ->
  (forall r, In r rs -> rule_of g0 n (sequence r)) ->
  exists p', add_predictions (S f) p k n rs = Ok p' /\ base k p' /\ grows k p p' /\
    (forall r, In r rs -> In (mkState KPrediction n (sequence r) k [] (sequence r) k) (queue (charts p' k))) /\
    last_match p' = last_match p /\ (forall j, j <> k -> charts p' j = charts p j).
Proof.
  induction rs as [|r rs IH]; intros f k p n B Hk Hr; cbn [add_predictions].
  - exists p. split; [reflexivity|]. split; [assumption|]. split; [apply grows_refl|]. split; [contradiction|]. auto.
  - pose proof (prediction_good k n (sequence r) Hk (Hr r (or_introl eq_refl))) as Gp.
    destruct (add_base f k p k _ B (N.le_refl k) Hk Gp) as (p1 & -> & B1 & G1 & I1 & L1 & O1). cbn [bind].
    destruct (IH f k p1 n B1 Hk) as (p2 & -> & B2 & G2 & I2 & L2 & O2).
    { intros; apply Hr; right; assumption. }
    exists p2. split; [reflexivity|]. split; [assumption|]. split; [eapply grows_trans; eassumption|]. split; [|split].
    + intros x [->|A]; [eapply grows_in; eassumption|apply I2; assumption].
    + congruence.
    + intros j Hj. rewrite O2, O1 by assumption. reflexivity.
Qed.
Lemma pg_base : forall k p g1 l, base k p -> cached_only (pg p) g1 -> answers g1 ->
  base k (mkParser g1 (sentence p) (nstates p) (charts p) l).
Proof.
  intros k p g1 l [B1 B2 B3 B4 B5 B6 B7 B8 B9] C A. constructor; cbn; try assumption. eapply cached_trans; eassumption.
Qed.
Lemma cached_length : forall g g', cached_only g g' -> length (productions g') = length (productions g).
Proof. intros g g' [_ E]. apply (f_equal (@length _)) in E. rewrite !map_length in E. assumption. Qed.
Lemma predict_base : forall f k p s n r, base k p -> In s (queue (charts p k)) -> expected s = NonTerminal n :: r -> k <= len w ->
  (length (productions g0) <= f)%nat ->
  exists p', predict (S f) p k s n = Ok p' /\ base k p' /\ grows k p p' /\
    (forall body, rule_of g0 n body -> In (mkState KPrediction n body k [] body k) (queue (charts p' k))) /\
    last_match p' = last_match p /\ (forall j, j <> k -> queue (charts p' j) = queue (charts p j)).
Proof.
  intros f k p s n r B Hs He Hk Hf. unfold predict. pose proof (ba_cached k p B) as C.
  destruct (ba_answers k p B) as [I0 _].
  pose proof (gd_sound _ _ (ba_good k p B k s Hs)) as Ss.
  assert (Hin : In (NonTerminal n) (prule s)).
  { destruct (sd_word _ _ _ _ _ Ss) as (pre & -> & _). rewrite He. apply in_app_iff. right. left. reflexivity. }
  assert (Hn : In n (names (pg p))).
  { rewrite (cached_names _ _ C). eapply (io_closed g0 order); [apply (sd_rule _ _ _ _ _ Ss)|exact Hin]. }
  destruct (get_prod_names (pg p) n Hn) as (pr & -> & Hp). cbn [bind].
  destruct (can_produce_total (S f) (pg p) n I0 Hn) as ([b g1] & Ec). { rewrite (cached_length _ _ C). lia. }
  rewrite Ec. cbn [bind]. destruct (answers_true _ _ _ _ _ (ba_answers k p B) Ec) as (-> & C1 & A1).
  destruct (predictions_base (rules pr) f k (mkParser g1 (sentence p) (nstates p) (charts p) (last_match p)) n) as (p' & -> & B1 & G1 & I1 & L1 & O1).
  - apply pg_base; assumption.
  - assumption.
  - intros x Hx. apply (cached_rules g0 (pg p) C). exists pr, x. auto.
  - exists p'. split; [reflexivity|]. split; [assumption|]. split; [|split; [|split]].
    + destruct G1 as [X Y]. constructor; [exact X|exact Y].
    + intros body R. apply (cached_rules g0 (pg p) C) in R. destruct R as (q & x & A & D & <-).
      apply I1. rewrite (prod_unique (pg p) n pr q (io_names (pg p) I0) Hp A). assumption.
    + exact L1.
    + intros j Hj. rewrite (O1 j Hj). reflexivity.
Qed.
Lemma scan_base : forall f k p s t r, base k p -> In s (queue (charts p k)) -> expected s = Terminal t :: r -> k <= len w ->
  exists p', scan (S f) p k s t = Ok p' /\ base k p' /\ grows k p p' /\
    (k + len t <= len w -> sub w k (k + len t) = t ->
       exists s', In s' (queue (charts p' (k + len t))) /\ pname s' = pname s /\ prule s' = prule s /\ index s' = index s /\ expected s' = r) /\
    (last_match p <= last_match p')%Z /\
    (forall j, queue (charts p' j) = queue (charts p j) \/ (k < j /\ (Z.of_N j - 1 <= last_match p')%Z)).
Proof.
  intros f k p s t r B Hs He Hk. unfold scan. rewrite (ba_sentence k p B). destruct (starts_with _ _) eqn:Es.
  - apply starts_sub in Es; [|assumption]. destruct Es as [El Ew].
    pose proof (ba_good k p B k s Hs) as Gs.
    assert (Tl : In (Terminal t) letters).
    { destruct Gs as [[A1 A2 A3 (pre & A4 & A5) A6] _ _ _]. eapply in_letters; [exact A3|]. rewrite A4, He. apply in_app_iff. right. left. reflexivity. }
    set (s' := mkState (KScanned t) (pname s) (prule s) (porigin s) (parsed s ++ [Terminal t]) (tl (expected s)) (index s)).
    assert (Gn : good (k + len t) s').
    { destruct Gs as [[A1 A2 A3 (pre & A4 & A5) A6] Hk' Ho (ts & P1 & P2 & P3)]. constructor; cbn.
      - constructor; cbn; try assumption; [lia|].
        exists (pre ++ [Terminal t]). split; [rewrite A4, He, <- app_assoc; reflexivity|].
        rewrite (sub_app w (index s) k) by lia. rewrite Ew. apply derives_app; [assumption|]. rewrite <- (app_nil_r t) at 2. repeat constructor.
      - exact Tl.
      - assumption.
      - exists (ts ++ [t]). rewrite P1, map_app. split; [reflexivity|]. split; [apply Forall_app; auto|].
        rewrite concat_app, len_app, P3. cbn. rewrite app_nil_r. lia. }
    assert (Kl : k <= k + len t) by lia.
    destruct (add_base f k p (k + len t) s' B Kl El Gn) as (p1 & -> & B1 & G1 & I1 & L1 & O1). cbn [bind].
    eexists. split; [reflexivity|]. split; [apply pg_base; [assumption|apply cached_refl|apply B1]|].
    split; [destruct G1 as [X Y]; constructor; [exact X|exact Y]|]. split; [|split].
    + intros _ _. exists s'. split; [exact I1|]. cbn. rewrite He. auto.
    + cbn [last_match]. lia.
    + intro j. cbn [charts last_match]. destruct (N.eq_dec j (k + len t)) as [->|D]; [right|left; rewrite O1 by assumption; reflexivity].
      assert (len t <> 0). { destruct t as [|x t]; [exfalso; apply letter_nonempty; assumption|unfold len; cbn; lia]. }
      split; [lia|]. lia.
  - exists p. split; [reflexivity|]. split; [assumption|]. split; [apply grows_refl|]. split; [|split; [lia|auto]].
    intros A D. assert (starts_with (skipn (N.to_nat k) w) t = true) by (apply starts_sub; auto). congruence.
Qed.

(** A state whose consequences are in the charts. *)
Definition closed (p : parser) (m : N) (s : estate) : Prop :=
  match expected s with
  | [] => forall x, In x (waiting_for (charts p (index s)) (pname s)) -> In (completion x s) (queue (charts p m))
  | NonTerminal n :: _ => forall body, rule_of g0 n body -> In (mkState KPrediction n body m [] body m) (queue (charts p m))
  | Terminal t :: r => m + len t <= len w -> sub w m (m + len t) = t ->
      exists s', In s' (queue (charts p (m + len t))) /\ pname s' = pname s /\ prule s' = prule s /\ index s' = index s /\ expected s' = r
  end.
Lemma closed_grows : forall k p p' m s, grows k p p' -> m <= k -> good m s -> closed p m s -> closed p' m s.
Proof.
  intros k p p' m s G Hm Hs H. unfold closed in *. destruct (expected s) as [|[t|n] r] eqn:E.
  - intros x A. pose proof (finished_before m s Hs E). rewrite (gr_waiting k p p' G) in A by lia. eapply grows_in; eauto.
  - intros A B. destruct (H A B) as (s' & C & D). exists s'. split; [eapply grows_in; eassumption|assumption].
  - intros body R. eapply grows_in; eauto.
Qed.
Record full (k : N) (i : nat) (p : parser) : Prop := {
  fu_base : base k p;
  fu_closed : forall m s, In s (queue (charts p m)) -> m < k \/ (m = k /\ In s (firstn i (queue (charts p k)))) -> closed p m s;
  fu_last : forall m, queue (charts p m) <> [] -> (Z.of_N m - 1 <= last_match p)%Z;
}.
Lemma firstn_app_le : forall (A : Type) (l r : list A) i, (i <= length l)%nat -> firstn i (l ++ r) = firstn i l.
Proof. intros. rewrite firstn_app. replace (i - length l)%nat with O by lia. cbn. apply app_nil_r. Qed.
Lemma firstn_nth : forall (A : Type) (l : list A) i x, nth_error l i = Some x -> firstn (S i) l = firstn i l ++ [x].
Proof.
  intros A l. induction l as [|y l IH]; intros [|i] x H; cbn in *; try discriminate; [congruence|]. rewrite (IH i x H) at 1. reflexivity.
Qed.
Lemma step_full : forall k i p p' s, full k i p -> nth_error (queue (charts p k)) i = Some s ->
  base k p' -> grows k p p' -> closed p' k s -> (last_match p <= last_match p')%Z ->
  (forall j, queue (charts p' j) = queue (charts p j) \/ j = k \/ (k < j /\ (Z.of_N j - 1 <= last_match p')%Z)) -> full k (S i) p'.
Proof.
  intros k i p p' s F Hs B G Cs Hl Hq. destruct F as [FB FC FL].
  destruct (gr_queue k p p' G k) as (l & El).
  assert (Li : (i < length (queue (charts p k)))%nat) by (apply nth_error_Some; congruence).
  constructor; [assumption| |].
  - intros m x Hx Hm.
    assert (Old : m < k \/ (m = k /\ (In x (firstn i (queue (charts p k))) \/ x = s))).
    { destruct Hm as [Hm|[Hm A]]; [auto|]. right. split; [assumption|]. rewrite El, firstn_app_le in A by lia.
      rewrite (firstn_nth _ _ _ _ Hs) in A. apply in_app_iff in A. destruct A as [A|[A|[]]]; auto. }
    destruct Old as [Hk|(-> & [A| ->])].
    + eapply closed_grows; [exact G|lia|apply (ba_good k p' B); exact Hx|]. apply FC; [|auto].
      destruct (Hq m) as [E|[E|E]]; [rewrite <- E; assumption|lia|lia].
    + eapply closed_grows; [exact G|lia|apply (ba_good k p' B); exact Hx|]. apply FC; [|auto]. rewrite <- (firstn_skipn i). apply in_app_iff. left. exact A.
    + assumption.
  - intros m Hm. destruct (Hq m) as [E|[->|E]]; [|  |apply E].
    + rewrite E in Hm. specialize (FL m Hm). lia.
    + assert (A : queue (charts p k) <> []) by (destruct (queue (charts p k)); [cbn in Li; lia|discriminate]). specialize (FL k A). lia.
Qed.
Lemma process_full : forall f k i p s, full k i p -> nth_error (queue (charts p k)) i = Some s -> k <= len w ->
  (length (productions g0) <= f)%nat -> exists p', process (S f) p k s = Ok p' /\ full k (S i) p' /\ grows k p p'.
Proof.
  intros f k i p s F Hs Hk Hf. pose proof (fu_base k i p F) as B. pose proof (nth_error_In _ _ Hs) as Hin.
  pose proof (ba_good k p B k s Hin) as Gs. unfold process. destruct (expected s) as [|[t|n] r] eqn:E.
  - destruct (complete_base f k p s B Hin E Hk) as (p' & -> & B1 & G1 & I1 & L1 & O1). exists p'. split; [reflexivity|]. split; [|exact G1].
    eapply step_full; [exact F|exact Hs|exact B1|exact G1| |lia|].
    + unfold closed. rewrite E. intros x A. apply I1. pose proof (finished_before k s Gs E). rewrite (gr_waiting k p p' G1) in A by lia. assumption.
    + intro j. destruct (N.eq_dec j k) as [->|D]; [auto|left; apply O1; assumption].
  - destruct (scan_base f k p s t r B Hin E Hk) as (p' & -> & B1 & G1 & I1 & L1 & O1). exists p'. split; [reflexivity|]. split; [|exact G1].
    eapply step_full; [exact F|exact Hs|exact B1|exact G1| |lia|].
    + unfold closed. rewrite E. exact I1.
    + intro j. destruct (O1 j) as [A|A]; [left; exact A|right; right; exact A].
  - assert (P : exists p', predict (S f) p k s n = Ok p' /\ full k (S i) p' /\ grows k p p').
    { destruct (predict_base f k p s n r B Hin E Hk Hf) as (p' & -> & B1 & G1 & I1 & L1 & O1). exists p'. split; [reflexivity|]. split; [|exact G1].
      eapply step_full; [exact F|exact Hs|exact B1|exact G1| |lia|].
      + unfold closed. rewrite E. exact I1.
      + intro j. destruct (N.eq_dec j k) as [->|D]; [auto|left; apply O1; assumption]. }
    pose proof (gd_kind _ _ Gs) as K. unfold kind_ok in K. destruct (kind s); try exact P. rewrite K. exact P.
Qed.
Lemma queue_bound : forall k p m, base k p -> (length (queue (charts p m)) <= length universe)%nat.
Proof.
  intros k p m B. apply NoDup_incl_length; [apply (ba_nodup k p B)|]. intros s A. eapply in_universe. apply (ba_good k p B m s A).
Qed.
Lemma chart_loop_full : forall fuel k i p, full k i p -> k <= len w ->
  (S (length universe + length (productions g0)) <= fuel + i)%nat -> (i <= length (queue (charts p k)))%nat ->
  exists p', chart_loop fuel p k i = Ok p' /\ full k (length (queue (charts p' k))) p' /\ grows k p p'.
Proof.
  induction fuel as [|f IH]; intros k i p F Hk Hf Hi; pose proof (queue_bound k p k (fu_base k i p F)) as U; [lia|]. cbn [chart_loop].
  destruct (nth_error (queue (charts p k)) i) as [s|] eqn:E.
  - assert (Li : (i < length (queue (charts p k)))%nat) by (apply nth_error_Some; congruence).
    destruct (process_full f k i p s F E Hk) as (p1 & E1 & F1 & G1); [lia|]. rewrite E1. cbn [bind].
    assert (L1 : (S i <= length (queue (charts p1 k)))%nat).
    { destruct (gr_queue k p p1 G1 k) as (l & ->). rewrite app_length. lia. }
    destruct (IH k (S i) p1 F1 Hk) as (p2 & -> & F2 & G2); [lia|assumption|].
    exists p2. split; [reflexivity|]. split; [assumption|]. eapply grows_trans; eassumption.
  - apply nth_error_None in E. exists p. split; [reflexivity|]. replace (length (queue (charts p k))) with i by lia. split; [assumption|apply grows_refl].
Qed.
Lemma full_next : forall k p, full k (length (queue (charts p k))) p -> full (k + 1) 0 p.
Proof.
  intros k p [B C L]. constructor; [| |assumption].
  - destruct B as [B1 B2 B3 B4 B5 B6 B7 B8 B9]. constructor; try assumption. intros m n Hm. apply B8. lia.
  - intros m s A [Hm|[_ []]]. apply C; [assumption|]. destruct (N.eq_dec m k) as [->|D]; [right|left; lia]. split; [reflexivity|].
    rewrite firstn_all. assumption.
Qed.
Lemma parse_loop_full : forall cnt fuel k p, full k 0 p -> k + N.of_nat cnt <= len w + 1 ->
  (S (length universe + length (productions g0)) <= fuel)%nat ->
  exists p', parse_loop fuel p (nseq k cnt) = Ok p' /\ full (k + N.of_nat cnt) 0 p' /\ grows 0 p p'.
Proof.
  induction cnt as [|cnt IH]; intros fuel k p F Hk Hf; cbn [nseq parse_loop].
  - exists p. split; [reflexivity|]. rewrite N.add_0_r. split; [assumption|apply grows_refl].
  - rewrite (ba_states k p (fu_base k 0 p F)). destruct (N.ltb_spec k (len w + 1)) as [_|]; [|lia].
    destruct (chart_loop_full fuel k 0 p F) as (p1 & -> & F1 & G1); [lia|lia|lia|]. cbn [bind].
    destruct (IH fuel (k + 1) p1 (full_next k p1 F1)) as (p2 & -> & F2 & G2); [lia|assumption|].
    exists p2. split; [reflexivity|]. replace (k + N.of_nat (S cnt)) with (k + 1 + N.of_nat cnt) by lia. split; [assumption|].
    destruct G1 as [X1 Y1], G2 as [X2 Y2]. constructor; [|intros; lia]. intro m. destruct (X1 m) as (l1 & E1), (X2 m) as (l2 & E2).
    exists (l1 ++ l2). rewrite E2, E1, app_assoc. reflexivity.
Qed.

(** Heads of equal length. *)
Lemma app_eq_length_head : forall (A : Type) (a b c d : list A), a ++ b = c ++ d -> length a = length c -> a = c.
Proof.
  intros A a. induction a as [|x a IH]; intros b [|y c] d H L; cbn in *; try discriminate; [reflexivity|].
  inversion H; subst. f_equal. eapply IH; [eassumption|lia].
Qed.
(** Closed charts have a state for every derivation. *)
Lemma closed_derives : forall p, base (len w + 1) p -> (forall m s, In s (queue (charts p m)) -> closed p m s) ->
  forall a u, derives (rule_of g0) a u -> forall i s b, In s (queue (charts p i)) -> expected s = a ++ b ->
  i + len u <= len w -> sub w i (i + len u) = u ->
  exists s', In s' (queue (charts p (i + len u))) /\ pname s' = pname s /\ prule s' = prule s /\ index s' = index s /\ expected s' = b.
Proof.
  intros p B Cl a u D. induction D as [|t a u D IH|n body a v u Hn D1 IH1 D2 IH2]; intros i s b Hs He Hi Hu.
  - exists s. cbn [len length]. change (len (@nil N)) with 0. rewrite N.add_0_r. auto.
  - rewrite len_app in *. rewrite (sub_app w i (i + len t)) in Hu by lia.
    assert (L : length (sub w i (i + len t)) = length t).
    { pose proof (sub_len w i (i + len t)). pose proof (len_length _ t). pose proof (len_length _ (sub w i (i + len t))). lia. }
    apply app_eq_length_head in Hu as Hv; [|assumption]. rewrite Hv in Hu. apply app_inv_head in Hu.
    pose proof (Cl i s Hs) as Cs. unfold closed in Cs. cbn [app] in He. rewrite He in Cs.
    destruct Cs as (s1 & A1 & A2 & A3 & A4 & A5); [lia|assumption|].
    destruct (IH (i + len t) s1 b A1 A5) as (s2 & E1 & E2 & E3 & E4 & E5); [lia|rewrite <- N.add_assoc; assumption|].
    exists s2. rewrite N.add_assoc. split; [assumption|]. split; [congruence|]. split; [congruence|]. split; [congruence|assumption].
  - rewrite len_app in *. rewrite (sub_app w i (i + len v)) in Hu by lia.
    assert (L : length (sub w i (i + len v)) = length v).
    { pose proof (sub_len w i (i + len v)). pose proof (len_length _ v). pose proof (len_length _ (sub w i (i + len v))). lia. }
    apply app_eq_length_head in Hu as Hv; [|assumption]. rewrite Hv in Hu. apply app_inv_head in Hu.
    pose proof (Cl i s Hs) as Cs. unfold closed in Cs. cbn [app] in He. rewrite He in Cs. specialize (Cs body Hn).
    destruct (IH1 i _ [] Cs) as (d & A1 & A2 & A3 & A4 & A5); [rewrite app_nil_r; reflexivity|lia|assumption|]. cbn in A2, A3, A4.
    pose proof (Cl _ d A1) as Cd. unfold closed in Cd. rewrite A5, A4, A2 in Cd.
    specialize (Cd s (ba_wait _ _ B i s n _ Hs He)).
    destruct (IH2 (i + len v) (completion s d) b Cd) as (s2 & E1 & E2 & E3 & E4 & E5).
    { cbn. rewrite He. reflexivity. }
    { lia. }
    { rewrite <- N.add_assoc. assumption. }
    exists s2. rewrite N.add_assoc. auto.
Qed.
End Complete.

Definition enough (g : grammar) (w : list N) : nat := S (length (universe g w) + length (productions g)).
Lemma match_complete : forall g w fuel, answers g -> nonempty_rules g -> distinct_productions g ->
  In START (names g) -> (enough g w <= fuel)%nat ->
  match_bool fuel g w (len w) <> Fuel /\ (accepts g w -> match_bool fuel g w (len w) = Ok true).
Proof.
  intros g w fuel A Ne Di Hs Hf. unfold enough in Hf. destruct A as [I A'] eqn:EA. pose proof A as A0. clear EA A'.
  unfold match_bool. destruct (get_prod_names g START Hs) as (st & -> & Hst). cbn [bind].
  destruct fuel as [|f]; [lia|].
  assert (B0 : base g w 0 (parser_new g w (len w))).
  { constructor; cbn; try contradiction; try reflexivity; [apply cached_refl|assumption|constructor]. }
  destruct (predictions_base g w I Di (rules st) f 0 (parser_new g w (len w)) START B0) as (p0 & -> & B1 & G1 & I1 & L1 & O1).
  { lia. }
  { intros r Hr. exists st, r. auto. }
  cbn [bind].
  assert (F0 : full g w 0 0 p0).
  { constructor; [assumption| |].
    - intros m s _ [Hm|[_ []]]. lia.
    - intros m Hm. rewrite L1. cbn [parser_new last_match]. destruct (N.eq_dec m 0) as [->|D]; [lia|]. rewrite O1 in Hm by assumption. cbn in Hm. congruence. }
  destruct (parse_loop_full g w I Ne Di (S (length w)) (S f) 0 p0 F0) as (p1 & -> & F1 & G2).
  { pose proof (len_length _ w). lia. }
  { lia. }
  cbn [bind]. split; [destruct (_ <? _)%Z; discriminate|]. intro Acc.
  replace (0 + N.of_nat (S (length w))) with (len w + 1) in F1 by (unfold len; lia).
  pose proof (fu_base _ _ _ _ _ F1) as Bf.
  assert (Cl : forall m s, In s (queue (charts p1 m)) -> closed g w p1 m s).
  { intros m s Hm. apply (fu_closed _ _ _ _ _ F1); [assumption|]. left. pose proof (sd_end _ _ _ _ _ (gd_sound _ _ _ _ (ba_good _ _ _ _ Bf m s Hm))). lia. }
  apply derives_name in Acc. destruct Acc as (body & R & D). pose proof R as R0. destruct R0 as (q & r & Q1 & Q2 & <-).
  assert (q = st) by exact (prod_unique g START q st (io_names g I) Q1 Hst). subst q.
  pose proof (grows_in _ _ _ _ _ G2 (I1 r Q2)) as Hin.
  destruct (closed_derives g w p1 Bf Cl _ _ D 0 _ [] Hin) as (s' & E1 & E2 & E3 & E4 & E5).
  { cbn. rewrite app_nil_r. reflexivity. }
  { lia. }
  { rewrite N.add_0_l. apply sub_all. }
  rewrite N.add_0_l in E1. cbn in E2.
  assert (Lm : (Z.of_N (len w) - 1 <= last_match p1)%Z).
  { apply (fu_last _ _ _ _ _ F1). intro X. rewrite X in E1. destruct E1. }
  destruct (Z.ltb_spec (last_match p1) (Z.of_N (len w) - 1)) as [|_]; [lia|]. f_equal.
  apply existsb_exists. exists s'. rewrite (ba_states _ _ _ _ Bf). replace (len w + 1 - 1) with (len w) by lia.
  split; [assumption|]. rewrite E5, E2. apply rules_eqb_refl.
Qed.

(** ** Grammars of trees *)
Lemma combine_nonempty : forall s, ~ In (Terminal []) s -> ~ In (Terminal []) (combine_terminals s).
Proof.
  intros s H. unfold combine_terminals. rewrite <- in_rev.
  assert (G : forall s acc, ~ In (Terminal []) s -> ~ In (Terminal []) acc -> ~ In (Terminal []) (fold_left combine_step s acc)).
  { clear. induction s as [|x s IH]; intros acc A B; cbn [fold_left]; [assumption|].
    apply IH; [intro; apply A; right; assumption|]. destruct x as [b|n]; [destruct acc as [|[a|m] r]|]; cbn [combine_step]; intros [C|C].
    - apply A. left. assumption.
    - contradiction.
    - inversion C as [D]. apply app_eq_nil in D. destruct D as [-> ->]. apply A. left. reflexivity.
    - apply B. right. assumption.
    - apply A. left. assumption.
    - contradiction.
    - discriminate.
    - contradiction. }
  apply G; [assumption|]. intros [].
Qed.
Lemma nonempty_produces : forall g, nonempty_rules g -> productive g -> produces_bytes g.
Proof.
  intros g Ne P n Hn. destruct (P n Hn) as (w & D). exists w. split; [|assumption].
  apply (nonempty_derives (rule_of g) Ne _ _ D); [discriminate|]. intros [H|[]]. discriminate.
Qed.
Lemma extracted_nonempty : forall t g, input_tree t -> nonempty_leaves t ->
  (forall n body, rule_of g n body <-> exists u, node_of u t /\ node_name u = Some n /\ body = body_of u) -> nonempty_rules g.
Proof.
  intros t g Ht Hl R n body H. apply R in H. destruct H as (u & A & B & ->).
  assert (Sh : children u <> [] /\ Forall event_tree (children u)).
  { inversion Ht as [cs Hn Hcs E]. subst t. inversion A as [|u' v' c cs' I J]; subst; [cbn; auto|].
    assert (Ev : event_tree u). { eapply node_event; [|exact J]. rewrite Forall_forall in Hcs. auto. }
    inversion Ev; subst; cbn in *; [discriminate|auto]. }
  destruct Sh as [Sh1 Sh2]. unfold body_of. split.
  - intro E. apply combine_nil in E. destruct (children u) as [|c cs]; [congruence|]. cbn in E. apply app_eq_nil in E.
    unfold symbol_of in E. destruct (value_of c); destruct E; discriminate.
  - apply combine_nonempty. intro H. apply in_concat in H. destruct H as (l & C & D). apply in_map_iff in C. destruct C as (c & <- & C).
    rewrite Forall_forall in Sh2. pose proof (Sh2 c C) as Ec. inversion Ec as [b|n' bb cs Hn' Hcs']; subst; cbn in D; destruct D as [D|[]]; [|discriminate].
    inversion D; subst. apply Hl. eapply node_trans; [exact A|]. destruct u as [v cs]. cbn in C. econstructor; [exact C|constructor].
Qed.
Lemma extracted_unused : forall t g, input_tree t -> distinct_productions g -> in_order g ->
  (forall n bb cs, node_of (Node (VEvent n bb) cs) t -> n <> START) ->
  (forall n, In n (names g) <-> exists u, node_of u t /\ node_name u = Some n) ->
  (forall n body, rule_of g n body <-> exists u, node_of u t /\ node_name u = Some n /\ body = body_of u) -> start_unused g.
Proof.
  intros t g Ht Di I Hs Nm R n body m A B S.
  assert (Sg : In START (names g)) by (apply Nm; exists t; split; [constructor|inversion Ht; reflexivity]).
  pose proof (Di m START (io_closed g I _ _ _ A B) Sg S) as E. apply R in A. destruct A as (u & A & _ & ->).
  assert (G : good_node u). { pose proof (input_good t Ht) as G. rewrite Forall_forall in G. apply G. apply in_pre. assumption. }
  destruct (symbol_body u m B G) as (c & C & D). unfold good_node in G. rewrite Forall_forall in G. specialize (G c C).
  destruct c as [v cs]. unfold node_name in D. cbn in *. destruct v as [|n' bb|b]; try congruence. inversion D; subst.
  eapply Hs; [|reflexivity]. eapply node_trans; [exact A|]. destruct u as [v us]. cbn in C. econstructor; [exact C|constructor].
Qed.
