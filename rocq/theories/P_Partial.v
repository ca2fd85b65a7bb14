(** Proofs about find_partial_trees. *)
From Coq Require Import NArith List Bool Arith Lia.
From Verif Require Import M_Base M_PyGrammar S_Grammar M_PyPartial S_Partial P_Base P_Grammar.
Import ListNotations.
Open Scope N_scope.

(** ** Trees and their bytes *)
Lemma pyields_app ts us : pyields (ts ++ us) = pyields ts ++ pyields us.
Proof. unfold pyields. now rewrite map_app, concat_app. Qed.
Lemma pyields_one t : pyields [t] = pyield t.
Proof. unfold pyields. cbn. now rewrite app_nil_r. Qed.
Lemma pyields_cons t ts : pyields (t :: ts) = pyield t ++ pyields ts.
Proof. reflexivity. Qed.
Lemma pyield_node n body cs : pyield (node n body cs) = pyields cs.
Proof. destruct cs; cbn; rewrite ?app_nil_r; reflexivity. Qed.

Lemma fulls_app g a ts b us : fulls g a ts -> fulls g b us -> fulls g (a ++ b) (ts ++ us).
Proof. induction 1; cbn; intros; auto; constructor; auto. Qed.
Lemma fulls_cons_inv g s rest l : fulls g (s :: rest) l ->
  exists t ts, l = t :: ts /\ fulls g [s] [t] /\ fulls g rest ts.
Proof.
  intros H. inversion H; subst.
  - exists (leaf b), ts. repeat split; auto. constructor. constructor.
  - exists (node n body cs), ts. repeat split; auto. constructor; auto. constructor.
Qed.
Lemma fulls_join g s rest t ts : fulls g [s] [t] -> fulls g rest ts -> fulls g (s :: rest) (t :: ts).
Proof. intros A B. exact (fulls_app _ _ _ _ _ A B). Qed.
Lemma fulls_terminal_inv g b t : fulls g [Terminal b] [t] -> t = leaf b.
Proof. inversion 1; reflexivity. Qed.

Lemma parts_terminal_inv g b rest ts : parts g (Terminal b :: rest) ts ->
  (b <> [] /\ ts = [leaf b]) \/ exists us, ts = leaf b :: us /\ parts g rest us.
Proof.
  intros P. inversion P; subst; [left; auto|right].
  match goal with H : fulls _ [_] [_] |- _ => apply fulls_terminal_inv in H; subst end. eauto.
Qed.
Lemma parts_nonempty g ss ts : parts g ss ts -> pyields ts <> [].
Proof.
  induction 1.
  - rewrite pyields_one. cbn. assumption.
  - rewrite pyields_one, pyield_node. assumption.
  - rewrite pyields_cons. intros E. apply app_eq_nil in E. tauto.
Qed.
Lemma parts_nil g ts : ~ parts g [] ts.
Proof. inversion 1. Qed.
Lemma partial_inv g n t : partial_tree g n t ->
  exists body cs, rule_of g n body /\ parts g body cs /\ t = node n body cs.
Proof.
  intros H. inversion H; subst; [eauto|]. exfalso. eapply parts_nil; eauto.
Qed.
Lemma full_inv g n t : full_tree g n t ->
  exists body cs, rule_of g n body /\ fulls g body cs /\ t = node n body cs.
Proof. intros H. inversion H; subst. eauto 6. Qed.

(** ** Trees and the language *)
Lemma fulls_derives g ss ts : fulls g ss ts -> derives (rule_of g) ss (pyields ts).
Proof.
  induction 1; [constructor| |]; rewrite pyields_cons.
  - cbn [pyield leaf]. now constructor.
  - rewrite pyield_node. eapply derives_nonterminal; eauto.
Qed.
Lemma derives_fulls g ss w : derives (rule_of g) ss w -> exists ts, fulls g ss ts /\ pyields ts = w.
Proof.
  induction 1 as [|b seq w D (ts & F & Y)|n body seq v w R D (ts & F & Y) D' (us & F' & Y')].
  - exists []. split; [constructor|reflexivity].
  - exists (leaf b :: ts). split; [now constructor|]. rewrite pyields_cons, Y. reflexivity.
  - exists (node n body ts :: us). split; [now constructor|]. now rewrite pyields_cons, pyield_node, Y, Y'.
Qed.
Lemma fulls_parts g ss ts : fulls g ss ts -> pyields ts <> [] -> exists us, parts g ss us /\ pyields us = pyields ts.
Proof.
  induction 1 as [|b rest ts F IH|n body cs rest ts R F IH F' IH']; intros H.
  - contradiction.
  - destruct (pyields ts) as [|x l] eqn:E.
    + exists [leaf b]. rewrite (pyields_cons _ ts), E in H |- *. cbn [pyield leaf] in *. rewrite app_nil_r in H.
      split; [now constructor|]. now rewrite pyields_one, app_nil_r.
    + destruct IH as (us & P & Y); [discriminate|]. exists (leaf b :: us).
      split; [apply parts_next; auto; constructor; constructor|]. rewrite !pyields_cons, Y, E. reflexivity.
  - destruct (pyields ts) as [|x l] eqn:E.
    + rewrite (pyields_cons _ ts), E, pyield_node in H |- *. rewrite app_nil_r in *.
      destruct (IH H) as (us & P & Y). exists [node n body us]. split; [now constructor|].
      now rewrite pyields_one, pyield_node.
    + destruct IH' as (us & P & Y); [discriminate|]. exists (node n body cs :: us).
      split; [apply parts_next; auto; constructor; auto; constructor|]. rewrite !pyields_cons, Y, E. reflexivity.
Qed.
Lemma parts_extend g ss ts : parts g ss ts ->
  (forall n body m, rule_of g n body -> In (NonTerminal m) body -> exists w, language g m w) ->
  (forall m, In (NonTerminal m) ss -> exists w, language g m w) ->
  exists w, derives (rule_of g) ss (pyields ts ++ w).
Proof.
  intros H Pr.
  assert (All : forall ss, (forall m, In (NonTerminal m) ss -> exists w, language g m w) ->
                exists w, derives (rule_of g) ss w).
  { induction ss0 as [|[b|n] r IH]; intros K.
    - exists []. constructor.
    - destruct IH as (w & D); [intros; apply K; now right|]. exists (b ++ w). now constructor.
    - destruct IH as (w & D); [intros; apply K; now right|].
      destruct (K n (or_introl eq_refl)) as (v & L). exists (v ++ w). exact (derives_app _ [_] _ _ _ L D). }
  induction H; intros K.
  - destruct (All rest) as (w & D); [intros; apply K; now right|]. exists w.
    rewrite pyields_one. cbn [pyield leaf]. now constructor.
  - destruct IHparts as (v & D); [intros; eapply Pr; eauto|].
    destruct (All rest) as (w & D'); [intros; apply K; now right|]. exists (v ++ w).
    rewrite pyields_one, pyield_node, app_assoc. eapply derives_nonterminal; eauto.
  - destruct IHparts as (w & D); [intros; apply K; now right|]. exists w.
    rewrite pyields_cons, <- app_assoc. apply (derives_app _ [s] _ rest); auto.
    rewrite <- pyields_one. now apply fulls_derives.
Qed.

(** ** What the loop finds *)
Lemma starts_with_iff s p : starts_with s p = true <-> exists r, s = p ++ r.
Proof.
  unfold starts_with. rewrite blist_eqb_eq. split.
  - intros E. exists (skipn (length p) s). rewrite <- E at 1. now rewrite firstn_skipn.
  - intros (r & ->). rewrite firstn_app, firstn_all, Nat.sub_diag. cbn. now rewrite app_nil_r.
Qed.

Section Loop.
Variable g : grammar.

(** The matches of production [m] on the nonempty [rb]: tree and rest. *)
Definition good (m : N) (rb : list N) (t : ptree) (r : list N) : Prop :=
  (r = [] /\ partial_tree g m t /\ pyield t = rb) \/
  (r <> [] /\ full_tree g m t /\ rb = pyield t ++ r).
(** The same for an entry of the stack. *)
Definition fin (e : entry) (cs : list ptree) (r : list N) : Prop :=
  let '(rb, trees, rs) := e in
  (r = [] /\ exists ts, parts g rs ts /\ pyields ts = rb /\ cs = trees ++ ts) \/
  (r <> [] /\ exists ts, fulls g rs ts /\ rb = pyields ts ++ r /\ cs = shown (trees ++ ts)).

Definition live (e : entry) : Prop := fst (fst e) <> [].

(** A list of matches has exactly the trees described by [P]. *)
Definition exact (l : list pmatch) (P : ptree -> list N -> Prop) : Prop :=
  (forall t rs r, In (t, rs, r) l -> P t r /\ (r <> [] -> rs = [])) /\
  (forall t r, P t r -> exists rs, In (t, rs, r) l).

Lemma exact_app l m P Q : exact l P -> exact m Q -> exact (l ++ m) (fun t r => P t r \/ Q t r).
Proof.
  intros [A B] [C D]. split.
  - intros t rs r H. apply in_app_iff in H. destruct H as [H|H]; [apply A in H|apply C in H]; tauto.
  - intros t r [H|H]; [destruct (B _ _ H) as (x & K)|destruct (D _ _ H) as (x & K)]; exists x; apply in_app_iff; auto.
Qed.
Lemma exact_iff l P Q : (forall t r, P t r <-> Q t r) -> exact l P -> exact l Q.
Proof.
  intros E [A B]. split.
  - intros t rs r H. destruct (A _ _ _ H). split; auto. now apply E.
  - intros t r H. apply B. now apply E.
Qed.

Variable n : N.
Variable body : list symbol.

(** The trees that the entries of a stack lead to. *)
Definition leads (st : list entry) (t : ptree) (r : list N) : Prop :=
  exists e cs, In e st /\ fin e cs r /\ t = PNode (PProduction n) [PNode (PRule body) cs].

Lemma leads_cons e st t r : leads (e :: st) t r <->
  (exists cs, fin e cs r /\ t = PNode (PProduction n) [PNode (PRule body) cs]) \/ leads st t r.
Proof.
  unfold leads. split.
  - intros (x & cs & [->|I] & F); [left; eauto|right; eauto].
  - intros [(cs & F)|(x & cs & I & F)]; [exists e, cs; cbn; tauto|exists x, cs; cbn; tauto].
Qed.

Lemma shown_nonempty cs : cs <> [] -> shown cs = cs.
Proof. destruct cs; [contradiction|reflexivity]. Qed.
Lemma app_one_nonempty {A} (l : list A) x : l ++ [x] <> [].
Proof. destruct l; discriminate. Qed.
Lemma is_nil_iff {A} (l : list A) : is_nil l = true <-> l = [].
Proof. destruct l; cbn; split; congruence. Qed.
Lemma is_nil_false {A} (l : list A) : is_nil l = false <-> l <> [].
Proof. destruct l; cbn; split; congruence. Qed.

(** An entry without symbols. *)
Lemma fin_done rb trees cs r : rb <> [] -> (fin (rb, trees, []) cs r <-> r = rb /\ cs = shown trees).
Proof.
  intros H. cbn. split.
  - intros [(_ & ts & P & _)|(_ & ts & F & E & C)]; [now apply parts_nil in P|].
    inversion F; subst. rewrite app_nil_r. auto.
  - intros [-> ->]. right. split; [assumption|]. exists []. rewrite app_nil_r. repeat split. constructor.
Qed.

(** A terminal that is the whole rest. *)
Lemma fin_last b trees rest cs r : b <> [] ->
  (fin (b, trees, Terminal b :: rest) cs r <-> r = [] /\ cs = trees ++ [leaf b]).
Proof.
  intros H. cbn. split.
  - intros [(-> & ts & P & Y & ->)|(R & ts & F & E & C)].
    + split; [reflexivity|]. apply parts_terminal_inv in P. destruct P as [(_ & ->)|(us & -> & P)]; [reflexivity|].
      rewrite pyields_cons in Y. cbn [pyield leaf] in Y.
      exfalso. apply (parts_nonempty _ _ _ P). apply (app_inv_head b). now rewrite app_nil_r.
    + apply fulls_cons_inv in F. destruct F as (t & us & -> & F1 & _). apply fulls_terminal_inv in F1. subst t.
      rewrite pyields_cons in E. cbn [pyield leaf] in E. rewrite <- app_assoc in E.
      rewrite <- (app_nil_r b) in E at 1. apply app_inv_head in E. symmetry in E. apply app_eq_nil in E. tauto.
  - intros [-> ->]. left. split; [reflexivity|]. exists [leaf b]. repeat split; [now constructor|].
    now rewrite pyields_one.
Qed.

(** A terminal with more behind it. *)
Lemma fin_more b rb' trees rest cs r : rb' <> [] ->
  (fin (b ++ rb', trees, Terminal b :: rest) cs r <-> fin (rb', trees ++ [leaf b], rest) cs r).
Proof.
  intros H. cbn. split.
  - intros [(-> & ts & P & Y & ->)|(R & ts & F & E & ->)].
    + left. split; [reflexivity|]. apply parts_terminal_inv in P. destruct P as [(_ & ->)|(us & -> & P)].
      * rewrite pyields_one in Y. cbn [pyield leaf] in Y. rewrite <- (app_nil_r b) in Y at 1.
        apply app_inv_head in Y. congruence.
      * rewrite pyields_cons in Y. cbn [pyield leaf] in Y.
        apply app_inv_head in Y. exists us. rewrite <- app_assoc. auto.
    + right. split; [assumption|]. apply fulls_cons_inv in F. destruct F as (t & us & -> & F1 & F2).
      apply fulls_terminal_inv in F1. subst t. exists us. split; [assumption|].
      rewrite pyields_cons in E. cbn [pyield leaf] in E. rewrite <- app_assoc in E. apply app_inv_head in E.
      split; [assumption|]. now rewrite <- app_assoc.
  - intros [(-> & ts & P & Y & ->)|(R & ts & F & E & ->)].
    + left. split; [reflexivity|]. exists (leaf b :: ts). rewrite <- app_assoc.
      split; [apply parts_next; auto; constructor; constructor|]. rewrite pyields_cons, Y. auto.
    + right. split; [assumption|]. exists (leaf b :: ts). rewrite <- app_assoc.
      split; [now constructor|]. rewrite pyields_cons, E. cbn [pyield leaf]. now rewrite app_assoc.
Qed.

(** A terminal that does not match. *)
Lemma fin_no b rb trees rest cs r : (forall x, rb <> b ++ x) -> ~ fin (rb, trees, Terminal b :: rest) cs r.
Proof.
  intros H. cbn. intros [(-> & ts & P & Y & ->)|(R & ts & F & E & ->)].
  - apply parts_terminal_inv in P. destruct P as [(_ & ->)|(us & -> & P)].
    + rewrite pyields_one in Y. apply (H []). rewrite app_nil_r. now rewrite <- Y.
    + apply (H (pyields us)). now rewrite <- Y, pyields_cons.
  - apply fulls_cons_inv in F. destruct F as (t & us & -> & F1 & F2).
    apply fulls_terminal_inv in F1. subst t. apply (H (pyields us ++ r)). rewrite E, pyields_cons.
    cbn [pyield leaf]. now rewrite app_assoc.
Qed.

(** A nonterminal. *)
Lemma fin_call m rb trees rest cs r : rb <> [] ->
  (fin (rb, trees, NonTerminal m :: rest) cs r <->
   exists t mr, good m rb t mr /\
     ((mr = [] /\ r = [] /\ cs = trees ++ [t]) \/ (mr <> [] /\ fin (mr, trees ++ [t], rest) cs r))).
Proof.
  intros H. unfold good. cbn. split.
  - intros [(-> & ts & P & Y & ->)|(R & ts & F & E & ->)].
    + inversion P as [|m0 body0 cs0 rest0|s0 rest0 t ts0 H2 H4]; subst.
      * exists (node m body0 cs0), []. rewrite pyields_one. split; [left; repeat split; now constructor|]. left. auto.
      * exists t, (pyields ts0). assert (K := parts_nonempty _ _ _ H4). split.
        -- right. split; [assumption|]. split; [assumption|]. apply pyields_cons.
        -- right. split; [assumption|]. left. split; [reflexivity|]. exists ts0. rewrite <- app_assoc. auto.
    + apply fulls_cons_inv in F. destruct F as (t & us & -> & F1 & F2).
      exists t, (pyields us ++ r). assert (K : pyields us ++ r <> []) by (intros Q; apply app_eq_nil in Q; tauto).
      split.
      * right. split; [assumption|]. split; [assumption|]. rewrite E, pyields_cons. now rewrite app_assoc.
      * right. split; [assumption|]. right. split; [assumption|]. exists us. rewrite <- app_assoc. auto.
  - intros (t & mr & [(-> & P & Y)|(K & F & E)] & [(Q & -> & ->)|(Q & G)]); try congruence.
    + left. split; [reflexivity|]. exists [t]. rewrite pyields_one. repeat split; auto.
      destruct (partial_inv _ _ _ P) as (bd & us & R1 & P1 & ->). now constructor.
    + destruct G as [(-> & ts & P & Y & ->)|(R & ts & F2 & E2 & ->)].
      * left. split; [reflexivity|]. exists (t :: ts). rewrite <- app_assoc. split; [now apply parts_next|].
        rewrite pyields_cons, Y. auto.
      * right. split; [assumption|]. exists (t :: ts). rewrite <- app_assoc. split; [now apply fulls_join|].
        split; [|reflexivity]. rewrite E, E2, pyields_cons. now rewrite app_assoc.
Qed.

Variable call : N -> list N -> Res (list pmatch).
Hypothesis call_good : forall m rb ms, rb <> [] -> call m rb = Ok ms -> exact ms (good m rb).

(** The loop over the matches. *)
Lemma each_match_spec trees rest : forall ms st out st',
  (forall t rs r, In (t, rs, r) ms -> r <> [] -> rs = []) -> Forall live st ->
  each_match true n body trees rest ms st = Ok (out, st') ->
  Forall live st' /\
  (forall t rs r, In (t, rs, r) out -> r <> [] -> rs = []) /\
  forall t r, (exists rs, In (t, rs, r) out) \/ leads st' t r <->
    leads st t r \/
    exists c mrs mr, In (c, mrs, mr) ms /\
      ((mr = [] /\ r = [] /\ t = PNode (PProduction n) [PNode (PRule body) (trees ++ [c])]) \/
       (mr <> [] /\ exists cs, fin (mr, trees ++ [c], rest) cs r /\ t = PNode (PProduction n) [PNode (PRule body) cs])).
Proof.
  induction ms as [|[[c mrs] mr] ms IH]; intros st out st' Hr Hl E; cbn [each_match] in E.
  - inversion E; subst. split; [assumption|]. split; [intros ? ? ? []|].
    intros t r. split; [intros [(? & [])|?]; auto|intros [?|(? & ? & ? & [] & _)]; auto].
  - destruct (is_nil mr || is_nil mrs && is_nil rest) eqn:D.
    + apply bind_ok in E. destruct E as (t0 & E0 & E). cbn in E0. inversion E0; subst t0. clear E0.
      apply bind_ok in E. destruct E as ([o s] & E1 & E). inversion E; subst. clear E. cbn [fst snd] in *.
      destruct (IH st o st' ltac:(intros; eapply Hr; [right|]; eauto) Hl E1) as (L & A & B).
      split; [assumption|].
      assert (X : mr <> [] -> rest = []).
      { intros K. apply is_nil_false in K. rewrite K in D. cbn in D. apply andb_true_iff in D. now apply is_nil_iff. }
      split.
      { intros t rs r [Q|Q] K; [inversion Q; subst; auto|eauto]. }
      intros t r. specialize (B t r). split.
      * intros [(rs & [Q|Q])|Q].
        -- inversion Q; subst. right. exists c, mrs, r. split; [now left|].
           destruct r as [|x r]; [left; auto|]. right. split; [discriminate|].
           specialize (X ltac:(discriminate)). subst rs. exists (trees ++ [c]). split; [|reflexivity].
           apply fin_done; [discriminate|]. split; [reflexivity|]. now rewrite shown_nonempty by apply app_one_nonempty.
        -- destruct (proj1 B) as [Z|(c' & a & b & I & Z)]; [left; eauto|auto|]. right. exists c', a, b. split; [now right|exact Z].
        -- destruct (proj1 B) as [Z|(c' & a & b & I & Z)]; [now right|auto|]. right. exists c', a, b. split; [now right|exact Z].
      * intros [Q|(c' & a & b & [I|I] & Z)].
        -- destruct (proj2 B) as [(rs & W)|W]; [now left|left; exists rs; now right|now right].
        -- inversion I; subst. left. destruct Z as [(-> & -> & ->)|(K & cs & F & ->)].
           ++ exists rest. now left.
           ++ rewrite (X K) in F. apply fin_done in F; [|assumption]. destruct F as [-> ->].
              rewrite shown_nonempty by apply app_one_nonempty. exists rest. now left.
        -- destruct (proj2 B) as [(rs & W)|W]; [right; exists c', a, b; auto|left; exists rs; now right|now right].
    + apply orb_false_iff in D. destruct D as [D1 D2]. apply is_nil_false in D1.
      assert (mrs = []) by (eapply Hr; [left; reflexivity|assumption]). subst mrs. cbn [app] in E.
      destruct (IH _ out st' ltac:(intros; eapply Hr; [right|]; eauto) (Forall_cons (mr, trees ++ [c], rest) D1 Hl) E) as (L & A & B).
      split; [assumption|]. split; [assumption|]. intros t r. rewrite (B t r), leads_cons. split.
      * intros [[(cs & F & ->)|Q]|(c' & a & b & I & Z)].
        -- right. exists c, [], mr. split; [now left|]. right. eauto.
        -- now left.
        -- right. exists c', a, b. split; [now right|exact Z].
      * intros [Q|(c' & a & b & [I|I] & Z)].
        -- left. now right.
        -- inversion I; subst. destruct Z as [(Z & _)|(_ & cs & F & ->)]; [contradiction|]. left. left. eauto.
        -- right. exists c', a, b. auto.
Qed.

Lemma skipn_app_exact {A} (a b : list A) : skipn (length a) (a ++ b) = b.
Proof. now rewrite skipn_app, skipn_all, Nat.sub_diag. Qed.

Lemma exact_cons t rs r l P : (r <> [] -> rs = []) -> exact l P ->
  exact ((t, rs, r) :: l) (fun t' r' => (t' = t /\ r' = r) \/ P t' r').
Proof.
  intros H [A B]. split.
  - intros t' rs' r' [Q|Q]; [inversion Q; subst; auto|]. apply A in Q. tauto.
  - intros t' r' [[-> ->]|Q]; [exists rs; now left|]. apply B in Q. destruct Q as (x & Q). exists x. now right.
Qed.

Lemma match_loop_spec : forall k st l, Forall live st ->
  match_loop true call n body k st = Ok l -> exact l (leads st).
Proof.
  induction k as [|k IH]; intros [|[[rb trees] rs] st] l Hl E; cbn [match_loop] in E.
  - inversion E; subst. split; [intros ? ? ? []|]. intros t r (e & cs & [] & _).
  - discriminate E.
  - inversion E; subst. split; [intros ? ? ? []|]. intros t r (e & cs & [] & _).
  - inversion Hl as [|? ? H1 H2]; subst. unfold live in H1. cbn [fst] in H1.
    destruct rs as [|[b|m] rest].
    + apply bind_ok in E. destruct E as (t0 & E0 & E). cbn in E0. inversion E0; subst t0. clear E0.
      apply bind_ok in E. destruct E as (l0 & E1 & E). inversion E; subst l. clear E.
      eapply exact_iff; [|apply exact_cons; [auto|apply (IH st); eauto]].
      intros t r. rewrite leads_cons. split; (intros [Q|Q]; [left|now right]).
      * destruct Q as [-> ->]. exists (shown trees). split; [now apply fin_done|]. destruct trees; reflexivity.
      * destruct Q as (cs & F & ->). apply fin_done in F; [|assumption]. destruct F as [-> ->].
        split; [destruct trees; reflexivity|reflexivity].
    + destruct rb as [|x0 rb0]; [contradiction|]. set (rb := x0 :: rb0) in *.
      destruct (blist_eqb rb b) eqn:Eb.
      { apply blist_eqb_eq in Eb. clearbody rb. subst b.
        apply bind_ok in E. destruct E as (t0 & E0 & E). cbn in E0. inversion E0; subst t0. clear E0.
        apply bind_ok in E. destruct E as (l0 & E1 & E). inversion E; subst l. clear E.
        eapply exact_iff; [|apply exact_cons; [|apply (IH st); eauto]]; [|congruence].
        intros t r. rewrite leads_cons. split; (intros [Q|Q]; [left|now right]).
        - destruct Q as [-> ->]. exists (trees ++ [leaf rb]). split; [now apply fin_last|reflexivity].
        - destruct Q as (cs & F & ->). apply fin_last in F; [|assumption]. destruct F as [-> ->]. auto. }
      destruct (starts_with rb b) eqn:Es.
      * clearbody rb. apply starts_with_iff in Es. destruct Es as (r0 & ->). rewrite skipn_app_exact in E.
        assert (K : r0 <> []).
        { intros ->. rewrite app_nil_r in Eb. rewrite (proj2 (blist_eqb_eq b b) eq_refl) in Eb. discriminate. }
        eapply exact_iff; [|apply (IH _ l (Forall_cons (r0, trees ++ [PNode (PTerminal b) []], rest) K H2) E)].
        intros t r. rewrite !leads_cons. apply or_iff_compat_r.
        split; intros (cs & F & ->); exists cs; split; auto; now apply fin_more in F.
      * clearbody rb. eapply exact_iff; [|apply (IH st l H2 E)].
        intros t r. rewrite leads_cons. split; [auto|]. intros [(cs & F & _)|Q]; [|assumption].
        exfalso. revert F. apply fin_no. intros x ->.
        assert (starts_with (b ++ x) b = true) by (apply starts_with_iff; eauto). congruence.
    + destruct rb as [|x0 rb0]; [contradiction|]. set (rb := x0 :: rb0) in *. clearbody rb.
      apply bind_ok in E. destruct E as (ms & E0 & E).
      apply bind_ok in E. destruct E as ([o s] & E1 & E). cbn [fst snd] in E.
      apply bind_ok in E. destruct E as (l0 & E2 & E). inversion E; subst l. clear E.
      destruct (call_good m rb ms H1 E0) as [C1 C2].
      destruct (each_match_spec trees rest ms st o s) as (L & A & B); auto.
      { intros t rs r I. exact (proj2 (C1 _ _ _ I)). }
      destruct (IH s l0 L E2) as [D1 D2].
      assert (Z : forall t r, leads ((rb, trees, NonTerminal m :: rest) :: st) t r <->
                 (exists rs, In (t, rs, r) o) \/ leads s t r).
      { intros t r. rewrite (B t r), leads_cons. split.
        - intros [(cs & F & ->)|Q]; [right|now left]. apply fin_call in F; [|assumption].
          destruct F as (c & mr & G & F). destruct (C2 _ _ G) as (mrs & I). exists c, mrs, mr. split; [assumption|].
          destruct F as [(-> & -> & ->)|(K & F)]; [left; auto|right; eauto].
        - intros [Q|(c & mrs & mr & I & F)]; [now right|left]. destruct (C1 _ _ _ I) as [G _].
          destruct F as [(-> & -> & ->)|(K & cs & F & ->)].
          + exists (trees ++ [c]). split; [|reflexivity]. apply fin_call; [assumption|]. exists c, []. auto 6.
          + exists cs. split; [|reflexivity]. apply fin_call; [assumption|]. exists c, mr. auto 6. }
      split.
      * intros t rs r I. rewrite Z. apply in_app_iff in I. destruct I as [I|I].
        -- split; [left; eauto|]. intros K. eapply A; eauto.
        -- destruct (D1 _ _ _ I). auto.
      * intros t r Q. apply Z in Q. destruct Q as [(rs & I)|Q].
        -- exists rs. apply in_app_iff. now left.
        -- destruct (D2 _ _ Q) as (rs & I). exists rs. apply in_app_iff. now right.
Qed.
End Loop.

Lemma leads_start g n body s t r : s <> [] ->
  (leads g n body [(s, [], body)] t r <->
   (r = [] /\ exists cs, parts g body cs /\ pyields cs = s /\ t = node n body cs) \/
   (r <> [] /\ exists cs, fulls g body cs /\ s = pyields cs ++ r /\ t = node n body cs)).
Proof.
  intros Hs. rewrite leads_cons. cbn [fin]. split.
  - intros [(cs & [(-> & ts & P & Y & ->)|(R & ts & F & Y & ->)] & ->)|(e & cs & [] & _)].
    + left. split; [reflexivity|]. exists ts. repeat split; auto. unfold node. cbn [app].
      rewrite shown_nonempty; [reflexivity|]. intros ->. now apply parts_nonempty in P.
    + right. split; [assumption|]. exists ts. repeat split; auto.
  - intros [(-> & cs & P & Y & ->)|(R & cs & F & Y & ->)]; left; eexists; (split; [|reflexivity]).
    + left. split; [reflexivity|]. exists cs. repeat split; auto. cbn [app].
      apply shown_nonempty. intros ->. now apply parts_nonempty in P.
    + right. split; [assumption|]. exists cs. auto.
Qed.

Lemma each_rule_spec f (P : list symbol -> ptree -> list N -> Prop) : forall rs l,
  (forall body l, f body = Ok l -> exact l (P body)) ->
  each_rule f rs = Ok l -> exact l (fun t r => exists x, In x rs /\ P (sequence x) t r).
Proof.
  induction rs as [|x rs IH]; intros l H E; cbn [each_rule] in E.
  - inversion E; subst. split; [intros ? ? ? []|]. intros t r (x & [] & _).
  - apply bind_ok in E. destruct E as (l1 & E1 & E). apply bind_ok in E. destruct E as (l2 & E2 & E).
    inversion E; subst. eapply exact_iff; [|exact (exact_app _ _ _ _ (H _ _ E1) (IH _ H E2))].
    intros t r. split.
    + intros [Q|(y & I & Q)]; [exists x; cbn; auto|exists y; cbn; auto].
    + intros (y & [->|I] & Q); [now left|right; eauto].
Qed.

Lemma get_prod_some g n p : get_prod g n = Ok p -> In (n, p) (productions g).
Proof.
  unfold get_prod. destruct (find_prod (productions g) n) eqn:E; inversion 1; subst. now apply find_some_in.
Qed.

Lemma partial_match_spec g k : names_once g -> all_have_rules g -> forall d n s ms, s <> [] ->
  partial_match true g k d n s = Ok ms -> exact ms (good g n s).
Proof.
  intros IO AR. induction d as [|d IH]; intros n s ms Hs E; cbn [partial_match] in E; [discriminate|].
  apply bind_ok in E. destruct E as (p & G & E). apply get_prod_some in G.
  assert (A := AR _ _ G). apply is_nil_false in A. apply is_nil_false in Hs. rewrite A, Hs in E.
  apply is_nil_false in Hs. cbn [orb] in E.
  eapply exact_iff; [|eapply (each_rule_spec _ (fun body => leads g n body [(s, [], body)])); [|exact E]].
  - intros t r. unfold good. split.
    + intros (x & I & L). apply leads_start in L; [|assumption].
      assert (R : rule_of g n (sequence x)) by (exists p, x; auto).
      destruct L as [(-> & cs & P & Y & ->)|(K & cs & F & Y & ->)]; rewrite pyield_node.
      * left. repeat split; auto. now constructor.
      * right. repeat split; auto. constructor; auto. constructor.
    + intros [(-> & P & Y)|(K & F & Y)].
      * destruct (partial_inv _ _ _ P) as (body & cs & (q & x & I1 & I2 & I3) & P' & ->).
        assert (q = p) by (eapply (prod_unique g n); eauto; exact IO). subst.
        exists x. split; [assumption|]. apply leads_start; [rewrite pyield_node; now apply parts_nonempty in P'|]. left.
        split; [reflexivity|]. exists cs. rewrite pyield_node. auto.
      * destruct (full_inv _ _ _ F) as (body & cs & (q & x & I1 & I2 & I3) & F' & ->).
        assert (q = p) by (eapply (prod_unique g n); eauto; exact IO). subst q body.
        exists x. split; [assumption|]. apply leads_start; [assumption|]. right.
        split; [assumption|]. exists cs. rewrite pyield_node in Y. auto.
  - intros body l E'. eapply match_loop_spec; [|constructor; [exact Hs|constructor]|exact E'].
    intros m rb ms' Hr E''. eapply IH; eauto.
Qed.

(** ** Without a setter *)
Lemma each_match_sim n body trees rest : forall ms st p,
  each_match false n body trees rest ms st = Ok p ->
  each_match true n body trees rest ms st = Ok p /\ fst p = [].
Proof.
  induction ms as [|[[c mrs] mr] ms IH]; intros st p E; cbn [each_match] in *.
  - inversion E; subst. auto.
  - destruct (is_nil mr || is_nil mrs && is_nil rest); [discriminate E|]. now apply IH.
Qed.

Lemma match_loop_sim n body (c c' : N -> list N -> Res (list pmatch)) :
  (forall m rb l, c m rb = Ok l -> c' m rb = Ok l) ->
  forall k st l, match_loop false c n body k st = Ok l ->
    match_loop true c' n body k st = Ok l /\ l = [].
Proof.
  intros H. induction k as [|k IH]; intros [|[[rb trees] rs] st] l E; cbn [match_loop] in *;
    try discriminate E; try (inversion E; subst; auto; fail).
  destruct rs as [|[b|m] rest]; [discriminate E| |].
  - destruct rb as [|x0 rb0]; [discriminate E|]. set (rb := x0 :: rb0) in *.
    destruct (blist_eqb rb b); [discriminate E|]. destruct (starts_with rb b); now apply IH.
  - destruct rb as [|x0 rb0]; [discriminate E|]. set (rb := x0 :: rb0) in *.
    apply bind_ok in E. destruct E as (ms & E0 & E). rewrite (H _ _ _ E0). cbn [bind].
    apply bind_ok in E. destruct E as ([o s] & E1 & E). cbn [fst snd] in E.
    destruct (each_match_sim _ _ _ _ _ _ _ E1) as [E1' Eo]. rewrite E1'. cbn [bind fst snd] in *. subst o.
    apply bind_ok in E. destruct E as (l0 & E2 & E). destruct (IH _ _ E2) as [E2' ->].
    rewrite E2'. cbn [bind]. inversion E; subst. auto.
Qed.

Lemma partial_match_sim g k : forall d n s l, partial_match false g k d n s = Ok l ->
  partial_match true g k d n s = Ok l /\ (all_have_rules g -> s <> [] -> l = []).
Proof.
  induction d as [|d IH]; intros n s l E; cbn [partial_match] in *; [discriminate|].
  apply bind_ok in E. destruct E as (p & G & E). rewrite G. cbn [bind].
  destruct (is_nil (rules p) || is_nil s) eqn:D.
  - split; [assumption|]. intros AR Hs. apply get_prod_some in G. apply AR in G.
    apply orb_true_iff in D. destruct D as [D|D]; apply is_nil_iff in D; contradiction.
  - assert (X : each_rule (fun body => match_loop true (partial_match true g k d) n body k [(s, [], body)]) (rules p) = Ok l /\ l = []).
    { revert l E. induction (rules p) as [|x rs IHr]; intros l E; cbn [each_rule] in *.
      - inversion E; subst. auto.
      - apply bind_ok in E. destruct E as (l1 & E1 & E). apply bind_ok in E. destruct E as (l2 & E2 & E).
        destruct (match_loop_sim n (sequence x) _ (partial_match true g k d)
          (fun m rb y Q => proj1 (IH m rb y Q)) _ _ _ E1) as [E1' ->]. rewrite E1'. cbn [bind].
        assert (IHr' := fun Z => IHr Z l2 E2).
        destruct rs as [|y rs'].
        + cbn in E2. inversion E2; subst. cbn. inversion E; subst. auto.
        + destruct IHr' as [E2' ->]; [destruct (is_nil s); reflexivity || (rewrite orb_true_r in D; discriminate D) || exact D|].
          rewrite E2'. cbn [bind]. inversion E; subst. auto. }
    destruct X as [X ->]. auto.
Qed.

(** ** More fuel *)
Lemma match_loop_mono n body b (c c' : N -> list N -> Res (list pmatch)) :
  (forall m rb l, c m rb = Ok l -> c' m rb = Ok l) ->
  forall k k' st l, (k <= k')%nat -> match_loop b c n body k st = Ok l -> match_loop b c' n body k' st = Ok l.
Proof.
  intros H. induction k as [|k IH]; intros k' [|[[rb trees] rs] st] l Hk E.
  - destruct k'; exact E.
  - discriminate E.
  - destruct k'; exact E.
  - destruct k' as [|k']; [lia|]. assert (Hk' : (k <= k')%nat) by lia. cbn [match_loop] in *.
    assert (X : forall A (f : list pmatch -> Res A) (y : A) s0,
      bind (match_loop b c n body k s0) f = Ok y -> bind (match_loop b c' n body k' s0) f = Ok y).
    { intros A f y s0 Q. apply bind_ok in Q. destruct Q as (z & Q1 & Q2). now rewrite (IH _ _ _ Hk' Q1). }
    destruct rs as [|[x|m] rest]; [|destruct rb as [|x0 rb0]|destruct rb as [|x0 rb0]].
    + destruct (make_tree _ _ _ _); cbn [bind] in *; try discriminate E. now apply X.
    + destruct (make_tree _ _ _ _); cbn [bind] in *; try discriminate E. now apply X.
    + set (rb := x0 :: rb0) in *. destruct (blist_eqb rb x).
      * destruct (make_tree _ _ _ _); cbn [bind] in *; try discriminate E. now apply X.
      * destruct (starts_with rb x); eapply IH; eauto.
    + destruct (make_tree _ _ _ _); cbn [bind] in *; try discriminate E. now apply X.
    + set (rb := x0 :: rb0) in *. apply bind_ok in E. destruct E as (ms & E0 & E). rewrite (H _ _ _ E0). cbn [bind].
      destruct (each_match _ _ _ _ _ _ _); cbn [bind] in *; try discriminate E. now apply X.
Qed.

Lemma each_rule_mono (f f' : list symbol -> Res (list pmatch)) :
  (forall x l, f x = Ok l -> f' x = Ok l) ->
  forall rs l, each_rule f rs = Ok l -> each_rule f' rs = Ok l.
Proof.
  intros H. induction rs as [|x rs IH]; intros l E; cbn [each_rule] in *; [assumption|].
  apply bind_ok in E. destruct E as (l1 & E1 & E). apply bind_ok in E. destruct E as (l2 & E2 & E).
  rewrite (H _ _ E1). cbn [bind]. rewrite (IH _ E2). exact E.
Qed.

Lemma partial_match_mono b g : forall d d' k k' n s l, (d <= d')%nat -> (k <= k')%nat ->
  partial_match b g k d n s = Ok l -> partial_match b g k' d' n s = Ok l.
Proof.
  induction d as [|d IH]; intros d' k k' n s l Hd Hk E; [discriminate|].
  destruct d' as [|d']; [lia|]. cbn [partial_match] in *.
  destruct (get_prod g n); cbn [bind] in *; try discriminate E.
  destruct (is_nil (rules a) || is_nil s); [assumption|].
  eapply each_rule_mono; [|exact E]. intros x y Q. eapply match_loop_mono; [|exact Hk|exact Q].
  intros m rb z W. eapply IH; [|exact Hk|exact W]. lia.
Qed.

(** ** The search ends without left recursion *)
Section Ends.
Variable g : grammar.
Hypothesis IO : names_once g.
Hypothesis NK : names_known g.
Hypothesis AR : all_have_rules g.

Definition ends (n : N) (s : list N) : Prop := exists f l, partial_match true g f f n s = Ok l.
Definition loop_ends (n : N) (body : list symbol) (st : list entry) : Prop :=
  exists f l, match_loop true (partial_match true g f f) n body f st = Ok l.

Lemma loop_more n body f f' st l : (f <= f')%nat ->
  match_loop true (partial_match true g f f) n body f st = Ok l ->
  match_loop true (partial_match true g f' f') n body f' st = Ok l.
Proof.
  intros H. apply match_loop_mono; [|assumption]. intros m rb x. now apply partial_match_mono.
Qed.

Variable n : N.
Variable s : list N.
Variable rank : N -> nat.
Hypothesis ranked : forall n m, comes_first g n m -> (rank m < rank n)%nat.
Hypothesis shorter : forall s' m, (length s' < length s)%nat -> In m (names g) -> ends m s'.
Hypothesis lower : forall m, (rank m < rank n)%nat -> In m (names g) -> ends m s.

Lemma entry_ends body : rule_of g n body -> forall rs pre trees rb st,
  body = pre ++ rs -> fulls g pre trees -> s = pyields trees ++ rb -> rb <> [] ->
  loop_ends n body st -> loop_ends n body ((rb, trees, rs) :: st).
Proof.
  intros R. induction rs as [|[b|m] rest IH]; intros pre trees rb st Eb Fp Es Hr (f & l & E).
  - exists (S f). cbn [match_loop make_tree bind].
    assert (X := match_loop_mono n body true _ (partial_match true g (S f) (S f))
      (fun m rb x => partial_match_mono true g f (S f) f (S f) m rb x ltac:(lia) ltac:(lia)) _ _ _ _ (le_n f) E).
    rewrite X. cbn [bind]. eauto.
  - destruct rb as [|x0 rb0] eqn:Er; [contradiction|]. rewrite <- Er in *.
    assert (X := match_loop_mono n body true _ (partial_match true g (S f) (S f))
      (fun m rb x => partial_match_mono true g f (S f) f (S f) m rb x ltac:(lia) ltac:(lia)) _ _ _ _ (le_n f) E).
    destruct (blist_eqb rb b) eqn:Q.
    { exists (S f). cbn [match_loop make_tree]. rewrite Er in *. rewrite Q. cbn [bind]. rewrite X. cbn [bind]. eauto. }
    destruct (starts_with rb b) eqn:Q'.
    + apply starts_with_iff in Q'. destruct Q' as (r0 & Q').
      assert (K : r0 <> []).
      { intros ->. rewrite app_nil_r in Q'. rewrite Q' in Q. rewrite (proj2 (blist_eqb_eq b b) eq_refl) in Q. discriminate. }
      destruct (IH (pre ++ [Terminal b]) (trees ++ [leaf b]) r0 st) as (f2 & l2 & E2); auto.
      * now rewrite <- app_assoc.
      * apply fulls_app; [assumption|]. constructor. constructor.
      * rewrite Es, Q', pyields_app, pyields_one. cbn [pyield leaf]. now rewrite <- app_assoc.
      * exists f, l. exact E.
      * exists (S f2), l2. cbn [match_loop]. rewrite Er in *. rewrite Q.
        rewrite (proj2 (starts_with_iff (x0 :: rb0) b)) by eauto. rewrite Q', skipn_app_exact.
        eapply match_loop_mono; [|apply le_n|exact E2]. intros m y z. apply partial_match_mono; lia.
    + exists (S f), l. cbn [match_loop]. rewrite Er in *. rewrite Q, Q'. exact X.
  - assert (Hm : In m (names g)).
    { eapply (NK n body); eauto. rewrite Eb. apply in_app_iff. right. now left. }
    assert (En : ends m rb).
    { destruct (pyields trees) as [|y ys] eqn:Ey.
      - cbn in Es. rewrite <- Es. apply lower; [|assumption]. apply ranked. exists pre, rest.
        rewrite <- Eb. split; [assumption|]. rewrite <- Ey. now apply fulls_derives.
      - apply shorter; [|assumption]. rewrite Es, app_length. cbn. lia. }
    destruct En as (f0 & ms & E0).
    destruct (partial_match_spec g f0 IO AR f0 m rb ms Hr E0) as [C1 _].
    assert (Z : forall ms st, (forall t rs r, In (t, rs, r) ms -> good g m rb t r /\ (r <> [] -> rs = [])) ->
      loop_ends n body st -> exists out st', each_match true n body trees rest ms st = Ok (out, st') /\ loop_ends n body st').
    { clear ms E0 C1 f l E st. induction ms as [|[[t mrs] mr] ms IHm]; intros st C Hst; cbn [each_match].
      - eauto.
      - destruct (is_nil mr || is_nil mrs && is_nil rest) eqn:D.
        + destruct (IHm st) as (out & st' & A & B); [intros; apply C; now right|assumption|].
          cbn [make_tree bind]. rewrite A. cbn [bind]. eexists _, st'. split; [reflexivity|assumption].
        + apply orb_false_iff in D. destruct D as [D _]. apply is_nil_false in D.
          destruct (C t mrs mr (or_introl eq_refl)) as [G Q]. rewrite (Q D).
          apply IHm; [intros; apply C; now right|].
          destruct G as [(G & _)|(_ & G & Gy)]; [contradiction|].
          apply (IH (pre ++ [NonTerminal m])); auto.
          * now rewrite <- app_assoc.
          * now apply fulls_app.
          * rewrite Es, Gy, pyields_app, pyields_one. now rewrite <- app_assoc. }
    destruct (Z ms st C1) as (out & st' & A & (f1 & l1 & E1)); [exists f, l; exact E|].
    exists (S (Nat.max f0 f1)). cbn [match_loop]. destruct rb as [|x0 rb0] eqn:Er; [contradiction|]. rewrite <- Er in *.
    rewrite (partial_match_mono true g f0 (S (Nat.max f0 f1)) f0 (S (Nat.max f0 f1)) m rb ms) by (lia || assumption).
    cbn [bind]. rewrite A. cbn [bind fst snd].
    assert (X := match_loop_mono n body true _ (partial_match true g (S (Nat.max f0 f1)) (S (Nat.max f0 f1)))
      (fun m rb x => partial_match_mono true g f1 (S (Nat.max f0 f1)) f1 (S (Nat.max f0 f1)) m rb x ltac:(lia) ltac:(lia))
      f1 (Nat.max f0 f1) _ _ ltac:(lia) E1).
    rewrite X. cbn [bind]. eauto.
Qed.

Lemma production_ends : In n (names g) -> ends n s.
Proof.
  intros Hn. destruct (get_prod_names g n Hn) as (p & G & Ip).
  destruct (is_nil (rules p) || is_nil s) eqn:D.
  { exists 1%nat. cbn [partial_match]. rewrite G. cbn [bind]. rewrite D. eauto. }
  assert (Hs : s <> []) by (apply orb_false_iff in D; destruct D as [_ D]; now apply is_nil_false).
  assert (X : exists f l, each_rule (fun body => match_loop true (partial_match true g f f) n body f [(s, [], body)]) (rules p) = Ok l).
  { assert (Sub : forall x, In x (rules p) -> rule_of g n (sequence x)) by (intros x I; exists p, x; auto).
    clear D. induction (rules p) as [|x rs IHr]; cbn [each_rule]; [exists O; eauto|].
    destruct IHr as (f & l & E); [intros; apply Sub; now right|].
    destruct (entry_ends (sequence x) (Sub x (or_introl eq_refl)) (sequence x) [] [] s []) as (f' & l' & E'); auto.
    - constructor.
    - exists O, []. reflexivity.
    - exists (Nat.max f f'). assert (X := loop_more _ _ f' (Nat.max f f') _ _ ltac:(lia) E').
      exists (l' ++ l). unfold entry in X. rewrite X. cbn [bind].
      rewrite (each_rule_mono _ (fun body => match_loop true (partial_match true g (Nat.max f f') (Nat.max f f')) n body (Nat.max f f') [(s, [], body)])
        (fun y z Q => loop_more n y f (Nat.max f f') _ z ltac:(lia) Q) rs l E). reflexivity. }
  destruct X as (f & l & E). exists (S f), l. cbn [partial_match]. rewrite G. cbn [bind]. rewrite D.
  eapply each_rule_mono; [|exact E]. intros y z Q. eapply match_loop_mono; [|apply Nat.le_succ_diag_r|exact Q].
  intros m rb w. apply partial_match_mono; lia.
Qed.
End Ends.

Lemma search_ends g : names_once g -> names_known g -> all_have_rules g -> no_left_recursion g ->
  forall s n, In n (names g) -> ends g n s.
Proof.
  intros IO NK AR (rank & Rk). intros s. remember (length s) as len eqn:El.
  revert s El. induction len as [len IHl] using lt_wf_ind. intros s El n.
  remember (rank n) as r eqn:Er. revert n Er. induction r as [r IHr] using lt_wf_ind. intros n Er Hn.
  apply (production_ends g IO NK AR n s rank Rk); auto.
  - intros s' m L Hm. apply (IHl (length s')); auto. lia.
  - intros m L Hm. apply (IHr (rank m)); auto. lia.
Qed.
