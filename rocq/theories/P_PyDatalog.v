From Coq Require Import NArith List Bool Lia Arith.
From Verif Require Import M_Base P_Base M_PyGrammar M_Runtime S_Runtime P_Argv S_Grammar M_PyDatalog S_Datalog.
Import ListNotations.
Open Scope N_scope.

(** ** Names *)
Definition codes : list N := map N.of_nat (seq 32 95).
Fixpoint prefixb (a b : list N) : bool :=
  match a, b with [], _ => true | x :: r, y :: s => (x =? y) && prefixb r s | _, [] => false end.
Lemma prefixb_ok a : forall b r, (b = a ++ r) -> prefixb a b = true.
Proof. induction a as [|x a IH]; intros b r ->; cbn; [reflexivity|]. rewrite N.eqb_refl. cbn. now apply (IH _ r). Qed.
Lemma app_comparable (a : list N) : forall b r s, a ++ r = b ++ s -> prefixb a b = true \/ prefixb b a = true.
Proof.
  induction a as [|x a IH]; intros b r s H; [now left|]. destruct b as [|y b]; [now right|].
  cbn in H. injection H as -> H. destruct (IH _ _ _ H) as [E|E]; [left|right]; cbn; rewrite N.eqb_refl; exact E.
Qed.
Lemma codes_free : forallb (fun c => forallb (fun d => (c =? d) || negb (prefixb (valid_char c) (valid_char d))) codes) codes = true.
Proof. vm_compute. reflexivity. Qed.
Lemma in_codes c : 32 <= c <= 126 -> In c codes.
Proof. intros H. unfold codes. apply in_map_iff. exists (N.to_nat c). split; [lia|]. apply in_seq. lia. Qed.
Lemma char_free c d : 32 <= c <= 126 -> 32 <= d <= 126 -> prefixb (valid_char c) (valid_char d) = true -> c = d.
Proof.
  intros C D H. pose proof codes_free as F. rewrite forallb_forall in F. specialize (F c (in_codes c C)). rewrite forallb_forall in F.
  specialize (F d (in_codes d D)). apply orb_true_iff in F. destruct F as [F|F]; [now apply N.eqb_eq|]. rewrite H in F. discriminate.
Qed.
Lemma valid_char_nonempty c : valid_char c <> [].
Proof. unfold valid_char. destruct (alnum c); discriminate. Qed.
Lemma chars_inj a : forall b, printable a -> printable b -> flat_map valid_char a = flat_map valid_char b -> a = b.
Proof.
  induction a as [|c a IH]; intros [|d b] A B H; cbn [flat_map] in H.
  - reflexivity.
  - exfalso. symmetry in H. apply app_eq_nil in H. now apply (valid_char_nonempty d).
  - exfalso. apply app_eq_nil in H. now apply (valid_char_nonempty c).
  - assert (c = d).
    { assert (C := A c (or_introl eq_refl)). assert (D := B d (or_introl eq_refl)).
      destruct (app_comparable _ _ _ _ H) as [P|P]; [now apply char_free|]. symmetry. now apply char_free. }
    subst d. apply app_inv_head in H. f_equal. apply IH; auto; intros x X; [apply A|apply B]; now right.
Qed.
Lemma names_inj a b : printable a -> printable b -> valid_name a = valid_name b -> a = b.
Proof. intros A B H. unfold valid_name in H. injection H as H. now apply chars_inj. Qed.
Lemma digits_printable n : n < 256 -> printable (to_string n).
Proof.
  intros H c I. destruct (to_string_spec n) as ((D & _) & _).
  { eapply N.lt_trans; [exact H|]. vm_compute. reflexivity. }
  rewrite Forall_forall in D. specialize (D c I). unfold digit in D. lia.
Qed.
Lemma to_string_inj a b : a < 256 -> b < 256 -> to_string a = to_string b -> a = b.
Proof.
  intros A B H.
  assert (X : forall n, n < 256 -> decimal (to_string n) n).
  { intros n N. apply to_string_spec. eapply N.lt_trans; [exact N|]. vm_compute. reflexivity. }
  destruct (X a A) as (_ & _ & _ & <-). destruct (X b B) as (_ & _ & _ & <-). now rewrite H.
Qed.
Lemma true_printable : printable TRUE_FACT.
Proof. intros c I. unfold TRUE_FACT in I. cbn in I. repeat (destruct I as [<-|I]; [lia|]). destruct I. Qed.
Lemma blist_eqb_ok a : forall b, blist_eqb a b = true <-> a = b.
Proof.
  induction a as [|x a IH]; intros [|y b]; cbn; split; intros H; try reflexivity; try discriminate.
  - apply andb_true_iff in H. destruct H as [H1 H2]. apply N.eqb_eq in H1. apply IH in H2. congruence.
  - injection H as -> ->. rewrite N.eqb_refl. cbn. now apply IH.
Qed.
Lemma true_not_byte b : b < 256 -> valid_name TRUE_FACT <> valid_name (to_string b).
Proof.
  intros B H. apply names_inj in H; [|apply true_printable|now apply digits_printable].
  destruct (to_string_spec b) as ((D & _) & _). { eapply N.lt_trans; [exact B|]. vm_compute. reflexivity. }
  rewrite <- H in D. rewrite Forall_forall in D. specialize (D 80 (or_introl eq_refl)). unfold digit in D. lia.
Qed.

(** ** Slices *)
Lemma between_nil data i : i <= N.of_nat (length data) -> between data i i [].
Proof.
  intros H. exists (firstn (N.to_nat i) data), (skipn (N.to_nat i) data). cbn. rewrite firstn_skipn, firstn_length.
  repeat split; lia.
Qed.
Lemma between_app data i j k v w : between data i j v -> between data j k w -> between data i k (v ++ w).
Proof.
  intros (p & q & E & L1 & L2) (p' & q' & E' & L1' & L2').
  assert (P : p' = p ++ v).
  { assert (H : firstn (length p') data = p') by (rewrite E'; now rewrite firstn_app, Nat.sub_diag, firstn_O, app_nil_r, firstn_all).
    assert (H' : firstn (length (p ++ v)) data = p ++ v).
    { rewrite E. rewrite app_assoc. now rewrite firstn_app, Nat.sub_diag, firstn_O, app_nil_r, firstn_all. }
    rewrite <- H, <- H'. f_equal. rewrite app_length. lia. }
  exists p, q'. rewrite app_length. split; [|subst p'; rewrite app_length in *; lia].
  rewrite E', P, <- !app_assoc. reflexivity.
Qed.
Lemma between_split data i k v w : between data i k (v ++ w) -> exists j, between data i j v /\ between data j k w.
Proof.
  intros (p & q & E & L1 & L2). rewrite app_length in L2. exists (N.of_nat (length p + length v)). split.
  - exists p, (w ++ q). split; [now rewrite E, <- app_assoc|]. auto.
  - exists (p ++ v), q. rewrite app_length. split; [now rewrite E, <- !app_assoc|]. lia.
Qed.
Lemma between_bound data i j w : between data i j w -> i <= j /\ j <= N.of_nat (length data).
Proof. intros (p & q & -> & L1 & L2). rewrite !app_length. lia. Qed.
Lemma between_inv data i w : between data i i w -> w = [].
Proof. intros (p & q & _ & L1 & L2). destruct w; [reflexivity|]. cbn in L2. lia. Qed.

Section Text.
  Variable text : N -> list N.
  Lemma collect_in l : forall P c, collect l = Ok P -> (In c P <-> In (Ok c) l).
  Proof.
    induction l as [|r l IH]; intros Q c H; cbn [collect] in H.
    - injection H as <-. split; intros [].
    - apply bind_ok in H. destruct H as (c' & E & H). apply bind_ok in H. destruct H as (Q' & E' & H). injection H as <-.
      cbn. rewrite (IH _ _ E'). rewrite E. split; (intros [X|X]; [left; congruence|now right]).
  Qed.
  Lemma collect_ok l : forall P r, collect l = Ok P -> In r l -> exists c, r = Ok c.
  Proof.
    induction l as [|r' l IH]; intros Q r H I; [destruct I|]. cbn [collect] in H.
    apply bind_ok in H. destruct H as (c' & E & H). apply bind_ok in H. destruct H as (Q' & E' & H).
    destruct I as [<-|I]; [now exists c'|]. now apply (IH Q').
  Qed.
  (* the body of the clause for a rule *)
  Definition body_atoms (s : list symbol) : list atom := match s with [] => true_body | _ => rule_list text s RULE_START end.
  Lemma rule_clause_eq n r : rule_clause text n r = make_clause text n (body_atoms (sequence r)).
  Proof. unfold rule_clause, body_atoms. destruct (sequence r); reflexivity. Qed.
  (* variables along a rule *)
  Definition width (t : symbol) : N := match t with Terminal b => N.of_nat (length b) | NonTerminal _ => 1 end.
  Fixpoint widths (s : list symbol) : N := match s with [] => 0 | t :: r => width t + widths r end.
  Lemma byte_end bs : forall st, snd (byte_atoms bs st) = st + N.of_nat (length bs).
  Proof. induction bs as [|b r IH]; intros st; cbn [byte_atoms]; [cbn; lia|]. specialize (IH (st + 1)). destruct (byte_atoms r (st + 1)) as [l e]. cbn [snd length] in *. lia. Qed.
  Lemma term_end t st : snd (term_atoms text t st) = st + width t.
  Proof. destruct t as [b|n]; cbn [term_atoms width]; [apply byte_end|]. destruct (blist_eqb (text n) TRUE_FACT); reflexivity. Qed.
  Lemma rule_list_cons t r st : rule_list text (t :: r) st = fst (term_atoms text t st) ++ rule_list text r (st + width t).
  Proof. cbn [rule_list]. rewrite <- (term_end t st). destruct (term_atoms text t st). reflexivity. Qed.
  Lemma byte_last bs : forall st d, bs <> [] -> end_char (last (fst (byte_atoms bs st)) d) = st + N.of_nat (length bs).
  Proof.
    induction bs as [|b r IH]; intros st d H; [congruence|]. cbn [byte_atoms].
    destruct (byte_atoms r (st + 1)) as [l e] eqn:E. cbn [fst].
    destruct r as [|b' r].
    - cbn in E. injection E as <- <-. cbn. lia.
    - specialize (IH (st + 1) d). rewrite E in IH. cbn [fst] in IH.
      assert (l <> []). { cbn [byte_atoms] in E. destruct (byte_atoms r (st + 1 + 1)). injection E as <- _. discriminate. }
      destruct l; [congruence|]. cbn [last] in *. rewrite IH by discriminate. cbn [length]. lia.
  Qed.
  Lemma last_app' (l : list atom) : forall m d, m <> [] -> last (l ++ m) d = last m d.
  Proof.
    induction l as [|x l IH]; intros m d H; [reflexivity|]. cbn [app]. specialize (IH m d H).
    destruct (l ++ m) eqn:E; [apply app_eq_nil in E; destruct E; congruence|]. exact IH.
  Qed.
  Lemma rule_list_nil s st : rule_list text s st = [] -> widths s = 0.
  Proof.
    revert st. induction s as [|t r IH]; intros st H; [reflexivity|]. rewrite rule_list_cons in H. apply app_eq_nil in H. destruct H as [H1 H2].
    apply IH in H2. cbn [widths]. rewrite H2. destruct t as [[|b bs]|n]; cbn [width length]; [lia| |].
    - cbn [term_atoms byte_atoms] in H1. destruct (byte_atoms bs (st + 1)); discriminate.
    - cbn [term_atoms] in H1. destruct (blist_eqb (text n) TRUE_FACT); discriminate.
  Qed.
  Lemma zero_width s st : widths s = 0 -> rule_list text s st = [].
  Proof.
    revert st. induction s as [|t r IH]; intros st Z; [reflexivity|]. cbn [widths] in Z. rewrite rule_list_cons, IH by lia. rewrite app_nil_r.
    destruct t as [[|b bs]|n]; cbn [width length] in Z; [reflexivity|lia|lia].
  Qed.
  Lemma rule_list_last s : forall st d, (forall n, In (NonTerminal n) s -> text n <> TRUE_FACT) -> rule_list text s st <> [] ->
    end_char (last (rule_list text s st) d) = st + widths s.
  Proof.
    induction s as [|t r IH]; intros st d NT H; [now destruct H|]. rewrite rule_list_cons in *. cbn [widths].
    destruct (rule_list text r (st + width t)) as [|x l] eqn:E.
    - apply rule_list_nil in E as E0. rewrite E0, app_nil_r in *. destruct t as [bs|n]; cbn [term_atoms width] in *.
      + rewrite byte_last; [lia|]. destruct bs; [now destruct H|discriminate].
      + destruct (blist_eqb (text n) TRUE_FACT) eqn:B.
        * apply blist_eqb_ok in B. now destruct (NT n (or_introl eq_refl)).
        * cbn. lia.
    - rewrite last_app' by discriminate. rewrite <- E, IH; [lia| |rewrite E; discriminate]. intros n I. apply NT. now right.
  Qed.
  Lemma make_clause_body n body c : make_clause text n (body_atoms body) = Ok c -> c_body c = body_atoms body.
  Proof. unfold make_clause. destruct (body_atoms body); [discriminate|]. injection 1 as <-. reflexivity. Qed.
    Lemma byte_range bs : forall st a v, In a (fst (byte_atoms bs st)) -> In v (a_args a) -> st <= v <= st + N.of_nat (length bs).
    Proof.
      induction bs as [|b r IH]; intros st a v I V; [destruct I|]. cbn [byte_atoms] in I. specialize (IH (st + 1)).
      destruct (byte_atoms r (st + 1)) as [l e]. cbn [fst] in *. cbn [length]. destruct I as [<-|I].
      - cbn in V. lia.
      - specialize (IH a v I V). lia.
    Qed.
    Lemma list_range s : forall st a v, In a (rule_list text s st) -> In v (a_args a) -> st <= v <= st + widths s.
    Proof.
      induction s as [|t r IH]; intros st a v I V; [destruct I|]. rewrite rule_list_cons in I. cbn [widths]. apply in_app_or in I. destruct I as [I|I].
      - destruct t as [bs|n]; cbn [term_atoms width] in *.
        + pose proof (byte_range bs st a v I V). lia.
        + destruct (blist_eqb (text n) TRUE_FACT); destruct I as [<-|[]]; cbn in V; lia.
      - specialize (IH _ _ _ I V). lia.
    Qed.
End Text.

Section G.
  Variable text : N -> list N.
  Variable g : grammar.
  Variable P : list clause.
  Hypothesis DP : datalog text g = Ok P.
  (** The names of the productions. *)
  Definition name (n : N) : Prop := In n (map fst (productions g)) \/ exists m body, rule_of g m body /\ In (NonTerminal n) body.
  Hypothesis T_print : forall n, name n -> printable (text n).
  Hypothesis T_inj : forall n m, name n -> name m -> text n = text m -> n = m.
  Hypothesis T_true : forall n, name n -> text n <> TRUE_FACT.
  Hypothesis T_byte : forall n b, name n -> b < 256 -> text n <> to_string b.
  Hypothesis G_byte : forall n body bs b, rule_of g n body -> In (Terminal bs) body -> In b bs -> b < 256.
  Hypothesis G_rules : forall n p, In (n, p) (productions g) -> rules p <> [].

  Lemma clauses_of c : In c P <-> exists n body, rule_of g n body /\ make_clause text n (body_atoms text body) = Ok c.
  Proof.
    rewrite (collect_in _ _ c DP). rewrite in_flat_map. split.
    - intros ((n & p) & I & C). unfold production_clauses in C. cbn [fst snd] in C.
      assert (R : In (Ok c) (map (rule_clause text n) (rules p))).
      { pose proof (G_rules n p I). destruct (rules p); [congruence|exact C]. }
      apply in_map_iff in R. destruct R as (r & E & R). exists n, (sequence r). rewrite (rule_clause_eq text) in E. split; [|exact E].
      exists p, r. auto.
    - intros (n & body & (p & r & I & R & E) & C). exists (n, p). split; [exact I|]. unfold production_clauses. cbn [fst snd].
      assert (X : In (Ok c) (map (rule_clause text n) (rules p))).
      { apply in_map_iff. exists r. split; [|exact R]. now rewrite (rule_clause_eq text), E. }
      destruct (rules p); [destruct R|exact X].
  Qed.
  Lemma clause_exists n body : rule_of g n body -> exists c, make_clause text n (body_atoms text body) = Ok c.
  Proof.
    intros (p & r & I & R & E). apply (collect_ok _ _ _ DP). apply in_flat_map. exists (n, p). split; [exact I|].
    unfold production_clauses. cbn [fst snd].
    assert (X : In (make_clause text n (body_atoms text body)) (map (rule_clause text n) (rules p))).
    { apply in_map_iff. exists r. split; [|exact R]. now rewrite (rule_clause_eq text), E. }
    destruct (rules p); [destruct R|exact X].
  Qed.

  Lemma make_clause_head n body c : rule_of g n body -> make_clause text n (body_atoms text body) = Ok c ->
    c_head c = mkAtom (valid_name (text n)) [RULE_START; RULE_START + widths body].
  Proof.
    intros R. unfold make_clause. destruct (body_atoms text body) as [|a r] eqn:B; [discriminate|]. injection 1 as <-. cbn [c_head]. do 3 f_equal.
    destruct body as [|t s].
    - cbn in B. injection B as <- <-. reflexivity.
    - assert (NT : forall m, In (NonTerminal m) (t :: s) -> text m <> TRUE_FACT) by (intros m I; apply T_true; right; eauto).
      pose proof (rule_list_last text (t :: s) RULE_START a NT) as L. unfold body_atoms in B. rewrite B in L.
      specialize (L ltac:(discriminate)). rewrite <- L. f_equal.
      destruct r; [reflexivity|]. cbn [last]. reflexivity.
  Qed.

  Section Input.
    Variable data : list N.
    Hypothesis D_byte : forall b, In b data -> b < 256.
    (** The facts: bytes as the command adds them, and true facts for the positions [at_]. *)
    Variable F : list fact.
    Hypothesis F_sound : forall f, In f F ->
      (f_rel f = valid_name TRUE_FACT /\ exists i, i <= N.of_nat (length data) /\ f_args f = [i]) \/
      (exists i b, between data i (i + 1) [b] /\ f = mkFact (valid_name (to_string b)) [i; i + 1]).
    Hypothesis F_bytes : forall i b, between data i (i + 1) [b] -> In (mkFact (valid_name (to_string b)) [i; i + 1]) F.

    (** What a relation means. *)
    Definition meaning (r : list N) (args : list N) : Prop :=
      (forall n, name n -> r = valid_name (text n) -> exists i j w, args = [i; j] /\ between data i j w /\ language g n w) /\
      (forall b, b < 256 -> r = valid_name (to_string b) -> exists i, args = [i; i + 1] /\ between data i (i + 1) [b]) /\
      (r = valid_name TRUE_FACT -> exists i, args = [i] /\ i <= N.of_nat (length data)).

    Lemma sound_bytes bs value : forall st, (forall b, In b bs -> b < 256) ->
      value st <= N.of_nat (length data) ->
      (forall a, In a (fst (byte_atoms bs st)) -> meaning (a_rel a) (map value (a_args a))) ->
      between data (value st) (value (st + N.of_nat (length bs))) bs.
    Proof.
      induction bs as [|b r IH]; intros st B LB H.
      - cbn [length]. rewrite N.add_0_r. now apply between_nil.
      - cbn [byte_atoms] in H. specialize (IH (st + 1)). destruct (byte_atoms r (st + 1)) as [l e]. cbn [fst] in *.
        destruct (H _ (or_introl eq_refl)) as (_ & M & _). cbn [byte_atom a_rel a_args map] in M.
        destruct (M b (B b (or_introl eq_refl)) eq_refl) as (i & E & W). injection E as E1 E2.
        replace (st + N.of_nat (length (b :: r))) with (st + 1 + N.of_nat (length r)) by (cbn [length]; lia).
        change (b :: r) with ([b] ++ r). apply (between_app _ _ (value (st + 1))); [rewrite E2, E1; exact W|].
        apply IH; [intros x X; apply B; now right| |intros a A; apply H; now right].
        apply between_bound in W. lia.
    Qed.
    Lemma sound_rule value n0 body0 : rule_of g n0 body0 -> forall s st, (forall t, In t s -> In t body0) ->
      value st <= N.of_nat (length data) ->
      (forall a, In a (rule_list text s st) -> meaning (a_rel a) (map value (a_args a))) ->
      exists w, between data (value st) (value (st + widths s)) w /\ derives (rule_of g) s w.
    Proof.
      intros R s. induction s as [|t r IH]; intros st Sub LB H.
      - exists []. cbn [widths]. rewrite N.add_0_r. split; [now apply between_nil|constructor].
      - rewrite rule_list_cons in H. cbn [widths]. rewrite N.add_assoc.
        assert (IH' : value (st + width t) <= N.of_nat (length data) -> exists w, between data (value (st + width t)) (value (st + width t + widths r)) w /\ derives (rule_of g) r w).
        { intros LB'. apply IH; [intros x X; apply Sub; now right|exact LB'|]. intros a A. apply H, in_or_app. now right. }
        destruct t as [bs|m]; cbn [term_atoms width] in *.
        + pose proof (sound_bytes bs value st) as S.
          assert (B : between data (value st) (value (st + N.of_nat (length bs))) bs).
          { apply S; [intros b I; eapply G_byte; [exact R|apply Sub; now left|exact I]|exact LB|]. intros a A. apply H, in_or_app. now left. }
          destruct IH' as (w & W & D); [apply between_bound in B; lia|].
          exists (bs ++ w). split; [now apply between_app with (j := value (st + N.of_nat (length bs)))|now constructor].
        + assert (NM : name m) by (right; exists n0, body0; split; [exact R|apply Sub; now left]).
          destruct (blist_eqb (text m) TRUE_FACT) eqn:E; [apply blist_eqb_ok in E; now destruct (T_true m NM)|].
          destruct (H (mkAtom (valid_name (text m)) [st; st + 1])) as (M & _); [now left|].
          destruct (M m NM eq_refl) as (i & j & v & A & V & L). cbn [a_args map] in A. injection A as A1 A2.
          assert (B : between data (value st) (value (st + 1)) v) by (rewrite A1, A2; exact V).
          destruct IH' as (w & W & D); [apply between_bound in B; lia|].
          exists (v ++ w). split; [now apply between_app with (j := value (st + 1))|].
          unfold language in L. inversion L as [| |m' body seq v' w' R' D' DN]; subst. inversion DN; subst. rewrite app_nil_r. econstructor; eauto.
    Qed.

    Lemma rule_name n body : rule_of g n body -> name n.
    Proof. intros (p & r & I & _). left. apply in_map_iff. exists (n, p). auto. Qed.

    (* a first atom puts the first variable into the input *)
    Lemma first_bound value n body : rule_of g n body -> widths body <> 0 ->
      (forall a, In a (rule_list text body RULE_START) -> meaning (a_rel a) (map value (a_args a))) -> value RULE_START <= N.of_nat (length data).
    Proof.
      intros R W H.
      assert (X : forall s st, (forall t, In t s -> In t body) -> widths s <> 0 ->
        (forall a, In a (rule_list text s st) -> meaning (a_rel a) (map value (a_args a))) -> value st <= N.of_nat (length data)).
      { induction s as [|t r IH]; intros st Sub W' H'; [now destruct W'|]. rewrite rule_list_cons in H'. destruct t as [[|b bs]|m].
        - cbn [widths width length] in W'. cbn [width length] in H'. rewrite N.add_0_r in H'. apply IH; [intros x I; apply Sub; now right|lia|].
          intros a A. apply H', in_or_app. now right.
        - cbn [term_atoms byte_atoms] in H'. destruct (byte_atoms bs (st + 1)) as [l e]. cbn [fst] in H'.
          assert (B : b < 256) by (eapply G_byte; [exact R|apply Sub; now left|now left]).
          destruct (H' (byte_atom b st) (or_introl eq_refl)) as (_ & M & _). destruct (M b B eq_refl) as (i & E & V).
          cbn in E. injection E as E1 E2. apply between_bound in V. lia.
        - assert (NM : name m) by (right; exists n, body; split; [exact R|apply Sub; now left]).
          cbn [term_atoms] in H'. destruct (blist_eqb (text m) TRUE_FACT) eqn:E; [apply blist_eqb_ok in E; now destruct (T_true m NM)|].
          destruct (H' (mkAtom (valid_name (text m)) [st; st + 1])) as (M & _); [now left|].
          destruct (M m NM eq_refl) as (i & j & v & A & V & _). cbn in A. injection A as A1 A2. apply between_bound in V. lia. }
      now apply (X body).
    Qed.

    Lemma holds_meaning r args : holds P F r args -> meaning r args.
    Proof.
      induction 1 as [f I|c value I Hb IH].
      - destruct (F_sound f I) as [(E & i & Le & A)|(i & b & W & E)].
        + rewrite A, E. split; [|split].
          * intros n N' X. exfalso. apply names_inj in X; [|apply true_printable|now apply T_print]. symmetry in X. now apply (T_true n).
          * intros b B X. exfalso. now apply (true_not_byte b).
          * intros _. now exists i.
        + subst f. cbn [f_rel f_args]. assert (B : b < 256).
          { apply D_byte. destruct W as (p & q & -> & _). apply in_or_app. right. now left. }
          split; [|split].
          * intros n N' X. exfalso. apply names_inj in X; [|now apply digits_printable|now apply T_print]. symmetry in X. now apply (T_byte n b).
          * intros b' B' X. apply names_inj in X; [|now apply digits_printable|now apply digits_printable]. apply to_string_inj in X; auto. subst b'. now exists i.
          * intros X. exfalso. symmetry in X. now apply (true_not_byte b).
      - apply clauses_of in I. destruct I as (n & body & R & C).
        rewrite (make_clause_body _ _ _ _ C) in IH. rewrite (make_clause_head _ _ _ R C). cbn [a_rel a_args map].
        assert (NM := rule_name _ _ R).
        split; [|split].
        + intros m Nm X. apply names_inj in X; [|now apply T_print|now apply T_print]. apply T_inj in X; auto. subst m.
          destruct body as [|t s].
          * cbn [body_atoms widths]. rewrite N.add_0_r. destruct (IH _ (or_introl eq_refl)) as (_ & _ & M). destruct (M eq_refl) as (i & E & Le).
            cbn in E. injection E as E. exists (value RULE_START), (value RULE_START), []. split; [reflexivity|]. split; [apply between_nil; lia|].
            apply (derives_nonterminal _ n [] [] [] []); [exact R|constructor|constructor].
          * assert (W : widths (t :: s) <> 0).
            { intros Z. unfold make_clause, body_atoms in C. rewrite (zero_width text (t :: s) RULE_START Z) in C. discriminate. }
            unfold body_atoms in IH.
            assert (LB : value RULE_START <= N.of_nat (length data)) by (now apply (first_bound value n (t :: s))).
            destruct (sound_rule value n (t :: s) R (t :: s) RULE_START) as (w & B & D); [auto|exact LB|exact IH|].
            exists (value RULE_START), (value (RULE_START + widths (t :: s))), w. split; [reflexivity|]. split; [exact B|].
            rewrite <- (app_nil_r w). econstructor; [exact R|exact D|constructor].
        + intros b B X. exfalso. apply names_inj in X; [|now apply T_print|now apply digits_printable]. now apply (T_byte n b).
        + intros X. exfalso. apply names_inj in X; [|now apply T_print|apply true_printable]. now apply (T_true n).
    Qed.
    Theorem sound n i j : name n -> holds P F (valid_name (text n)) [i; j] -> exists w, between data i j w /\ language g n w.
    Proof.
      intros Nm H. destruct (holds_meaning _ _ H) as (M & _). destruct (M n Nm eq_refl) as (i' & j' & w & E & B & L).
      injection E as <- <-. now exists w.
    Qed.

    (** Completeness.  Empty rules need true facts. *)
    Variable at_ : N -> Prop.
    Hypothesis F_true : forall i, at_ i -> In (mkFact (valid_name TRUE_FACT) [i]) F.
    Hypothesis E_true : forall n i, rule_of g n [] -> i <= N.of_nat (length data) -> at_ i.

    Definition along (st : N) (ps : list N) (v : N) : N := nth (N.to_nat (v - st)) ps 0.
    (* positions for the atoms of a sequence *)
    Definition placed (s : list symbol) (i j : N) : Prop :=
      forall st, exists ps, length ps = S (N.to_nat (widths s)) /\ hd 0 ps = i /\ last ps 0 = j /\
        forall a, In a (rule_list text s st) -> holds P F (a_rel a) (map (along st ps) (a_args a)).
    Lemma along_shift st k ps qs v : st + k <= v -> length ps = N.to_nat k -> along st (ps ++ qs) v = along (st + k) qs v.
    Proof. intros H L. unfold along. rewrite app_nth2 by lia. f_equal. lia. Qed.
    Lemma along_left st ps qs v : (N.to_nat (v - st) < length ps)%nat -> along st (ps ++ qs) v = along st ps v.
    Proof. intros L. unfold along. now rewrite app_nth1. Qed.
    Lemma map_along st st' ps qs args : (forall v, In v args -> along st ps v = along st' qs v) -> map (along st ps) args = map (along st' qs) args.
    Proof. intros H. now apply map_ext_in. Qed.

    Lemma placed_bytes bs : forall i j, between data i j bs -> forall st, exists ps, length ps = S (length bs) /\ hd 0 ps = i /\ last ps 0 = j /\
        forall a, In a (fst (byte_atoms bs st)) -> holds P F (a_rel a) (map (along st ps) (a_args a)).
    Proof.
      induction bs as [|b r IH]; intros i j B st.
      - exists [i]. destruct B as (p & q & _ & L1 & L2). cbn in *. repeat split; [lia|]. intros a [].
      - change (b :: r) with ([b] ++ r) in B. apply between_split in B. destruct B as (k & B1 & B2).
        assert (k = i + 1) as ->. { destruct B1 as (p & q & _ & L1 & L2). cbn in L2. lia. }
        destruct (IH _ _ B2 (st + 1)) as (ps & L & H1 & H2 & H). exists (i :: ps).
        cbn [byte_atoms]. pose proof (byte_range text r (st + 1)) as BR. destruct (byte_atoms r (st + 1)) as [l e] eqn:E. cbn [fst] in *.
        split; [cbn; lia|]. split; [reflexivity|]. split; [destruct ps; [discriminate|exact H2]|].
        intros a [<-|A].
        + cbn [byte_atom a_rel a_args map]. unfold along at 1 2. rewrite N.sub_diag. replace (st + 1 - st) with 1 by lia. cbn [N.to_nat nth].
          destruct ps as [|x ps]; [discriminate|]. cbn in H1. subst x. change (Pos.to_nat 1) with 1%nat. cbn [nth].
          apply (holds_fact P F (mkFact (valid_name (to_string b)) [i; i + 1])). now apply F_bytes.
        + specialize (H a A). rewrite (map_along st (st + 1) (i :: ps) ps); [exact H|]. intros v V. specialize (BR a v A V).
          change (i :: ps) with ([i] ++ ps). apply along_shift; [lia|reflexivity].
    Qed.

    Lemma last_cons_app (ps qs : list N) : qs <> [] -> last (ps ++ qs) 0 = last qs 0.
    Proof.
      intros H. induction ps as [|x ps IH]; [reflexivity|]. cbn [app]. destruct (ps ++ qs) eqn:E; [apply app_eq_nil in E; destruct E; congruence|exact IH].
    Qed.
    (* join two placements: ps ends where qs starts *)
    Lemma join_places st k (ps qs : list N) s rest :
      length ps = S (N.to_nat k) -> qs <> [] -> last ps 0 = hd 0 qs ->
      (forall a, In a s -> forall v, In v (a_args a) -> st <= v <= st + k) ->
      (forall a, In a s -> holds P F (a_rel a) (map (along st ps) (a_args a))) ->
      (forall a, In a rest -> forall v, In v (a_args a) -> st + k <= v) ->
      (forall a, In a rest -> holds P F (a_rel a) (map (along (st + k) qs) (a_args a))) ->
      exists zs, length zs = (N.to_nat k + length qs)%nat /\ hd 0 zs = hd 0 ps /\ last zs 0 = last qs 0 /\
        forall a, In a (s ++ rest) -> holds P F (a_rel a) (map (along st zs) (a_args a)).
    Proof.
      intros L NE J R1 H1 R2 H2.
      destruct (exists_last (l := ps)) as (ps' & x & ->); [destruct ps; discriminate|].
      rewrite last_last in J. rewrite app_length in L. cbn in L.
      exists (ps' ++ qs). split; [rewrite app_length; lia|].
      split. { destruct ps' as [|y ps']; cbn; [symmetry; exact J|reflexivity]. }
      split; [now apply last_cons_app|].
      intros a A. apply in_app_or in A. destruct A as [A|A].
      - rewrite (map_along st st (ps' ++ qs) (ps' ++ [x])); [now apply H1|]. intros v V. specialize (R1 a A v V).
        destruct (Nat.lt_ge_cases (N.to_nat (v - st)) (length ps')) as [Lt|Ge].
        + now rewrite !along_left by exact Lt.
        + unfold along. rewrite !app_nth2 by lia. replace (N.to_nat (v - st) - length ps')%nat with O by lia.
          cbn [nth]. rewrite J. destruct qs; reflexivity.
      - rewrite (map_along st (st + k) (ps' ++ qs) qs); [now apply H2|]. intros v V. specialize (R2 a A v V). apply along_shift; lia.
    Qed.

    Lemma placed_rule n body i j : rule_of g n body -> placed body i j -> i <= N.of_nat (length data) -> (body = [] -> i = j) -> holds P F (valid_name (text n)) [i; j].
    Proof.
      intros R Pl LB E0. destruct (clause_exists n body R) as (c & C).
      assert (I : In c P) by (apply clauses_of; eauto).
      destruct (Pl RULE_START) as (ps & L & H1 & H2 & H).
      assert (X := holds_clause P F c (along RULE_START ps) I). rewrite (make_clause_head _ _ _ R C), (make_clause_body _ _ _ _ C) in X. cbn [a_rel a_args map] in X.
      replace [i; j] with [along RULE_START ps RULE_START; along RULE_START ps (RULE_START + widths body)].
      - apply X. destruct body as [|t s]; [|exact H]. cbn [body_atoms]. intros a [<-|[]]. cbn [a_rel a_args map].
        apply (holds_fact P F (mkFact (valid_name TRUE_FACT) [along RULE_START ps RULE_START])). apply F_true.
        apply (E_true n); [exact R|]. unfold along. rewrite N.sub_diag. cbn [N.to_nat]. destruct ps as [|x ps]; [discriminate|]. cbn in *. now subst x.
      - f_equal; [|f_equal].
        + unfold along. rewrite N.sub_diag. destruct ps as [|x ps]; [discriminate|]. cbn in *. exact H1.
        + unfold along. replace (RULE_START + widths body - RULE_START) with (widths body) by lia.
          rewrite <- H2. clear -L. revert L. generalize (N.to_nat (widths body)). intros k. revert k.
          induction ps as [|x ps IH]; intros k L; [discriminate|]. cbn in L. injection L as L. destruct ps as [|y ps].
          * cbn in L. subst k. reflexivity.
          * destruct k as [|k]; [discriminate|]. change (nth (S k) (x :: y :: ps) 0) with (nth k (y :: ps) 0). change (last (x :: y :: ps) 0) with (last (y :: ps) 0). apply IH. cbn in *. congruence.
    Qed.

    Lemma derives_placed s w : derives (rule_of g) s w -> (forall m, In (NonTerminal m) s -> name m) ->
      forall i j, between data i j w -> placed s i j.
    Proof.
      induction 1 as [|b s w D IH|n body s v w R D1 IH1 D2 IH2]; intros Nm i j B.
      - intros st. exists [i]. destruct B as (p & q & _ & L1 & L2). cbn in *. repeat split; [lia|]. intros a [].
      - apply between_split in B. destruct B as (k & B1 & B2). intros st.
        destruct (IH (fun m I => Nm m (or_intror I)) _ _ B2 (st + N.of_nat (length b))) as (qs & L & H1 & H2 & H).
        destruct (placed_bytes b i k B1 st) as (ps & L' & H1' & H2' & H').
        destruct (join_places st (N.of_nat (length b)) ps qs (fst (byte_atoms b st)) (rule_list text s (st + N.of_nat (length b)))) as (zs & Z1 & Z2 & Z3 & Z4); auto.
        + lia.
        + destruct qs; discriminate.
        + congruence.
        + intros a A x X. now apply (byte_range text b st a).
        + intros a A x X. now apply (list_range text s (st + N.of_nat (length b)) a).
        + exists zs. rewrite rule_list_cons. cbn [widths width term_atoms]. split; [lia|]. split; [congruence|]. split; [congruence|exact Z4].
      - apply between_split in B. destruct B as (k & B1 & B2). intros st.
        destruct (IH2 (fun m I => Nm m (or_intror I)) _ _ B2 (st + 1)) as (qs & L & H1 & H2 & H).
        assert (Nb : forall m, In (NonTerminal m) body -> name m) by (intros m I; right; eauto).
        assert (HN : holds P F (valid_name (text n)) [i; k]).
        { apply (placed_rule n body); [exact R|now apply IH1|apply between_bound in B1; lia|].
          intros ->. inversion D1; subst. destruct B1 as (p & q & _ & E1 & E2). cbn in E2. lia. }
        assert (TF : blist_eqb (text n) TRUE_FACT = false).
        { destruct (blist_eqb (text n) TRUE_FACT) eqn:E; [|reflexivity]. apply blist_eqb_ok in E. destruct (T_true n); [|exact E]. apply Nm. now left. }
        destruct (join_places st 1 [i; k] qs [mkAtom (valid_name (text n)) [st; st + 1]] (rule_list text s (st + 1))) as (zs & Z1 & Z2 & Z3 & Z4); auto.
        + destruct qs; discriminate.
        + intros a [<-|[]] x X. cbn in X. lia.
        + intros a [<-|[]]. cbn [a_rel a_args map]. unfold along. rewrite N.sub_diag. replace (st + 1 - st) with 1 by lia. exact HN.
        + intros a A x X. now apply (list_range text s (st + 1) a).
        + exists zs. rewrite rule_list_cons. cbn [widths width term_atoms]. rewrite TF. cbn [fst]. split; [lia|]. split; [exact Z2|]. split; [congruence|exact Z4].
    Qed.

    Theorem complete n i j w : name n -> language g n w -> between data i j w -> holds P F (valid_name (text n)) [i; j].
    Proof.
      intros Nm L B. unfold language in L. inversion L as [| |m body s v w' R D DN]; subst. inversion DN; subst. rewrite app_nil_r in B.
      apply (placed_rule n body); [exact R| |apply between_bound in B; lia|].
      - apply (derives_placed body v); [exact D| |exact B]. intros m I. right. eauto.
      - intros ->. inversion D; subst. destruct B as (p & q & _ & E1 & E2). cbn in E2. lia.
    Qed.
  End Input.
End G.

Lemma input_facts_in data : forall i f, In f (input_facts data i) <->
  exists p b q, data = p ++ b :: q /\ (f = mkFact (valid_name TRUE_FACT) [i + N.of_nat (length p)] \/
    f = mkFact (valid_name (to_string b)) [i + N.of_nat (length p); i + N.of_nat (length p) + 1]).
Proof.
  induction data as [|c r IH]; intros i f; cbn [input_facts].
  - split; [intros []|]. intros (p & b & q & E & _). destruct p; discriminate.
  - split.
    + intros [<-|[<-|I]].
      * exists [], c, r. cbn. rewrite N.add_0_r. auto.
      * exists [], c, r. cbn. rewrite N.add_0_r. auto.
      * apply IH in I. destruct I as (p & b & q & -> & H). exists (c :: p), b, q. cbn [app length]. split; [reflexivity|].
        replace (i + N.of_nat (S (length p))) with (i + 1 + N.of_nat (length p)) by lia. exact H.
    + intros ([|x p] & b & q & E & H).
      * cbn in E. injection E as -> ->. cbn in H. rewrite N.add_0_r in H. destruct H as [->| ->]; [now left|right; now left].
      * cbn in E. injection E as -> ->. right. right. apply IH. exists p, b, q. split; [reflexivity|].
        cbn [length] in H. replace (i + 1 + N.of_nat (length p)) with (i + N.of_nat (S (length p))) by lia. exact H.
Qed.
