(** C89: the Datalog program made from a grammar recognises what the grammar derives. *)
From Coq Require Import NArith List Bool Lia.
From Verif Require Import M_Base P_Base M_Runtime M_PyGrammar S_Grammar M_PyDatalog S_Datalog P_PyDatalog.
Import ListNotations.
Open Scope N_scope.

Lemma at_bytes data i b : between data i (i + 1) [b] <-> exists p q, data = p ++ b :: q /\ i = N.of_nat (length p).
Proof.
  split.
  - intros (p & q & E & L1 & L2). exists p, q. auto.
  - intros (p & q & E & L). exists p, q. cbn [length]. split; [exact E|]. lia.
Qed.
Lemma facts_sound data f : In f (input_facts data 0) ->
  (f_rel f = valid_name TRUE_FACT /\ exists i, i <= N.of_nat (length data) /\ f_args f = [i]) \/
  (exists i b, between data i (i + 1) [b] /\ f = mkFact (valid_name (to_string b)) [i; i + 1]).
Proof.
  intros I. apply input_facts_in in I. destruct I as (p & b & q & E & [->| ->]).
  - left. split; [reflexivity|]. exists (0 + N.of_nat (length p)). split; [|reflexivity]. subst data. rewrite app_length. lia.
  - right. exists (N.of_nat (length p)), b. rewrite !N.add_0_l. split; [|reflexivity]. apply at_bytes. eauto.
Qed.
Lemma facts_bytes data i b : between data i (i + 1) [b] -> In (mkFact (valid_name (to_string b)) [i; i + 1]) (input_facts data 0).
Proof. intros B. apply at_bytes in B. destruct B as (p & q & E & ->). apply input_facts_in. exists p, b, q. rewrite N.add_0_l. auto. Qed.

(** C89.  What the program derives from the facts of an input, the grammar derives. *)
Theorem C89_sound : forall text g P data n i j,
  datalog text g = Ok P -> proper text g -> bytes_only g -> has_rules g -> (forall b, In b data -> b < 256) -> named g n ->
  holds P (input_facts data 0) (valid_name (text n)) [i; j] ->
  exists w, between data i j w /\ language g n w.
Proof.
  intros text g P data n i j D [P1 P2 P3 P4] B R DB Nm H.
  exact (sound text g P D P1 P2 P3 P4 B R data DB (input_facts data 0) (facts_sound data) (facts_bytes data) n i j Nm H).
Qed.
Print Assumptions C89_sound.

(** C89, both ways, for grammars without empty rules. *)
Theorem C89_datalog_partial : forall text g P data n i j,
  datalog text g = Ok P -> proper text g -> bytes_only g -> has_rules g -> (forall b, In b data -> b < 256) -> named g n ->
  (forall m, ~ rule_of g m []) ->
  (holds P (input_facts data 0) (valid_name (text n)) [i; j] <-> exists w, between data i j w /\ language g n w).
Proof.
  intros text g P data n i j D Pr B R DB Nm NE. split; [now apply C89_sound|]. intros (w & W & L).
  pose proof Pr as [P1 P2 P3 P4].
  apply (complete text g P D P1 P2 P3 P4 B R data DB (input_facts data 0) (facts_bytes data) (fun _ => False)) with (w := w); auto.
  - intros k [].
  - intros m k E. destruct (NE m E).
Qed.
Print Assumptions C89_datalog_partial.

(** C89, both ways, for all grammars, if a true fact is added for the end of the input. *)
Theorem C89_datalog_end : forall text g P data n i j,
  datalog text g = Ok P -> proper text g -> bytes_only g -> has_rules g -> (forall b, In b data -> b < 256) -> named g n ->
  let F := mkFact (valid_name TRUE_FACT) [N.of_nat (length data)] :: input_facts data 0 in
  (holds P F (valid_name (text n)) [i; j] <-> exists w, between data i j w /\ language g n w).
Proof.
  intros text g P data n i j D Pr B R DB Nm F. pose proof Pr as [P1 P2 P3 P4]. split.
  - intros H. apply (sound text g P D P1 P2 P3 P4 B R data DB F); auto; [|intros k b Hk; right; now apply facts_bytes].
    intros f [<-|I]; [|now apply facts_sound]. left. split; [reflexivity|]. exists (N.of_nat (length data)). split; [lia|reflexivity].
  - intros (w & W & L).
    apply (complete text g P D P1 P2 P3 P4 B R data DB F (fun k b H => or_intror (facts_bytes data k b H)) (fun k => k <= N.of_nat (length data))) with (w := w); auto.
    intros k Hk. destruct (N.eq_dec k (N.of_nat (length data))) as [->|Ne]; [now left|]. right.
    apply input_facts_in. exists (firstn (N.to_nat k) data).
    destruct (skipn (N.to_nat k) data) as [|b q] eqn:E.
    + exfalso. assert (Z : length (skipn (N.to_nat k) data) = O) by now rewrite E. rewrite skipn_length in Z. lia.
    + exists b, q. rewrite <- E, firstn_skipn. split; [reflexivity|]. left. rewrite firstn_length. do 2 f_equal. lia.
Qed.
Print Assumptions C89_datalog_end.

(** The translation fails only on rules that are made of empty terminals. *)
Lemma body_atoms_cons text body : (body = [] \/ places body <> 0) -> body_atoms text body <> [].
Proof.
  intros [->|H]; [discriminate|]. destruct body as [|t s]; [discriminate|]. unfold body_atoms. intros E. apply rule_list_nil in E.
  apply H. rewrite <- E. generalize (t :: s). intros q. induction q as [|[b|m] r IH]; cbn [places widths width]; [reflexivity| |]; lia.
Qed.
Theorem C89_total : forall text g, (forall n body, rule_of g n body -> body = [] \/ places body <> 0) -> exists P, datalog text g = Ok P.
Proof.
  intros text g H. unfold datalog.
  assert (X : forall l, (forall r, In r l -> exists c, r = Ok c) -> exists P, collect l = Ok P).
  { induction l as [|r l IH]; intros A; [now exists []|]. destruct (A r (or_introl eq_refl)) as (c & ->). destruct IH as (P & E); [intros x I; apply A; now right|].
    exists (c :: P). cbn. now rewrite E. }
  apply X. intros r I. apply in_flat_map in I. destruct I as ((n & p) & I & C). unfold production_clauses in C. cbn [fst snd] in C.
  assert (M : forall body, body <> [] -> exists c, make_clause text n body = Ok c) by (intros [|a l] NE; [congruence|eexists; reflexivity]).
  destruct (rules p) as [|r0 rs] eqn:E.
  - destruct C as [<-|[]]. apply M. discriminate.
  - apply in_map_iff in C. destruct C as (r' & <- & I'). rewrite rule_clause_eq. apply M. apply body_atoms_cons, (H n). exists p, r'. rewrite E. auto.
Qed.
Print Assumptions C89_total.

(** C89, names: different printable names stay different. *)
Theorem C89_names_partial : forall a b, printable a -> printable b -> valid_name a = valid_name b -> a = b.
Proof. exact names_inj. Qed.
Print Assumptions C89_names_partial.
(** Others may not: an underscore, and a tab before a 5. *)
Theorem C89_names_refuted : exists a b, a <> b /\ valid_name a = valid_name b.
Proof. exists [95], [9; 53]. split; [discriminate|vm_compute; reflexivity]. Qed.
Print Assumptions C89_names_refuted.

(** C89, syntax: rules with at most 25 bytes and names become clauses an engine can read; longer ones do not. *)
Lemma widths_places body : widths body = places body.
Proof. induction body as [|[b|m] r IH]; cbn [places widths width]; [reflexivity| |]; lia. Qed.
Theorem C89_readable_partial : forall text g P c,
  datalog text g = Ok P -> proper text g -> has_rules g -> (forall n body, rule_of g n body -> places body <= 25) -> In c P -> readable c.
Proof.
  intros text g P c D [P1 P2 P3 P4] R H I. apply (clauses_of text g P D R) in I. destruct I as (n & body & Ru & C).
  specialize (H n body Ru). rewrite <- widths_places in H.
  intros a v [<-|A] V.
  - rewrite (make_clause_head text g P3 n body c Ru C) in V. cbn [a_args] in V. unfold RULE_START in V. destruct V as [<-|[<-|[]]]; left; lia.
  - rewrite (make_clause_body _ _ _ _ C) in A. destruct body as [|t s].
    + destruct A as [<-|[]]. destruct V as [<-|[]]. left. unfold RULE_START. lia.
    + apply (list_range text (t :: s) RULE_START a v A) in V. unfold RULE_START in V. left. lia.
Qed.
Print Assumptions C89_readable_partial.
Theorem C89_readable_refuted : forall text g P n body,
  datalog text g = Ok P -> proper text g -> has_rules g -> rule_of g n body -> 26 <= places body -> places body < 1000000 ->
  exists c, In c P /\ a_rel (c_head c) = valid_name (text n) /\ ~ readable c.
Proof.
  intros text g P n body D [P1 P2 P3 P4] R Ru Lo Hi.
  destruct (clause_exists text g P D n body Ru) as (c & C). exists c.
  assert (Hd := make_clause_head text g P3 n body c Ru C).
  split; [apply (clauses_of text g P D R); eauto|]. rewrite Hd. split; [reflexivity|].
  intros Rd. specialize (Rd (c_head c) (RULE_START + widths body) (or_introl eq_refl)). rewrite Hd in Rd. cbn [a_args] in Rd.
  specialize (Rd (or_intror (or_introl eq_refl))). rewrite widths_places in Rd. unfold RULE_START, variable in Rd. lia.
Qed.
Print Assumptions C89_readable_refuted.

(** ** Examples *)
Definition prod_of (bodies : list (list symbol)) : production := mkProd (map rule_new bodies) true None.
(** "<START>", "E", "f_1". *)
Definition demo_text (n : N) : list N := match n with 0 => [60; 83; 84; 65; 82; 84; 62] | 1 => [69] | _ => [102; 95; 49] end.
Definition grammar_of (l : list (N * list (list symbol))) : grammar := mkGrammar (map (fun x => (fst x, prod_of (snd x))) l) (fun _ => []).

(** C89 is false of empty rules at the end of the input: <START> derives "x" but the program does not find it. *)
Definition end_g : grammar := grammar_of [(0, [[Terminal [120]; NonTerminal 1]]); (1, [[]])].
Theorem C89_end_refuted : exists P, datalog demo_text end_g = Ok P /\
  accepts end_g [120] /\ between [120] 0 1 [120] /\ ~ holds P (input_facts [120] 0) (valid_name (demo_text START)) [0; 1].
Proof.
  eexists. split; [vm_compute; reflexivity|]. split; [|split].
  - change [120] with ([120] ++ @nil N). apply (derives_nonterminal _ START [Terminal [120]; NonTerminal 1]).
    + eexists _, _. split; [now left|]. split; [now left|]. reflexivity.
    + change [120] with ([120] ++ ([] ++ @nil N)). constructor. apply (derives_nonterminal _ 1 []); [|constructor|constructor].
      eexists _, _. split; [right; now left|]. split; [now left|]. reflexivity.
    + constructor.
  - exists [], []. repeat split; reflexivity.
  - intros H.
    match type of H with holds ?P ?F _ _ =>
      assert (X : forall r args, holds P F r args ->
        (r = valid_name (to_string 120) -> args = [0; 1]) /\ (r = valid_name TRUE_FACT -> args = [0]) /\ (r = valid_name (demo_text 1) -> args = [0; 0])
        /\ r <> valid_name (demo_text START)) end.
    { intros r args H'. induction H' as [f I|c value I Hb IH].
      - cbn [input_facts] in I. destruct I as [<-|[<-|[]]]; cbn [f_rel f_args].
        + repeat split; try (vm_compute; discriminate).
        + repeat split; try (vm_compute; discriminate).
      - destruct I as [<-|[<-|[]]]; cbn [c_body c_head a_rel a_args map] in *.
        + exfalso. destruct (IH _ (or_introl eq_refl)) as (A & _). specialize (A eq_refl). cbn in A. injection A as A1 A2.
          destruct (IH _ (or_intror (or_introl eq_refl))) as (_ & _ & B & _). specialize (B eq_refl). cbn in B. injection B as B1 B2. congruence.
        + destruct (IH _ (or_introl eq_refl)) as (_ & A & _). specialize (A eq_refl). cbn in A. injection A as A.
          repeat split; try (vm_compute; discriminate). intros _. cbn. congruence. }
    destruct (X _ _ H) as (_ & _ & _ & N). now apply N.
Qed.
Print Assumptions C89_end_refuted.
(** C89 is false of productions without rules: they derive nothing, but the program finds them everywhere. *)
Theorem C89_no_rules_refuted : let g := grammar_of [(0, [])] in exists P, datalog demo_text g = Ok P /\
  (forall w, ~ accepts g w) /\ holds P (input_facts [120] 0) (valid_name (demo_text START)) [0; 0].
Proof.
  eexists. split; [vm_compute; reflexivity|]. split.
  - intros w L. inversion L as [| |m body seq v w' R]; subst. destruct R as (p & r & [E|[]] & I & _). injection E as <-. destruct I.
  - match goal with |- holds (?c :: ?l) ?F _ _ => apply (holds_clause (c :: l) F c (fun _ => 0) (or_introl eq_refl)) end. intros a [<-|[]].
    apply (holds_fact _ _ (mkFact (valid_name TRUE_FACT) [0])). now left.
Qed.
Print Assumptions C89_no_rules_refuted.
(** C89 is false of rules that are an empty terminal: the translation raises IndexError. *)
Theorem C89_empty_terminal_refuted : let g := grammar_of [(0, [[Terminal []]])] in accepts g [] /\ datalog demo_text g = Exit.
Proof.
  split; [|vm_compute; reflexivity]. apply (derives_nonterminal _ START [Terminal []] [] [] []); [|apply (derives_terminal _ [] [] []); constructor|constructor].
  eexists _, _. split; [now left|]. split; [now left|]. reflexivity.
Qed.
Print Assumptions C89_empty_terminal_refuted.

(** The hypotheses are met. *)
Definition demo_g : grammar :=
  grammar_of [(0, [[Terminal [120; 121]; NonTerminal 2]; [NonTerminal 2]]); (2, [[Terminal [122]; NonTerminal 2]; [Terminal [33]]])].
Lemma demo_rules n body : rule_of demo_g n body ->
  (n = 0 /\ (body = [Terminal [120; 121]; NonTerminal 2] \/ body = [NonTerminal 2])) \/ (n = 2 /\ (body = [Terminal [122]; NonTerminal 2] \/ body = [Terminal [33]])).
Proof.
  intros (p & r & I & R & <-). destruct I as [E|[E|[]]]; injection E as <- <-; cbn in R; destruct R as [<-|[<-|[]]]; cbn; tauto.
Qed.
Lemma demo_named n : named demo_g n -> n = 0 \/ n = 2.
Proof.
  intros [I|(m & body & R & I)].
  - destruct I as [<-|[<-|[]]]; auto.
  - apply demo_rules in R. destruct R as [(_ & [->| ->])|(_ & [->| ->])]; cbn in I;
      repeat (destruct I as [E|I]; [try discriminate E; injection E as <-; now right|]); destruct I.
Qed.
Lemma demo_proper : proper demo_text demo_g.
Proof.
  split.
  - intros n Nm c I. apply demo_named in Nm. destruct Nm as [->| ->]; cbn in I; repeat (destruct I as [<-|I]; [lia|]); destruct I.
  - intros n m A B. apply demo_named in A, B. destruct A as [->| ->], B as [->| ->]; cbn; congruence.
  - intros n A. apply demo_named in A. destruct A as [->| ->]; discriminate.
  - intros n b A B E. pose proof (digits_printable b B) as _.
    destruct (P_Argv.to_string_spec b) as ((D & _) & _). { eapply N.lt_trans; [exact B|]. vm_compute. reflexivity. }
    rewrite <- E in D. apply demo_named in A. destruct A as [->| ->]; cbn in D; inversion D as [|x l H _]; unfold S_Runtime.digit in H; lia.
Qed.
Example C89_case : exists P, datalog demo_text demo_g = Ok P /\
  holds P (input_facts [120; 121; 122; 33] 0) (valid_name (demo_text START)) [0; 4] /\
  ~ holds P (input_facts [120; 121; 122; 33] 0) (valid_name (demo_text START)) [0; 3].
Proof.
  destruct (C89_total demo_text demo_g) as (P & D).
  { intros n body R. apply demo_rules in R. right. destruct R as [(_ & [->| ->])|(_ & [->| ->])]; discriminate. }
  exists P. split; [exact D|].
  assert (BO : bytes_only demo_g).
  { intros n body bs b R I J. apply demo_rules in R. destruct R as [(_ & [->| ->])|(_ & [->| ->])]; cbn in I;
      repeat (destruct I as [E|I]; [try discriminate E; injection E as <-; cbn in J; repeat (destruct J as [<-|J]; [lia|]); destruct J|]); destruct I. }
  assert (HR : has_rules demo_g) by (intros n p [E|[E|[]]]; injection E as <- <-; discriminate).
  assert (DB : forall b, In b [120; 121; 122; 33] -> b < 256) by (intros b J; cbn in J; repeat (destruct J as [<-|J]; [lia|]); destruct J).
  assert (NM : named demo_g START) by (left; now left).
  assert (NE : forall m, ~ rule_of demo_g m []) by (intros m R; apply demo_rules in R; destruct R as [(_ & [E|E])|(_ & [E|E])]; discriminate).
  split.
  - apply (C89_datalog_partial demo_text demo_g P _ START 0 4 D demo_proper BO HR DB NM NE).
    exists [120; 121; 122; 33]. split; [exists [], []; repeat split; reflexivity|].
    change [120; 121; 122; 33] with (([120; 121] ++ ([122; 33] ++ [])) ++ @nil N).
    apply (derives_nonterminal _ START [Terminal [120; 121]; NonTerminal 2]); [|constructor|constructor].
    + eexists _, _. split; [now left|]. split; [now left|]. reflexivity.
    + apply (derives_nonterminal _ 2 [Terminal [122]; NonTerminal 2]); [| |constructor].
      * eexists _, _. split; [right; now left|]. split; [now left|]. reflexivity.
      * change [122; 33] with ([122] ++ (([33] ++ []) ++ @nil N)). constructor. apply (derives_nonterminal _ 2 [Terminal [33]]); [|constructor; constructor|constructor].
        eexists _, _. split; [right; now left|]. split; [right; now left|]. reflexivity.
  - intros H. apply (C89_datalog_partial demo_text demo_g P _ START 0 3 D demo_proper BO HR DB NM NE) in H.
    destruct H as (w & (p & q & E & L1 & L2) & L).
    assert (p = []) as -> by (destruct p; [reflexivity|cbn in L1; lia]). cbn in E.
    assert (w = [120; 121; 122]) as ->.
    { cbn [length] in L2. destruct w as [|w1 [|w2 [|w3 [|]]]]; cbn in L2; try lia. injection E as <- <- <- <-. reflexivity. }
    (* every word ends with 33 *)
    assert (X : forall s v, derives (rule_of demo_g) s v -> (s = [] -> v = []) /\ (last s (Terminal [33]) = NonTerminal 2 \/ last s (Terminal []) = Terminal [33] -> last v 0 = 33)
       ).
    { intros s v Dv. induction Dv as [|b s v Dv IH|m body s v1 v2 R D1 IH1 D2 IH2].
      - split; [reflexivity|]. intros [H|H]; discriminate.
      - destruct IH as (I1 & I2). split; [discriminate|]. destruct s as [|t s].
        + rewrite (I1 eq_refl), app_nil_r. cbn. intros [H|H]; [discriminate|]. injection H as ->. reflexivity.
        + intros H. specialize (I2 H). destruct v as [|y v]; [cbn in I2; discriminate|]. clear -I2. induction b as [|z b IHb]; [exact I2|].
          cbn [app]. destruct (b ++ y :: v) eqn:E; [now destruct b|exact IHb].
      - destruct IH1 as (_ & I1). destruct IH2 as (I3 & I4). split; [discriminate|]. destruct s as [|t s].
        + rewrite (I3 eq_refl), app_nil_r. intros H. apply I1.
          apply demo_rules in R. destruct R as [(-> & Hb)|(-> & [->| ->])]; cbn in H; [destruct H; discriminate| |]; cbn; tauto.
        + intros H. specialize (I4 H). destruct v2 as [|y v2]; [cbn in I4; discriminate|]. clear -I4. induction v1 as [|z b IHb]; [exact I4|].
          cbn [app]. destruct (b ++ y :: v2) eqn:E; [now destruct b|exact IHb]. }
    inversion L as [| |m body s v w' R Dv DN]; subst. inversion DN; subst.
    apply X in Dv. destruct Dv as (_ & Dv). apply demo_rules in R. destruct R as [(_ & Hb)|(Z & _)]; [|discriminate].
    assert (last v 0 = 33) as Y by (apply Dv; destruct Hb as [->| ->]; cbn; tauto).
    match goal with H : v ++ [] = _ |- _ => rewrite app_nil_r in H; rewrite H in Y end. discriminate.
Qed.
