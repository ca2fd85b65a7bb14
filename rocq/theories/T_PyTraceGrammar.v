(** C99: grammars extracted from traces.  Runs are trees of calls; what they consume is in
    S_TraceGrammar, grammars and what they accept in S_Grammar. *)
From Coq Require Import NArith List Bool Lia.
From Verif Require Import M_Base M_PyGrammar M_PyTraceGrammar S_Grammar S_TraceGrammar P_Base P_Grammar P_PyTraceGrammar.
Import ListNotations.
Open Scope N_scope.

Lemma made_in_order f g : made grammar_new (start_entry f :: entries f) g -> in_order g.
Proof.
  intros (B & Nm & R). constructor; try apply B.
  - intros n body m Ro I. apply R in Ro as [(p & r & [] & _)|(seq & J & ->)]. apply Nm. right. apply (proj1 (combine_names _ _)) in I. destruct J as [J|J].
    + inversion J; subst. destruct I as [I|[]]. inversion I; subst. right. unfold entries. rewrite order_eq. cbn [flat_map]. rewrite map_app. apply in_app_iff. left. destruct (own_head f) as (e & es & ->). now left.
    + right. exact (entries_closed f n seq m J I).
  - intros n m H _. exact (b_exact _ _ B n m H).
Qed.
Lemma made_accepts f g w : made grammar_new (start_entry f :: entries f) g -> lang f = Some w -> accepts g w.
Proof.
  intros (B & Nm & R) L. apply derives_name. exists [NonTerminal (func_name f)]. split.
  - apply R. right. exists [NonTerminal (func_name f)]. split; [now left|reflexivity].
  - apply derives_lang; [|exact L]. intros n seq I. apply R. right. exists seq. split; [now right|reflexivity].
Qed.
Lemma made_exact f g w : names_distinct f -> made grammar_new (start_entry f :: entries f) g -> accepts g w -> lang f = Some w.
Proof.
  intros D (B & Nm & R) A. inversion D as [|x l N D']; subst.
  assert (Nd : NoDup (map fst (start_entry f :: entries f))) by (cbn [map fst]; constructor; [intros I; exact (N (entries_names f _ I))|exact (entries_nodup f D')]).
  assert (Fn : forall n e body, In (n, e) (start_entry f :: entries f) -> rule_of g n body -> exists seq, e = Some seq /\ body = combine_terminals seq).
  { intros n e body I Ro. apply R in Ro as [(p & r & [] & _)|(seq & J & ->)]. exists seq. split; [|reflexivity]. exact (nodup_fst _ _ _ _ _ _ Nd I J). }
  apply derives_name in A as (body & Ro & A). destruct (Fn _ _ _ (or_introl eq_refl) Ro) as (seq & E & ->). inversion E; subst seq. cbn in A.
  apply (lang_exact (rule_of g) f); [|exact A]. intros n e body I. apply Fn. now right.
Qed.

(** A run in which every function consumed something, and consumed nothing more in a block
    after a call had returned to it: the grammar accepts what was consumed.  Missing: other
    runs, for which see below. *)
Theorem C99_accepts_partial : forall fuel f, (func_size f <= fuel)%nat ->
  (forall h, called_in h f -> consumes h) -> (forall h, called_in h f -> ~ consumes_after_call h) ->
  exists g, trace_to_grammar fuel (Some f) = Ok g /\ accepts g (consumed f).
Proof.
  intros fuel f L C A. destruct (lang_some f C) as (w & E). assert (W := lang_same f A w E). subst w.
  destruct (trace_made fuel f L) as [(g & Eg & M)|(_ & a & n & b & Ee & _)]; [exists g; split; [exact Eg|exact (made_accepts f g _ M E)]|].
  exfalso. assert (I : In (n, None) (start_entry f :: entries f)) by (rewrite Ee; apply in_app_iff; right; now left). destruct I as [I|I]; [discriminate I|].
  exact (all_entries f C n I).
Qed.

(** If every function consumed something there is a grammar, in order, and from its start
    production all others are reached. *)
Theorem C99_in_order : forall fuel f, (func_size f <= fuel)%nat -> (forall h, called_in h f -> consumes h) ->
  exists g, trace_to_grammar fuel (Some f) = Ok g /\ in_order g /\ (exists w, accepts g w) /\ verify fuel g = Ok g.
Proof.
  intros fuel f L C. destruct (lang_some f C) as (w & E).
  destruct (trace_made fuel f L) as [(g & Eg & M)|(_ & a & n & b & Ee & _)].
  - exists g. split; [exact Eg|]. split; [exact (made_in_order f g M)|]. split; [exists w; exact (made_accepts f g w M E)|]. exact (made_verified fuel f g M).
  - exfalso. assert (I : In (n, None) (start_entry f :: entries f)) by (rewrite Ee; apply in_app_iff; right; now left). destruct I as [I|I]; [discriminate I|].
    exact (all_entries f C n I).
Qed.

(** ** Where it fails *)
(** If a function consumed something after a call had returned to a block of it, the grammar
    does not accept what was consumed: what follows the call must be repeated.  (Provided that
    no function or block was entered twice.) *)
Theorem C99_repeat_refuted : forall fuel f h, (func_size f <= fuel)%nat -> names_distinct f ->
  (forall h, called_in h f -> consumes h) -> called_in h f -> consumes_after_call h ->
  exists g, trace_to_grammar fuel (Some f) = Ok g /\ ~ accepts g (consumed f).
Proof.
  intros fuel f h L D C Ch A. destruct (trace_made fuel f L) as [(g & Eg & M)|(_ & a & n & b & Ee & _)].
  - exists g. split; [exact Eg|]. intros Ac. assert (E := made_exact f g _ D M Ac). assert (X := lang_longer f h Ch A _ E). lia.
  - exfalso. assert (I : In (n, None) (start_entry f :: entries f)) by (rewrite Ee; apply in_app_iff; right; now left). destruct I as [I|I]; [discriminate I|].
    exact (all_entries f C n I).
Qed.
(** If a function was called that consumed nothing, the grammar accepts nothing. *)
Theorem C99_untouched_refuted : forall fuel f h, (func_size f <= fuel)%nat -> names_distinct f -> tokens_ok f ->
  called_in h f -> ~ consumes h -> exists g, trace_to_grammar fuel (Some f) = Ok g /\ forall w, ~ accepts g w.
Proof.
  intros fuel f h L D Tk Ch N. assert (Q : consumed h = []) by (destruct (consumed h) eqn:E; [reflexivity|exfalso; apply N; unfold consumes; rewrite E; discriminate]).
  destruct (trace_made fuel f L) as [(g & Eg & M)|(_ & a & n & b & Ee & I)].
  - exists g. split; [exact Eg|]. intros w A. assert (E := made_exact f g w D M A). rewrite (lang_none f h Tk Ch Q) in E. discriminate E.
  - exfalso. inversion D as [|x l N' D']; subst.
    assert (Nd : NoDup (map fst (start_entry f :: entries f))) by (cbn [map fst]; constructor; [intros J; exact (N' (entries_names f _ J))|exact (entries_nodup f D')]).
    rewrite Ee, map_app in Nd. apply nodup_app in Nd as (_ & _ & Nd). apply (Nd n I). now left.
Qed.
(** If a function calls another one twice, the first time without anything being consumed,
    there is no grammar.  (The later call is extracted first.) *)
Theorem C99_twice_refuted : forall fuel f h a b m c r g q g' q', (func_size f <= fuel)%nat ->
  called_in h f -> consumes h -> func_blocks h = a ++ b :: m ++ c :: r ->
  block_call b = Some (g, q) -> block_call c = Some (g', q') -> func_name g = func_name g' -> tokens_ok f -> ~ consumes g ->
  trace_to_grammar fuel (Some f) = Exit.
Proof.
  intros fuel f h a b m c r g q g' q' L Ch Hc Eb E1 E2 En Tk N.
  assert (Th : func_touched h = true) by (destruct (func_touched h) eqn:T; [reflexivity|]; exfalso; destruct h as [n bs]; exact (Hc (untouched_eats n bs T))).
  assert (Cg : called_in g f). { eapply called_trans; [|exact Ch]. destruct h as [n bs]. cbn in Eb. subst bs. eapply ci_below; [|exact E1|apply ci_self]. apply in_app_iff. right. now left. }
  assert (Tg : func_touched g = false). { destruct (func_touched g) eqn:T; [|reflexivity]. exfalso. apply N. unfold consumes. apply touched_eats; [|exact T]. intros k b' t Ck. apply Tk. exact (called_trans _ _ _ Ck Cg). }
  destruct (twice_entries h a b m c r g q g' q' Th Eb E1 E2 Tg) as (x & y & z & Ee). destruct (order_below f h Ch Th) as (u & v & Eo & _).
  rewrite (trace_eq fuel f L). destruct (own_head g') as (e & es & Eg'). assert (Ef : entries f = flat_map own u ++ entries h ++ flat_map own v) by (unfold entries; now rewrite Eo, !flat_map_app).
  rewrite (entries_twice (start_entry f :: entries f) grammar_new (start_entry f :: flat_map own u ++ x ++ own g' ++ y) (func_name g) (z ++ flat_map own v)); [reflexivity|apply building_new| |].
  - rewrite Ef, Ee. cbn [app]. rewrite <- !app_assoc. reflexivity.
  - right. cbn [map]. right. rewrite !map_app, !in_app_iff. right. right. left. rewrite Eg', En. now left.
Qed.

(** ** Concrete cases *)
(** main [1] reads "a" in block 2 and calls f [3], which reads "b" in block 4; then main reads
    "c" in block 5. *)
Definition demo_f : func := Func 3 [(4, [[98]], None)].
Definition demo_last : func := Func 1 [(6, [[122]], None); (2, [[97]], Some (demo_f, true)); (5, [], None)].
Definition demo_after : func := Func 1 [(2, [[97]], Some (demo_f, true)); (5, [[99]], None)].
Definition demo_quiet : func := Func 1 [(2, [[97]], Some (Func 3 [(4, [], None)], true)); (5, [[99]], None)].
Definition demo_twice : func := Func 1 [(2, [[97]], Some (Func 3 [(4, [], None)], true)); (5, [[99]], Some (demo_f, true)); (7, [[99]], None)].
Lemma called_demo_f h : called_in h demo_f -> h = demo_f.
Proof. intros C. inversion C as [|h' n bs b g r I E C']; subst; [reflexivity|]. destruct I as [<-|[]]. discriminate E. Qed.
Lemma called_demo (P : func -> Prop) f : P f -> (forall b, In b (func_blocks f) -> match block_call b with Some (g, _) => forall h, called_in h g -> P h | None => True end) -> forall h, called_in h f -> P h.
Proof. intros H1 H2 h C. inversion C as [|h' n bs b g r I E C']; subst; [exact H1|]. specialize (H2 b I). rewrite E in H2. exact (H2 h C'). Qed.
Example C99_case :
  (forall h, called_in h demo_last -> consumes h) /\ (forall h, called_in h demo_last -> ~ consumes_after_call h) /\ consumed demo_last = [122; 97; 98] /\
  names_distinct demo_after /\ (forall h, called_in h demo_after -> consumes h) /\ consumes_after_call demo_after /\ consumed demo_after = [97; 98; 99] /\
  (exists g, trace_to_grammar 5 (Some demo_after) = Ok g /\ accepts g [97; 98; 99; 99] /\ ~ accepts g [97; 98; 99]) /\
  names_distinct demo_quiet /\ tokens_ok demo_quiet /\
  trace_to_grammar 5 (Some demo_twice) = Exit.
Proof.
  assert (Cf : forall h, called_in h demo_f -> consumes h) by (intros h C; apply called_demo_f in C; subst; discriminate).
  assert (Ca : forall h, called_in h demo_after -> consumes h).
  { apply called_demo; [discriminate|]. intros b [<-|[<-|[]]]; [exact Cf|exact I]. }
  assert (Nd : names_distinct demo_after) by (unfold names_distinct; vm_compute; repeat constructor; cbn; intuition discriminate).
  assert (Af : consumes_after_call demo_after) by (exists [], (2, [[97]], Some (demo_f, true)), demo_f, [(5, [[99]], None)]; split; [reflexivity|split; [reflexivity|discriminate]]).
  split; [apply called_demo; [discriminate|intros b [<-|[<-|[<-|[]]]]; [exact I|exact Cf|exact I]]|].
  split.
  { apply called_demo.
    - intros ([|x [|y [|z a]]] & b & g & r & E & Ec & N); inversion E; subst; try discriminate Ec; try (apply N; reflexivity). destruct a; discriminate.
    - intros b [<-|[<-|[<-|[]]]]; [exact I| |exact I]. intros h C. apply called_demo_f in C. subst h.
      intros ([|x a] & b & g & r & E & Ec & N); inversion E; subst; [discriminate Ec|]. destruct a; discriminate. }
  split; [reflexivity|]. split; [exact Nd|]. split; [exact Ca|]. split; [exact Af|]. split; [reflexivity|]. split.
  { assert (L : (func_size demo_after <= 5)%nat) by (vm_compute; lia).
    destruct (C99_repeat_refuted 5 demo_after demo_after L Nd Ca (ci_self _) Af) as (g & E & N). exists g. split; [exact E|]. split; [|exact N].
    destruct (trace_made 5 demo_after L) as [(g' & Eg & M)|(Q & _)]; [|rewrite E in Q; discriminate Q]. assert (g' = g) by (rewrite E in Eg; now inversion Eg). subst g'.
    exact (made_accepts demo_after g [97; 98; 99; 99] M eq_refl). }
  split; [unfold names_distinct; vm_compute; repeat constructor; cbn; intuition discriminate|]. split; [|reflexivity].
  intros h b t C. revert b t. revert h C. apply (called_demo (fun h => forall b t, In b (func_blocks h) -> In t (block_tokens b) -> t <> [])).
  - intros b t [<-|[<-|[]]] [<-|[]]; discriminate.
  - intros b [<-|[<-|[]]]; [|exact I]. cbn. apply (called_demo (fun h => forall b t, In b (func_blocks h) -> In t (block_tokens b) -> t <> [])).
    + intros b t [<-|[]] [].
    + intros b [<-|[]]. exact I.
Qed.

Print Assumptions C99_accepts_partial.
Print Assumptions C99_in_order.
Print Assumptions C99_repeat_refuted.
Print Assumptions C99_untouched_refuted.
Print Assumptions C99_twice_refuted.
