(** C96: comparing ABI lists.  What a list says is in S_AbiDiff; how the pass uses it is the
    model behind C87 and C88 (M_DfsanAbi). *)
From Coq Require Import NArith ZArith List Bool Lia String.
From Verif Require Import M_Base M_PyBuild M_DfsanAbi M_PyAbiDiff S_AbiDiff P_Base P_PyAbiDiff.
Import ListNotations.
Open Scope N_scope.
Open Scope list_scope.

(** The lists agree: neither declares a function twice, and both declare the same of a
    function. *)
Definition agree (one two : str) : Prop :=
  (forall n, ~ declares_twice one n) /\ (forall n, ~ declares_twice two n) /\
  forall n c c', declares one n c -> declares two n c' -> c = c'.

(** ** The report *)
(** The comparison works exactly for files in which every line that starts with an f is a
    declaration; otherwise it raises. *)
Theorem C96_works : forall one two choose,
  (well_formed one /\ well_formed two /\ (exists o, diff_main one two choose = Ok o)) \/
  (~ (well_formed one /\ well_formed two) /\ diff_main one two choose = Exit).
Proof.
  intros one two choose. unfold diff_main.
  destruct (analyze_cases one) as [(-> & N)|(st1 & -> & W1 & A1)]; [right; split; [tauto|reflexivity]|]. cbn [bind].
  destruct (analyze_cases two) as [(-> & N)|(st2 & -> & W2 & A2)]; [right; split; [tauto|reflexivity]|]. cbn [bind]. left. split; [exact W1|]. split; [exact W2|].
  destruct choose as [f|]; [|eauto]. destruct (negb (f =? 1)%Z && negb (f =? 2)%Z); [eauto|].
  destruct (f =? 1)%Z.
  - destruct (resolve_ok two (diff_conflicts (snd st1) (snd st2)) _ W2 (fun n => iff_refl _)) as (t' & -> & _). cbn [bind]. eauto.
  - destruct (resolve_ok one (diff_conflicts (snd st1) (snd st2)) _ W1 (fun n => iff_refl _)) as (t' & -> & _). cbn [bind]. eauto.
Qed.

(** Without a choice nothing is changed; the status is 0 exactly if the lists agree and 1
    otherwise; reported are exactly the functions declared twice in a file, as having several
    attributes if the last one differs from the first, and those of which the files disagree. *)
Theorem C96_report : forall one two, well_formed one -> well_formed two ->
  exists o, diff_main one two None = Ok o /\ o_one o = one /\ o_two o = two /\
    (o_status o = 0 <-> agree one two) /\ (o_status o = 0 \/ o_status o = 1) /\
    (forall n, In n (o_diff o) <-> disagree one two n) /\
    (forall n b, In (n, b) (o_conflicts1 o) <-> declares_twice one n /\ exists c c', first_says one n c /\ last_says one n c' /\ (b = true <-> c <> c')) /\
    (forall n b, In (n, b) (o_conflicts2 o) <-> declares_twice two n /\ exists c c', first_says two n c /\ last_says two n c' /\ (b = true <-> c <> c')) /\
    NoDup (o_diff o) /\ NoDup (map fst (o_conflicts1 o)) /\ NoDup (map fst (o_conflicts2 o)).
Proof.
  intros one two W1 W2. unfold diff_main. destruct (analyze_ok one W1) as (st1 & -> & A1). destruct (analyze_ok two W2) as (st2 & -> & A2). cbn [bind].
  assert (Df := fun n => diff_iff one two st1 st2 n A1 A2).
  assert (Cf : forall t st, analyzed (decls (readlines t)) st -> forall n b,
    In (n, b) (fst st) <-> declares_twice t n /\ exists c c', first_says t n c /\ last_says t n c' /\ (b = true <-> c <> c')).
  { intros t st (N1 & _ & _ & B) n b. rewrite (in_lookup n b _ N1), B, twice_iff. split.
    - destruct (first_of n (decls (readlines t))) as [c|] eqn:F; [|discriminate]. destruct (again n (decls (readlines t))) as [c'|] eqn:G; [|discriminate].
      intros H. inversion H; subst b. split; [eauto|]. exists c, c'. rewrite first_says_iff, last_says_iff. split; [exact F|]. split; [now apply again_last|].
      rewrite negb_true_iff, str_eqb_no. split; congruence.
    - intros ((x & G) & c & c' & F & L & Hb). apply first_says_iff in F. apply last_says_iff in L. rewrite F, G. apply again_last in G. rewrite L in G. inversion G; subst x.
      f_equal. destruct b; [apply negb_true_iff, str_eqb_no; intros ->; now apply (proj1 Hb eq_refl)|].
      apply negb_false_iff, str_eqb_iff. destruct (list_eq_dec N.eq_dec c' c) as [E|E]; [exact E|]. exfalso. enough (false = true) by discriminate. apply Hb. congruence. }
  assert (Nil : forall (V : Type) (l : list (str * V)), negb (Nat.eqb (List.length l) 0) = false <-> forall n v, ~ In (n, v) l).
  { intros V l. rewrite negb_false_iff, Nat.eqb_eq. destruct l as [|[k v] l]; cbn [List.length]; split; try discriminate; auto.
    - intros H. exfalso. apply (H k v). now left. }
  eexists. split; [reflexivity|]. cbn [o_one o_two o_status o_diff o_conflicts1 o_conflicts2]. split; [reflexivity|]. split; [reflexivity|]. split; [|split; [|split; [|split; [|split; [|split]]]]].
  - set (found := _ || _). transitivity (found = false); [now destruct found; split|]. unfold found. rewrite !orb_false_iff, !Nil.
    assert (Tw : forall t st, analyzed (decls (readlines t)) st -> ((forall n v, ~ In (n, v) (fst st)) <-> forall n, ~ declares_twice t n)).
    { intros t st A. split.
      - intros H n T. destruct (proj1 (twice_iff t n) T) as (c' & G). destruct (again_first _ _ _ G) as (c & F).
        apply (H n (negb (str_eqb c' c))). apply (Cf t st A). split; [exact T|]. exists c, c'. rewrite first_says_iff, last_says_iff. split; [exact F|]. split; [now apply again_last|].
        rewrite negb_true_iff, str_eqb_no. split; congruence.
      - intros H n v I. apply (Cf t st A) in I. now apply (H n). }
    rewrite (Tw one st1 A1), (Tw two st2 A2). rewrite negb_false_iff, Nat.eqb_eq. unfold agree. split.
    + intros ((T1 & T2) & D0). split; [exact T1|]. split; [exact T2|]. intros n c c' D1 D2.
      destruct (declares_first _ _ _ D1) as (c1 & F1). destruct (declares_first _ _ _ D2) as (c2 & F2).
      assert (c = c1) by exact (declares_once _ _ _ _ (T1 n) D1 (first_declares _ _ _ F1)). assert (c' = c2) by exact (declares_once _ _ _ _ (T2 n) D2 (first_declares _ _ _ F2)). subst c1 c2.
      destruct (list_eq_dec N.eq_dec c c') as [E|E]; [exact E|exfalso]. apply length_zero_iff_nil in D0.
      assert (I : In n (diff_conflicts (snd st1) (snd st2))) by (apply Df; exists c, c'; auto). rewrite D0 in I. destruct I.
    + intros (T1 & T2 & Ag). split; [auto|]. apply length_zero_iff_nil. destruct (diff_conflicts (snd st1) (snd st2)) as [|n l] eqn:E; [reflexivity|exfalso].
      destruct (proj1 (Df n) ltac:(now left)) as (c1 & c2 & F1 & F2 & Ne). apply Ne. exact (Ag n c1 c2 (first_declares _ _ _ F1) (first_declares _ _ _ F2)).
  - destruct (_ || _); auto.
  - exact Df.
  - exact (Cf one st1 A1).
  - exact (Cf two st2 A2).
  - destruct A1 as (_ & N & _). unfold diff_conflicts. clear -N. induction (snd st1) as [|[k v] l IH]; cbn [filter map]; [constructor|].
    cbn [map fst] in N. inversion N; subst. destruct (match lookup _ _ with Some _ => _ | None => _ end); [|auto]. cbn [map fst]. constructor; [|auto].
    intros I. apply H1. apply in_map_iff in I as (p & <- & I). apply filter_In in I as [I _]. now apply in_map.
  - split; [apply A1|apply A2].
Qed.

(** ** What a status of 0 is good for *)
(** If the lists agree then the pass wraps a function the way either list says. *)
Theorem C96_agreement : forall one two name L, agree one two -> means [one; two] name L ->
  forall n c, c <> Uninstrumented -> lists one (name n) (word c) \/ lists two (name n) (word c) -> wrapper_kind L n = wrapped_as c.
Proof.
  intros one two name L (T1 & T2 & Ag) (Src & Fn) n c Nc H.
  assert (Wi : forall a b, word a = word b -> a = b) by (intros [] [] E; first [reflexivity|discriminate E]).
  assert (Nu : forall a, a <> Uninstrumented -> word a <> w_uninst) by (intros [] E Q; first [congruence|discriminate Q]).
  assert (U : forall c', c' <> Uninstrumented -> is_in L n c' = true <-> c' = c).
  { intros c' Nc'. unfold is_in. rewrite Src. cbn [orb]. rewrite Fn. split.
    - intros (t & [<-|[<-|[]]] & K); apply Wi; destruct H as [H|H].
      + exact (declares_once one (name n) _ _ (T1 _) (conj K (Nu _ Nc')) (conj H (Nu _ Nc))).
      + exact (Ag _ _ _ (conj K (Nu _ Nc')) (conj H (Nu _ Nc))).
      + symmetry. exact (Ag _ _ _ (conj H (Nu _ Nc)) (conj K (Nu _ Nc'))).
      + exact (declares_once two (name n) _ _ (T2 _) (conj K (Nu _ Nc')) (conj H (Nu _ Nc))).
    - intros ->. destruct H as [H|H]; [exists one|exists two]; (split; [cbn [In]; auto|exact H]). }
  assert (B : forall c', c' <> Uninstrumented -> c' <> c -> is_in L n c' = false).
  { intros c' A Q. destruct (is_in L n c') eqn:E; [|reflexivity]. apply U in E; [contradiction|exact A]. }
  unfold wrapper_kind. destruct c; [congruence|..].
  - now rewrite (proj2 (U Functional Nc) eq_refl).
  - rewrite (B Functional) by discriminate. now rewrite (proj2 (U Discard Nc) eq_refl).
  - rewrite (B Functional), (B Discard) by discriminate. now rewrite (proj2 (U Custom Nc) eq_refl).
Qed.

(** ** Choosing a file *)
Lemma disagree_sym a b n : disagree a b n <-> disagree b a n.
Proof. split; intros (c & c' & A & B & N); exists c', c; auto. Qed.

(** In the other file exactly the lines of the functions the files disagree on are commented
    out; the chosen file stays.  Then the files disagree on nothing, and doing it again changes
    nothing. *)
Theorem C96_choose : forall one two, well_formed one -> well_formed two ->
  (exists two', diff_main one two (Some 1%Z) = Ok (mkOutcome 0 one two' [] [] []) /\ commented (disagree one two) two two' /\ well_formed two' /\
     (forall n, ~ disagree one two' n) /\ diff_main one two' (Some 1%Z) = Ok (mkOutcome 0 one two' [] [] [])) /\
  (exists one', diff_main one two (Some 2%Z) = Ok (mkOutcome 0 one' two [] [] []) /\ commented (disagree one two) one one' /\ well_formed one' /\
     (forall n, ~ disagree one' two n) /\ diff_main one' two (Some 2%Z) = Ok (mkOutcome 0 one' two [] [] [])) /\
  (forall f, f <> 1%Z -> f <> 2%Z -> diff_main one two (Some f) = Ok (mkOutcome 1 one two [] [] [])).
Proof.
  intros one two W1 W2. destruct (analyze_ok one W1) as (st1 & E1 & A1). destruct (analyze_ok two W2) as (st2 & E2 & A2).
  assert (Df := fun n => diff_iff one two st1 st2 n A1 A2).
  assert (Empty : forall l : list str, (forall n, ~ In n l) -> l = []) by (intros [|x l] H; [reflexivity|exfalso; apply (H x); now left]).
  split; [|split].
  - destruct (resolve_ok two _ _ W2 Df) as (two' & R & Cm & W' & _ & Fs). exists two'.
    split; [unfold diff_main; rewrite E1, E2; cbn [bind]; cbn [Z.eqb negb andb]; change (1 =? 1)%Z with true; cbn [negb andb]; rewrite R; reflexivity|].
    split; [exact Cm|]. split; [exact W'|].
    assert (No : forall n, ~ disagree one two' n).
    { intros n (c1 & c2 & F1 & F2 & Ne). apply Fs in F2 as [F2 Nd]. apply Nd. exists c1, c2. auto. }
    split; [exact No|]. destruct (analyze_ok two' W') as (st' & E' & A'). unfold diff_main. rewrite E1, E'. cbn [bind]. change (1 =? 1)%Z with true. cbn [negb andb].
    rewrite (Empty _ (fun n I => No n (proj1 (diff_iff one two' st1 st' n A1 A') I))), (resolve_none two' W'). reflexivity.
  - destruct (resolve_ok one _ _ W1 Df) as (one' & R & Cm & W' & _ & Fs). exists one'.
    split; [unfold diff_main; rewrite E1, E2; cbn [bind]; change (2 =? 1)%Z with false; change (2 =? 2)%Z with true; cbn [negb andb]; rewrite R; reflexivity|].
    split; [exact Cm|]. split; [exact W'|].
    assert (No : forall n, ~ disagree one' two n).
    { intros n (c1 & c2 & F1 & F2 & Ne). apply Fs in F1 as [F1 Nd]. apply Nd. exists c1, c2. auto. }
    split; [exact No|]. destruct (analyze_ok one' W') as (st' & E' & A'). unfold diff_main. rewrite E', E2. cbn [bind]. change (2 =? 1)%Z with false. change (2 =? 2)%Z with true. cbn [negb andb].
    rewrite (Empty _ (fun n I => No n (proj1 (diff_iff one' two st' st2 n A' A2) I))), (resolve_none one' W'). reflexivity.
  - intros f N1 N2. unfold diff_main. rewrite E1, E2. cbn [bind]. destruct (Z.eqb_spec f 1); [contradiction|]. destruct (Z.eqb_spec f 2); [contradiction|]. reflexivity.
Qed.

(** A function that the chosen file marks as uninstrumented and declares, is treated that way
    afterwards, if neither file declares it twice. *)
Theorem C96_choice_partial : forall one two two' name L n c, well_formed one -> well_formed two ->
  diff_main one two (Some 1%Z) = Ok (mkOutcome 0 one two' [] [] []) -> means [one; two'] name L ->
  ~ declares_twice one (name n) -> ~ declares_twice two (name n) ->
  c <> Uninstrumented -> lists one (name n) (word c) -> lists one (name n) w_uninst ->
  is_instrumented L n = false /\ wrapper_kind L n = wrapped_as c.
Proof.
  intros one two two' name L n c W1 W2 E (Src & Fn) T1 T2 Nc Hc Hu.
  assert (Wi : forall a b, word a = word b -> a = b) by (intros [] [] Q; first [reflexivity|discriminate Q]).
  assert (Nu : forall a, a <> Uninstrumented -> word a <> w_uninst) by (intros [] X Q; first [congruence|discriminate Q]).
  destruct (analyze_ok one W1) as (st1 & E1 & A1). destruct (analyze_ok two W2) as (st2 & E2 & A2).
  assert (Df := fun n => diff_iff one two st1 st2 n A1 A2). destruct (resolve_ok two _ _ W2 Df) as (t' & R & _ & _ & Li & _).
  assert (t' = two'). { unfold diff_main in E. rewrite E1, E2 in E. cbn [bind] in E. change (1 =? 1)%Z with true in E. cbn [negb andb] in E. rewrite R in E. cbn [bind] in E. now inversion E. }
  subst t'. split.
  - unfold is_instrumented, is_in. rewrite Src. cbn [orb]. apply negb_false_iff, Fn. exists one. split; [now left|exact Hu].
  - assert (U : forall c', c' <> Uninstrumented -> is_in L n c' = true <-> c' = c).
    { intros c' Nc'. unfold is_in. rewrite Src. cbn [orb]. rewrite Fn. split.
      - intros (t & [<-|[<-|[]]] & K); apply Wi.
        + exact (declares_once one (name n) _ _ T1 (conj K (Nu _ Nc')) (conj Hc (Nu _ Nc))).
        + apply Li in K as [K Nd]. destruct (list_eq_dec N.eq_dec (word c') (word c)) as [Q|Q]; [exact Q|exfalso]. apply Nd.
          destruct (declares_first one (name n) _ (conj Hc (Nu _ Nc))) as (c1 & F1). destruct (declares_first two (name n) _ (conj K (Nu _ Nc'))) as (c2 & F2).
          exists c1, c2. split; [exact F1|]. split; [exact F2|].
          rewrite (declares_once _ _ _ _ T1 (first_declares _ _ _ F1) (conj Hc (Nu _ Nc))), (declares_once _ _ _ _ T2 (first_declares _ _ _ F2) (conj K (Nu _ Nc'))). congruence.
      - intros ->. exists one. split; [now left|exact Hc]. }
    assert (B : forall c', c' <> Uninstrumented -> c' <> c -> is_in L n c' = false).
    { intros c' A Q. destruct (is_in L n c') eqn:X; [|reflexivity]. apply U in X; [contradiction|exact A]. }
    unfold wrapper_kind. destruct c; [congruence|..].
    + now rewrite (proj2 (U Functional Nc) eq_refl).
    + rewrite (B Functional) by discriminate. now rewrite (proj2 (U Discard Nc) eq_refl).
    + rewrite (B Functional), (B Discard) by discriminate. now rewrite (proj2 (U Custom Nc) eq_refl).
Qed.

(** ** Choosing can undo the choice *)
Definition wrap_one : str := lit "fun:f=custom" ++ [10].
Definition stub_two : str := lit "# f" ++ [10] ++ lit "fun:f=uninstrumented" ++ [10] ++ lit "fun:f=discard" ++ [10] ++ lit "fun:g=discard" ++ [10].

Lemma wf_dec t : forallb (fun l => match definition_of l with Ok _ => true | _ => false end) (readlines t) = true -> well_formed t.
Proof.
  intros H ls l L I Hd. apply lines_read in L. subst ls. rewrite forallb_forall in H. specialize (H l I).
  destruct (def_inv l) as [(_ & Q)|[(n & v & D & S)|(Nh & _)]]; [rewrite Q in H; discriminate|eauto|contradiction].
Qed.
Definition listsb (t n c : str) : bool :=
  existsb (fun l => match definition_of l with Ok (Some (k, v)) => str_eqb k n && str_eqb (strip v) c | _ => false end) (readlines t).
Lemma listsb_iff t n c : listsb t n c = true <-> lists t n c.
Proof.
  unfold listsb, lists. rewrite existsb_exists. split.
  - intros (l & I & H). exists (readlines t), l. split; [apply read_lines|]. split; [exact I|].
    destruct (def_inv l) as [(_ & Q)|[(k & v & D & S)|(_ & Q)]]; [rewrite Q in H; discriminate| |rewrite Q in H; discriminate]. rewrite D in H.
    apply andb_true_iff in H as [X Y]. apply str_eqb_iff in X, Y. now subst.
  - intros (ls & l & L & I & S). apply lines_read in L. subst ls. exists l. split; [exact I|]. apply says_def in S as (v & -> & E).
    apply andb_true_iff. split; apply str_eqb_iff; auto.
Qed.
Definition list_of (files : list str) (name : N -> str) : abilist :=
  mkList (fun _ => false) (fun n c => existsb (fun t => listsb t (name n) (word c)) files).
Lemma list_of_means files name : means files name (list_of files name).
Proof.
  split; [reflexivity|]. intros n c. cbn [list_of l_fun]. rewrite existsb_exists. split; intros (t & I & H); exists t; (split; [exact I|]); now apply listsb_iff.
Qed.

(** The first file declares f custom; the second, a generated stub list, marks it as
    uninstrumented and discards its labels.  Both together make f uninstrumented.  Choosing the
    first file also removes the mark: f is instrumented like any function of the program and
    its wrapper is not used. *)
Theorem C96_choice_refuted : exists one two two' name n,
  well_formed one /\ well_formed two /\ diff_main one two (Some 1%Z) = Ok (mkOutcome 0 one two' [] [] []) /\
  (forall m, ~ declares_twice one m) /\ (forall m, ~ declares_twice two m) /\ lists one (name n) (word Custom) /\
  (forall L, means [one; two] name L -> is_instrumented L n = false) /\
  (forall L, means [one; two'] name L -> is_instrumented L n = true).
Proof.
  exists wrap_one, stub_two, (lit "# f" ++ [10] ++ lit "#fun:f=uninstrumented" ++ [10] ++ lit "#fun:f=discard" ++ [10] ++ lit "fun:g=discard" ++ [10]), (fun _ => lit "f"), 0.
  split; [apply wf_dec; vm_compute; reflexivity|]. split; [apply wf_dec; vm_compute; reflexivity|]. split; [vm_compute; reflexivity|].
  assert (Nt : forall t, (forall m, forallb (fun d => match again (fst d) (decls (readlines t)) with None => true | Some _ => false end) (decls (readlines t)) = true -> ~ declares_twice t m)).
  { intros t m H T. apply twice_iff in T as (c & G). destruct (again_first _ _ _ G) as (c' & F). apply first_of_split in F as (a & b & E & _).
    rewrite forallb_forall in H. specialize (H (m, c')). cbn [fst] in H. rewrite G in H. enough (false = true) by discriminate. apply H. rewrite E. apply in_app_iff. right. now left. }
  split; [intros m; apply Nt; vm_compute; reflexivity|]. split; [intros m; apply Nt; vm_compute; reflexivity|].
  split; [apply listsb_iff; vm_compute; reflexivity|]. split.
  - intros L (Src & Fn). unfold is_instrumented, is_in. rewrite Src. cbn [orb]. apply negb_false_iff, Fn. exists stub_two. split; [right; now left|]. apply listsb_iff. vm_compute. reflexivity.
  - intros L (Src & Fn). unfold is_instrumented, is_in. rewrite Src. cbn [orb]. apply negb_true_iff. destruct (l_fun L 0 Uninstrumented) eqn:E; [exfalso|reflexivity].
    apply Fn in E as (t & [<-|[<-|[]]] & K); apply listsb_iff in K; vm_compute in K; discriminate K.
Qed.

(** The script says that custom comes before functional and functional before discard.  In the
    pass, custom comes last. *)
Theorem C96_order_refuted : exists t name n, well_formed t /\ lists t (name n) (word Custom) /\ lists t (name n) (word Discard) /\
  forall L, means [t] name L -> wrapper_kind L n = WKDiscard.
Proof.
  exists (lit "fun:f=custom" ++ [10] ++ lit "fun:f=discard"), (fun _ => lit "f"), 0. split; [apply wf_dec; vm_compute; reflexivity|].
  split; [apply listsb_iff; vm_compute; reflexivity|]. split; [apply listsb_iff; vm_compute; reflexivity|].
  intros L (Src & Fn). unfold wrapper_kind, is_in. rewrite !Src. cbn [orb].
  destruct (l_fun L 0 Functional) eqn:E.
  - exfalso. apply Fn in E as (t & [<-|[]] & K). apply listsb_iff in K. vm_compute in K. discriminate K.
  - assert (D : l_fun L 0 Discard = true); [|now rewrite D]. apply Fn. eexists. split; [now left|]. apply listsb_iff. vm_compute. reflexivity.
Qed.

(** ** A concrete case *)
Example C96_case : well_formed wrap_one /\ well_formed stub_two /\ disagree wrap_one stub_two (lit "f") /\ ~ agree wrap_one stub_two /\
  agree wrap_one (lit "fun:g=discard" ++ [10]) /\ means [wrap_one; stub_two] (fun _ => lit "f") (list_of [wrap_one; stub_two] (fun _ => lit "f")).
Proof.
  assert (W1 : well_formed wrap_one) by (apply wf_dec; vm_compute; reflexivity). assert (W2 : well_formed stub_two) by (apply wf_dec; vm_compute; reflexivity).
  assert (W3 : well_formed (lit "fun:g=discard" ++ [10])) by (apply wf_dec; vm_compute; reflexivity).
  split; [exact W1|]. split; [exact W2|].
  assert (D : disagree wrap_one stub_two (lit "f")).
  { exists (word Custom), (word Discard). rewrite !first_says_iff. split; [vm_compute; reflexivity|]. split; [vm_compute; reflexivity|discriminate]. }
  split; [exact D|]. split; [|split; [|apply list_of_means]].
  - intros (_ & _ & Ag). destruct D as (c1 & c2 & F1 & F2 & Ne). apply Ne. exact (Ag _ _ _ (first_declares _ _ _ F1) (first_declares _ _ _ F2)).
  - destruct (C96_report wrap_one (lit "fun:g=discard" ++ [10]) W1 W3) as (o & E & _ & _ & S & _). apply S. vm_compute in E. inversion E. reflexivity.
Qed.

Print Assumptions C96_works.
Print Assumptions C96_report.
Print Assumptions C96_agreement.
Print Assumptions C96_choose.
Print Assumptions C96_choice_partial.
Print Assumptions C96_choice_refuted.
Print Assumptions C96_order_refuted.
