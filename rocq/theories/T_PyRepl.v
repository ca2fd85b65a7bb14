(** Property C126: completions at the prompt. *)
From Coq Require Import NArith List Bool Lia.
From Verif Require Import M_Base M_PyRepl P_Base.
Import ListNotations.
Open Scope N_scope.

Lemma name_eqb_iff : forall a b, name_eqb a b = true <-> a = b.
Proof.
  induction a as [|x a IH]; destruct b as [|y b]; cbn; try (split; congruence).
  rewrite andb_true_iff, N.eqb_eq, IH. split; [intros [-> ->]; reflexivity|intro H; inversion H; auto].
Qed.
Lemma mem_iff : forall l n, mem n l = true <-> In n l.
Proof.
  induction l as [|x l IH]; intro n; cbn; [split; [discriminate|contradiction]|]. rewrite orb_true_iff, name_eqb_iff, IH. tauto.
Qed.
Lemma starts_iff : forall s p, startswith s p = true <-> exists r, s = p ++ r.
Proof.
  intros s p. revert s. induction p as [|y p IH]; intros s.
  - split; [intros _; exists s; reflexivity|destruct s; reflexivity].
  - destruct s as [|x s]; cbn; [split; [discriminate|intros (r & H); discriminate]|].
    rewrite andb_true_iff, N.eqb_eq, IH. split.
    + intros (-> & r & ->). exists r. reflexivity.
    + intros (r & H). inversion H; subst. split; [reflexivity|exists r; reflexivity].
Qed.

(** [v] continues the text [p] by at least one character. *)
Definition continues (v p : name) : Prop := exists c r, v = p ++ c :: r.
Lemma continues_iff : forall v p, startswith v p && negb (name_eqb v p) = true <-> continues v p.
Proof.
  intros v p. rewrite andb_true_iff, negb_true_iff, starts_iff. unfold continues. split.
  - intros ((r & ->) & H). destruct r as [|c r]; [|exists c, r; reflexivity]. rewrite app_nil_r in H.
    rewrite (proj2 (name_eqb_iff p p) eq_refl) in H. discriminate.
  - intros (c & r & ->). split; [exists (c :: r); reflexivity|]. destruct (name_eqb (p ++ c :: r) p) eqn:E; [|reflexivity].
    apply name_eqb_iff in E. apply (f_equal (@length N)) in E. rewrite app_length in E. cbn in E. lia.
Qed.

Lemma offer_spec : forall partial options seen l seen', offer partial options seen = (l, seen') ->
  (forall c, In c l <-> creplaced c = length partial /\ In (ctext c) options /\ ~ In (ctext c) seen /\ continues (ctext c) partial) /\
  (forall n, In n seen' <-> In n seen \/ (In n options /\ continues n partial)) /\ NoDup (map ctext l).
Proof.
  intros partial. induction options as [|v r IH]; intros seen l seen' H; cbn [offer] in H.
  - inversion H; subst. split; [|split]; [| |constructor].
    + intro c. split; [intros []|intros (_ & [] & _)].
    + intro n. cbn. tauto.
  - rewrite <- andb_assoc in H. destruct (negb (mem v seen) && _) eqn:E.
    + apply andb_true_iff in E. destruct E as [E1 E2]. apply continues_iff in E2. apply negb_true_iff in E1.
      assert (Nv : ~ In v seen) by (intro X; apply mem_iff in X; congruence).
      destruct (offer partial r (v :: seen)) as [l1 s1] eqn:F. inversion H; subst. destruct (IH _ _ _ F) as (A & B & C). split; [|split].
      * intros [t k]. cbn [In ctext creplaced]. rewrite A. cbn [ctext creplaced In]. split.
        -- intros [X|(X1 & X2 & X3 & X4)]; [inversion X; subst; auto|]. tauto.
        -- intros (X1 & [->|X2] & X3 & X4); [left; congruence|].
           destruct (list_eq_dec N.eq_dec v t) as [->|D]; [left; congruence|right; tauto].
      * intro n. rewrite B. cbn [In]. split; [|intros [X|[[->|X] Y]]; tauto]. intros [[->|X]|X]; tauto.
      * cbn [map ctext]. constructor; [|assumption]. intro X. apply in_map_iff in X. destruct X as (c & X1 & X2). apply A in X2.
        destruct X2 as (_ & _ & X2 & _). apply X2. left. symmetry. assumption.
    + destruct (IH _ _ _ H) as (A & B & C).
      assert (No : ~ In v seen -> ~ continues v partial).
      { intros X Y. apply continues_iff in Y. rewrite Y in E. rewrite andb_true_r in E. apply negb_false_iff, mem_iff in E. contradiction. }
      split; [|split; [|assumption]].
      * intros [t k]. rewrite A. cbn [In ctext creplaced]. split; [tauto|]. intros (X1 & [->|X2] & X3 & X4); [|tauto]. exfalso. exact (No X3 X4).
      * intro n. rewrite B. cbn [In]. split; [tauto|]. intros [X|[[->|X] Y]]; try tauto.
        destruct (in_dec (list_eq_dec N.eq_dec) n seen) as [I|I]; [tauto|]. exfalso. exact (No I Y).
Qed.

(** The parts between dots. *)
Lemma split_plain : forall s, ~ In 46 s -> split_dots s = [s].
Proof.
  induction s as [|c s IH]; intro H; cbn; [reflexivity|]. destruct (N.eqb_spec c 46) as [->|D]; [exfalso; apply H; left; reflexivity|].
  rewrite IH; [reflexivity|]. intro X. apply H. right. assumption.
Qed.
Lemma split_nonempty : forall s, split_dots s <> [].
Proof. destruct s as [|c s]; cbn; [discriminate|]. destruct (c =? 46); [discriminate|]. destruct (split_dots s); discriminate. Qed.
Lemma split_app : forall a b, ~ In 46 a -> split_dots (a ++ 46 :: b) = a :: split_dots b.
Proof.
  induction a as [|c a IH]; intros b H; cbn; [reflexivity|]. destruct (N.eqb_spec c 46) as [->|D]; [exfalso; apply H; left; reflexivity|].
  rewrite IH; [reflexivity|]. intro X. apply H. right. assumption.
Qed.
(** The last part is what follows the last dot. *)
Lemma last_part : forall s a b, last_two (split_dots s) = Some (a, b) -> exists before, s = before ++ b /\ ~ In 46 b /\ exists b0, before = b0 ++ [46].
Proof.
  assert (G : forall s, exists init b, split_dots s = init ++ [b] /\ ~ In 46 b /\ ((init = [] /\ s = b) \/ exists b0, s = b0 ++ [46] ++ b)).
  { induction s as [|c s (init & b & E & N1 & X)]; cbn.
    - exists [], []. split; [reflexivity|]. split; [intros []|left; auto].
    - destruct (N.eqb_spec c 46) as [->|D].
      + exists ([] :: init), b. rewrite E. split; [reflexivity|]. split; [assumption|]. right. destruct X as [(-> & ->)|(b0 & ->)]; [exists []; reflexivity|].
        exists (46 :: b0). reflexivity.
      + rewrite E. destruct init as [|i init]; cbn.
        * exists [], (c :: b). split; [reflexivity|]. destruct X as [(_ & ->)|(b0 & ->)].
          -- split; [|left; auto]. intros [X|X]; [exact (D X)|exact (N1 X)].
          -- exfalso. assert (H : length (split_dots (b0 ++ [46] ++ b)) = 1%nat) by (rewrite E; reflexivity). clear -H.
             revert H. cbn [app]. induction b0 as [|x b0 IH]; cbn [app split_dots].
             ++ rewrite N.eqb_refl. pose proof (split_nonempty b). destruct (split_dots b); [contradiction|discriminate].
             ++ destruct (x =? 46); [pose proof (split_nonempty (b0 ++ 46 :: b)); destruct (split_dots (b0 ++ 46 :: b)); [contradiction|discriminate]|].
                pose proof (split_nonempty (b0 ++ 46 :: b)) as Ne. destruct (split_dots (b0 ++ 46 :: b)) as [|p ps]; [contradiction|]. intro H. apply IH. exact H.
        * exists ((c :: i) :: init), b. split; [reflexivity|]. split; [assumption|]. right. destruct X as [(X & _)|(b0 & ->)]; [discriminate|]. exists (c :: b0). reflexivity. }
  intros s a b H. destruct (G s) as (init & b' & E & N1 & X). unfold last_two in H. rewrite E, rev_app_distr in H. cbn [rev app] in H.
  destruct (rev init) as [|i r] eqn:R; [discriminate|]. inversion H; subst. destruct X as [(-> & _)|(b0 & ->)]; [discriminate|].
  exists (b0 ++ [46]). rewrite <- app_assoc. split; [reflexivity|]. split; [assumption|]. exists b0. reflexivity.
Qed.

Lemma whole : forall v partial, continues v partial -> complete partial (mkCompletion v (length partial)) = v.
Proof. intros v partial _. unfold complete. cbn [creplaced ctext]. rewrite PeanoNat.Nat.sub_diag. reflexivity. Qed.

(** C126.  Every completion that is offered only adds to what was typed before the cursor. *)
Theorem C126_continues : forall p text cursor c, In c (get_completions p text cursor) ->
  continues (complete (firstn cursor text) c) (firstn cursor text).
Proof.
  intros p text cursor c H. unfold get_completions in H. destruct (multi_line p && _); [destruct H|]. set (partial := firstn cursor text) in *.
  destruct (if name_eqb partial text then offer partial (commands p) [] else ([], [])) as [l1 s1] eqn:E1.
  destruct (offer partial (filter _ (variables p)) s1) as [l2 s2] eqn:E2.
  destruct (offer partial (builtins p) s2) as [l3 s3] eqn:E3. destruct (offer partial (py_builtins p) s3) as [l4 s4] eqn:E4.
  assert (W : forall opts seen l seen', offer partial opts seen = (l, seen') -> In c l -> continues (complete partial c) partial).
  { intros opts seen l seen' O I. apply (proj1 (offer_spec _ _ _ _ _ O)) in I. destruct c as [t k]. cbn in I. destruct I as (-> & _ & _ & I). rewrite whole; assumption. }
  rewrite !in_app_iff in H. destruct H as [H|[H|[H|[H|H]]]]; [|exact (W _ _ _ _ E2 H)|exact (W _ _ _ _ E3 H)|exact (W _ _ _ _ E4 H)|].
  - destruct (name_eqb partial text); [exact (W _ _ _ _ E1 H)|inversion E1; subst; destruct H].
  - destruct (last_two (split_dots partial)) as [[a b]|] eqn:L; [|destruct H]. destruct (mem a (variables p)); [|destruct H].
    destruct (attributes p a) as [dir|]; [|destruct H]. destruct (offer b (filter public dir) s4) as [l5 s5] eqn:E5. cbn [fst] in H.
    apply (proj1 (offer_spec _ _ _ _ _ E5)) in H. destruct c as [t k]. cbn in H. destruct H as (-> & _ & _ & (x & r & ->)).
    apply last_part in L. destruct L as (before & L & _). rewrite L. unfold complete. cbn [creplaced ctext].
    rewrite app_length, PeanoNat.Nat.add_sub, firstn_app, PeanoNat.Nat.sub_diag, firstn_all. cbn [firstn]. rewrite app_nil_r.
    exists x, r. rewrite <- app_assoc. reflexivity.
Qed.
Print Assumptions C126_continues.

(** C126.  At the end of the line, every command, variable and builtin that continues the line
    is offered, unless an empty line of a longer statement is being indented.  (Missing: names
    inside a line, for which it is false, see below.) *)
Theorem C126_offered_partial : forall p text n, (multi_line p = true -> text <> []) ->
  In n (commands p) \/ In n (variables p) \/ In n (builtins p) \/ In n (py_builtins p) -> continues n text ->
  In (mkCompletion n (length text)) (get_completions p text (length text)).
Proof.
  intros p text n M H C. unfold get_completions.
  replace (multi_line p && match text with [] => true | _ => false end) with false
    by (destruct (multi_line p); [destruct text; [exfalso; apply M; reflexivity|reflexivity]|reflexivity]).
  rewrite firstn_all, (proj2 (name_eqb_iff text text) eq_refl).
  destruct (offer text (commands p) []) as [l1 s1] eqn:E1.
  destruct (offer text (filter _ (variables p)) s1) as [l2 s2] eqn:E2.
  destruct (offer text (builtins p) s2) as [l3 s3] eqn:E3. destruct (offer text (py_builtins p) s3) as [l4 s4] eqn:E4.
  destruct (offer_spec _ _ _ _ _ E1) as (A1 & B1 & _). destruct (offer_spec _ _ _ _ _ E2) as (A2 & B2 & _).
  destruct (offer_spec _ _ _ _ _ E3) as (A3 & B3 & _). destruct (offer_spec _ _ _ _ _ E4) as (A4 & B4 & _).
  set (c := mkCompletion n (length text)).
  assert (X1 : In n s1 -> In c l1). { intro I. apply A1. apply B1 in I. destruct I as [[]|[I _]]. cbn. auto. }
  assert (X2 : In n s2 -> In c l1 \/ In c l2).
  { intro I. destruct (in_dec (list_eq_dec N.eq_dec) n s1) as [J|J]; [auto|]. right. apply A2. apply B2 in I. destruct I as [I|[I _]]; [contradiction|]. cbn. auto. }
  assert (X3 : In n s3 -> In c l1 \/ In c l2 \/ In c l3).
  { intro I. destruct (in_dec (list_eq_dec N.eq_dec) n s2) as [J|J]; [destruct (X2 J); auto|]. right. right. apply A3. apply B3 in I. destruct I as [I|[I _]]; [contradiction|]. cbn. auto. }
  assert (X4 : In n s4 -> In c l1 \/ In c l2 \/ In c l3 \/ In c l4).
  { intro I. destruct (in_dec (list_eq_dec N.eq_dec) n s3) as [J|J]; [destruct (X3 J) as [|[|]]; auto|]. right. right. right. apply A4. apply B4 in I. destruct I as [I|[I _]]; [contradiction|]. cbn. auto. }
  rewrite !in_app_iff. cut (In n s4); [intro I; destruct (X4 I) as [|[|[|]]]; auto|].
  apply B4. destruct H as [H|[H|[H|H]]].
  - left. apply B3. left. apply B2. left. apply B1. auto.
  - destruct (mem n (builtins p)) eqn:Mb.
    + left. apply B3. right. split; [apply mem_iff; assumption|assumption].
    + left. apply B3. left. apply B2. right. split; [apply filter_In; rewrite Mb; auto|assumption].
  - left. apply B3. auto.
  - auto.
Qed.
Print Assumptions C126_offered_partial.

(** C126.  Behind a variable, a dot and the beginning of a name, every attribute of the variable
    that continues it is offered, if it does not begin with "_"; names contain no dots.
    (Missing: longer expressions, for which it is false, see below.) *)
Theorem C126_attributes_partial : forall p v t a dir, (forall n, In n (commands p ++ variables p ++ builtins p ++ py_builtins p) -> ~ In 46 n) ->
  In v (variables p) -> attributes p v = Some dir -> ~ In 46 t -> In a dir -> (forall r, a <> 95 :: r) -> continues a t ->
  In (mkCompletion a (length t)) (get_completions p (v ++ 46 :: t) (length (v ++ 46 :: t))).
Proof.
  intros p v t a dir Nd Hv Ha Nt Hd Hu C. unfold get_completions. set (text := v ++ 46 :: t).
  replace (multi_line p && match text with [] => true | _ => false end) with false by (unfold text; destruct v; cbn; rewrite andb_false_r; reflexivity).
  rewrite firstn_all, (proj2 (name_eqb_iff text text) eq_refl).
  destruct (offer text (commands p) []) as [l1 s1] eqn:E1.
  destruct (offer text (filter _ (variables p)) s1) as [l2 s2] eqn:E2.
  destruct (offer text (builtins p) s2) as [l3 s3] eqn:E3. destruct (offer text (py_builtins p) s3) as [l4 s4] eqn:E4.
  assert (Nv : ~ In 46 v) by (apply Nd; rewrite !in_app_iff; auto).
  replace (last_two (split_dots text)) with (Some (v, t)) by (unfold text; rewrite split_app, split_plain by assumption; reflexivity).
  rewrite (proj2 (mem_iff _ _) Hv), Ha. rewrite !in_app_iff. do 4 right.
  destruct (offer t (filter public dir) s4) as [l5 s5] eqn:E5. cbn [fst]. apply (proj1 (offer_spec _ _ _ _ _ E5)). cbn [ctext creplaced].
  split; [reflexivity|]. split; [|split; [|assumption]].
  - apply filter_In. split; [assumption|]. unfold public. apply negb_true_iff. destruct (startswith a [95]) eqn:S; [|reflexivity].
    apply starts_iff in S. destruct S as (r & ->). exfalso. apply (Hu r). reflexivity.
  - intro I.
    assert (Sn : forall opts seen l seen', (forall n, In n opts -> ~ In 46 n) -> offer text opts seen = (l, seen') -> forall n, In n seen' -> In n seen).
    { intros opts seen l seen' Q O n J. apply (proj1 (proj2 (offer_spec _ _ _ _ _ O))) in J. destruct J as [J|[J (x & r & ->)]]; [assumption|].
      exfalso. apply (Q _ J). unfold text. rewrite !in_app_iff. left. right. left. reflexivity. }
    assert (Q : forall n, In n (commands p) \/ In n (variables p) \/ In n (builtins p) \/ In n (py_builtins p) -> ~ In 46 n)
      by (intros n J; apply Nd; rewrite !in_app_iff; exact J).
    apply (Sn _ _ _ _ (fun n J => Q n (or_intror (or_intror (or_intror J)))) E4) in I.
    apply (Sn _ _ _ _ (fun n J => Q n (or_intror (or_intror (or_introl J)))) E3) in I.
    apply (Sn _ _ _ _ (fun n J => Q n (or_intror (or_introl (proj1 (proj1 (filter_In _ _ _) J))))) E2) in I.
    apply (Sn _ _ _ _ (fun n J => Q n (or_introl J)) E1) in I. destruct I.
Qed.
Print Assumptions C126_attributes_partial.

(** C126.  No name is offered twice. *)
Theorem C126_once : forall p text cursor, NoDup (map ctext (get_completions p text cursor)).
Proof.
  intros p text cursor. unfold get_completions. destruct (multi_line p && _); [constructor|]. set (partial := firstn cursor text).
  destruct (if name_eqb partial text then offer partial (commands p) [] else ([], [])) as [l1 s1] eqn:E1.
  destruct (offer partial (filter _ (variables p)) s1) as [l2 s2] eqn:E2.
  destruct (offer partial (builtins p) s2) as [l3 s3] eqn:E3. destruct (offer partial (py_builtins p) s3) as [l4 s4] eqn:E4.
  assert (Nd : forall (a b : list name), NoDup a -> NoDup b -> (forall n, In n a -> ~ In n b) -> NoDup (a ++ b)).
  { induction a as [|x a IH]; intros b A B D; cbn; [assumption|]. inversion A; subst. constructor.
    - rewrite in_app_iff. intros [X|X]; [contradiction|]. exact (D x (or_introl eq_refl) X).
    - apply IH; auto. intros n X. apply D. right. assumption. }
  assert (F1 : NoDup (map ctext l1) /\ forall n, In n (map ctext l1) -> In n s1).
  { destruct (name_eqb partial text).
    - destruct (offer_spec _ _ _ _ _ E1) as (A & B & D). split; [assumption|]. intros n X. apply in_map_iff in X. destruct X as (c & <- & X).
      apply A in X. apply B. tauto.
    - inversion E1; subst. split; [constructor|intros n []]. }
  assert (F : forall part opts seen l seen', offer part opts seen = (l, seen') ->
     NoDup (map ctext l) /\ (forall n, In n (map ctext l) -> ~ In n seen /\ In n seen') /\ (forall n, In n seen -> In n seen')).
  { intros part opts seen l seen' O. destruct (offer_spec _ _ _ _ _ O) as (A & B & D). split; [assumption|]. split; [|intros n X; apply B; auto].
    intros n X. apply in_map_iff in X. destruct X as (c & <- & X). apply A in X. rewrite B. tauto. }
  destruct (F _ _ _ _ _ E2) as (F2 & G2 & I2). destruct (F _ _ _ _ _ E3) as (F3 & G3 & I3). destruct (F _ _ _ _ _ E4) as (F4 & G4 & I4).
  destruct F1 as [F1 G1].
  set (l5 := match last_two (split_dots partial) with
             | Some (varname, to_complete) =>
                 if mem varname (variables p) then
                   match attributes p varname with Some dir => fst (offer to_complete (filter public dir) s4) | None => [] end
                 else []
             | None => []
             end).
  assert (F5 : NoDup (map ctext l5) /\ forall n, In n (map ctext l5) -> ~ In n s4).
  { unfold l5. destruct (last_two (split_dots partial)) as [[a b]|]; [|split; [constructor|intros n []]].
    destruct (mem a (variables p)); [|split; [constructor|intros n []]]. destruct (attributes p a) as [dir|]; [|split; [constructor|intros n []]].
    destruct (offer b (filter public dir) s4) as [l6 s6] eqn:E6. cbn [fst]. destruct (F _ _ _ _ _ E6) as (A & B & _). split; [assumption|]. intros n X. apply B. assumption. }
  destruct F5 as [F5 G5]. rewrite !map_app.
  apply Nd; [assumption|apply Nd; [assumption|apply Nd; [assumption|apply Nd; [assumption|assumption|]|]|]|].
  - intros n X Y. apply G5 in Y. apply Y. apply G4. assumption.
  - intros n X. rewrite in_app_iff. apply G3 in X. intros [Y|Y]; [apply G4 in Y; tauto|apply G5 in Y; apply Y; apply I4; tauto].
  - intros n X. rewrite !in_app_iff. apply G2 in X. intros [Y|[Y|Y]]; [apply G3 in Y; tauto|apply G4 in Y; destruct Y as [Y _]; apply Y; apply I3; tauto|].
    apply G5 in Y. apply Y. apply I4, I3. tauto.
  - intros n X. rewrite !in_app_iff. apply G1 in X. intros [Y|[Y|[Y|Y]]]; [apply G2 in Y; tauto|apply G3 in Y; destruct Y as [Y _]; apply Y; apply I2; assumption| |].
    + apply G4 in Y. destruct Y as [Y _]. apply Y. apply I3, I2. assumption.
    + apply G5 in Y. apply Y. apply I4, I3, I2. assumption.
Qed.
Print Assumptions C126_once.

(** A prompt with the command load, the variables ab, a and b, the attributes go and _x of a and
    stop of b. *)
Definition sample : prompt := mkPrompt [[108; 111; 97; 100]] [[97; 98]; [97]; [98]; [108; 111; 97; 100]] [[108; 111; 97; 100]] [[97; 98; 115]]
  (fun n => if name_eqb n [97] then Some [[103; 111]; [95; 120]] else if name_eqb n [98] then Some [[115]] else None) false.
Example C126_case :
  get_completions sample [97] 1 = [mkCompletion [97; 98] 1; mkCompletion [97; 98; 115] 1] /\
  get_completions sample [108; 111] 2 = [mkCompletion [108; 111; 97; 100] 2] /\
  get_completions sample [97; 46; 103] 3 = [mkCompletion [103; 111] 1] /\
  complete [97; 46; 103] (mkCompletion [103; 111] 1) = [97; 46; 103; 111] /\
  (forall n, In n (commands sample ++ variables sample ++ builtins sample ++ py_builtins sample) -> ~ In 46 n).
Proof.
  split; [reflexivity|]. split; [reflexivity|]. split; [reflexivity|]. split; [reflexivity|].
  intros n H. cbn in H. repeat (destruct H as [<-|H]; [cbn; intuition discriminate|]). destruct H.
Qed.

(** Refuted: names inside a line.  After "(" the command load is not offered for "lo". *)
Theorem C126_inside_refuted : In [108; 111; 97; 100] (commands sample) /\ get_completions sample [40; 108; 111] 3 = [].
Proof. split; [left; reflexivity|reflexivity]. Qed.
Print Assumptions C126_inside_refuted.
(** Refuted: attributes of attributes.  Behind "a.b." those of the variable b are offered,
    though a has no attribute b. *)
Theorem C126_chain_refuted : exists dir, attributes sample [97] = Some dir /\ ~ In [98] dir /\
  get_completions sample [97; 46; 98; 46] 4 = [mkCompletion [115] 0].
Proof. eexists. split; [reflexivity|]. split; [cbn; intuition discriminate|reflexivity]. Qed.
Print Assumptions C126_chain_refuted.
