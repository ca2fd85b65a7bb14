(** Proofs for T_PyTraceGrammar. *)
From Coq Require Import NArith List Bool Lia.
From Verif Require Import M_Base M_PyGrammar M_PyTraceGrammar S_Grammar S_TraceGrammar P_Base P_Grammar.
Import ListNotations.
Open Scope N_scope.

(** ** Functions *)
Lemma func_induct : forall P : func -> Prop,
  (forall n bs, (forall b g r, In b bs -> block_call b = Some (g, r) -> P g) -> P (Func n bs)) -> forall f, P f.
Proof.
  intros P H. fix IH 1. intros [n bs]. apply H.
  assert (A : Forall (fun b : block => match b with (_, Some (g, _)) => P g | _ => True end) bs).
  { induction bs as [|[[bn t] [[g r]|]] bs IHb]; constructor; [apply IH|exact IHb|exact I|exact IHb]. }
  intros b g r I E. rewrite Forall_forall in A. specialize (A b I). destruct b as [[bn t] c]. cbn in E. rewrite E in A. exact A.
Qed.

(** Equations of the recursions over blocks. *)
Fixpoint calls_of (bs : list block) : list func :=
  match bs with
  | [] => []
  | b :: r => match block_call b with Some (g, _) => [g] | None => [] end ++ calls_of r
  end.
Fixpoint eaten (bs : list block) : list N :=
  match bs with
  | [] => []
  | b :: r => concat (block_tokens b) ++ match block_call b with Some (g, _) => consumed g | None => [] end ++ eaten r
  end.
Lemma consumed_eq n bs : consumed (Func n bs) = eaten bs.
Proof. cbn [consumed]. induction bs as [|[[bn t] c] bs IH]; [reflexivity|]. cbn [eaten]. rewrite <- IH. reflexivity. Qed.
Fixpoint block_names (bs : list block) : list N :=
  match bs with
  | [] => []
  | b :: r => block_name b :: match block_call b with Some (g, _) => all_names g | None => [] end ++ block_names r
  end.
Lemma all_names_eq n bs : all_names (Func n bs) = n :: block_names bs.
Proof. cbn [all_names]. f_equal. induction bs as [|[[bn t] c] bs IH]; [reflexivity|]. cbn [block_names]. rewrite <- IH. reflexivity. Qed.
Fixpoint sizes (bs : list block) : nat :=
  match bs with
  | [] => O
  | b :: r => (match block_call b with Some (g, _) => func_size g | None => O end + sizes r)%nat
  end.
Lemma func_size_eq n bs : func_size (Func n bs) = S (sizes bs).
Proof. cbn [func_size]. f_equal. induction bs as [|[[bn t] c] bs IH]; [reflexivity|]. cbn [sizes]. rewrite <- IH. reflexivity. Qed.
Lemma calls_in bs g : In g (calls_of bs) <-> exists b r, In b bs /\ block_call b = Some (g, r).
Proof.
  induction bs as [|b bs IH]; cbn [calls_of]; [split; [intros []|intros (b & r & [] & _)]|]. rewrite in_app_iff, IH. split.
  - intros [I|(b' & r & I & E)]; [|exists b', r; split; [now right|exact E]]. destruct (block_call b) as [[h r]|] eqn:E; [|destruct I]. destruct I as [<-|[]]. exists b, r. split; [now left|exact E].
  - intros (b' & r & [<-|I] & E); [left; rewrite E; now left|right; eauto].
Qed.

Fixpoint order (f : func) : list func :=
  let 'Func n bs := f in
  f :: if func_touched (Func n bs) then
         (fix go (bs : list block) : list func :=
            match bs with
            | [] => []
            | (_, _, c) :: r => go r ++ match c with Some (g, _) => order g | None => [] end
            end) bs
       else [].
Lemma order_eq f : order f = f :: if func_touched f then flat_map order (rev (calls_of (func_blocks f))) else [].
Proof.
  destruct f as [n bs]. cbn [func_blocks order]. f_equal. destruct (func_touched (Func n bs)); [|reflexivity]. induction bs as [|[[bn t] c] bs IH]; [reflexivity|].
  cbn [calls_of block_call snd]. rewrite IH, rev_app_distr, flat_map_app. f_equal. destruct c as [[g r]|]; [cbn; now rewrite app_nil_r|reflexivity].
Qed.

Definition entry : Type := N * option (list symbol).
Definition first_name (bs : list block) : option N := match bs with b :: _ => Some (block_name b) | [] => None end.
Fixpoint block_entries (bs : list block) : list entry :=
  match bs with
  | [] => []
  | b :: r => (block_name b, Some (block_symbols b (first_name r))) :: block_entries r
  end.
Definition own (f : func) : list entry :=
  if func_touched f then
    match func_blocks f with
    | [] => [(func_name f, None)]
    | b :: _ => (func_name f, Some [NonTerminal (block_name b)]) :: block_entries (func_blocks f)
    end
  else [(func_name f, None)].
Definition entries (f : func) : list entry := flat_map own (order f).
Lemma own_head f : exists e es, own f = (func_name f, e) :: es.
Proof. unfold own. destruct (func_touched f); [destruct (func_blocks f)|]; eauto. Qed.

Definition put_entry (g : grammar) (e : entry) : Res grammar :=
  match snd e with Some seq => put_rule g (fst e) seq | None => new_empty g (fst e) end.
Fixpoint entries_loop (g : grammar) (es : list entry) : Res grammar :=
  match es with
  | [] => Ok g
  | e :: r => do g1 <- put_entry g e; entries_loop g1 r
  end.
Lemma entries_app a b : forall g, entries_loop g (a ++ b) = do g1 <- entries_loop g a; entries_loop g1 b.
Proof. induction a as [|e a IH]; intros g; [reflexivity|]. cbn [app entries_loop]. destruct (put_entry g e); cbn [bind]; [apply IH|reflexivity..]. Qed.

Lemma blocks_eq bs : forall g pushed, blocks_loop g bs pushed = do g1 <- entries_loop g (block_entries bs); Ok (g1, rev (calls_of bs) ++ pushed).
Proof.
  induction bs as [|b bs IH]; intros g pushed; [reflexivity|]. cbn [blocks_loop block_entries entries_loop]. unfold put_entry. cbn [fst snd]. unfold first_name.
  destruct (put_rule g (block_name b) _) as [g1| | |]; cbn [bind]; [|reflexivity..]. rewrite IH. destruct (entries_loop g1 (block_entries bs)); cbn [bind]; [|reflexivity..].
  cbn [calls_of]. rewrite rev_app_distr, <- app_assoc. destruct (block_call b) as [[h q]|]; reflexivity.
Qed.
Lemma step_eq g f : func_step g f = do g1 <- entries_loop g (own f); Ok (g1, if func_touched f then rev (calls_of (func_blocks f)) else []).
Proof.
  unfold func_step, own. destruct (func_touched f); [destruct (func_blocks f) as [|b bs] eqn:E|].
  - cbn [entries_loop]. unfold put_entry. cbn. destruct (new_empty g (func_name f)); reflexivity.
  - cbn [entries_loop]. unfold put_entry at 1. cbn [fst snd]. destruct (put_rule g (func_name f) [NonTerminal (block_name b)]); cbn [bind]; [|reflexivity..].
    rewrite blocks_eq. now rewrite app_nil_r.
  - cbn [entries_loop]. unfold put_entry. cbn. destruct (new_empty g (func_name f)); reflexivity.
Qed.
Lemma funcs_eq : forall fuel stack g, (length (flat_map order stack) <= fuel)%nat -> funcs_loop fuel g stack = entries_loop g (flat_map own (flat_map order stack)).
Proof.
  induction fuel as [|fuel IH]; intros [|f rest] g L; [reflexivity| |reflexivity|].
  - exfalso. cbn [flat_map] in L. rewrite order_eq in L. cbn in L. lia.
  - cbn [funcs_loop flat_map]. rewrite step_eq, flat_map_app, order_eq. cbn [flat_map]. rewrite <- app_assoc, entries_app. destruct (entries_loop g (own f)) as [g1| | |]; cbn [bind]; [|reflexivity..].
    rewrite IH; [|cbn [flat_map] in L; rewrite order_eq in L; cbn [app length] in L; destruct (func_touched f); rewrite ?flat_map_app, ?app_length in *; cbn in *; lia].
    rewrite <- flat_map_app. do 2 f_equal. destruct (func_touched f); [now rewrite flat_map_app|reflexivity].
Qed.
Lemma order_size f : (length (order f) <= func_size f)%nat.
Proof.
  induction f as [n bs IH] using func_induct. rewrite order_eq, func_size_eq. cbn [length func_blocks]. apply le_n_S. destruct (func_touched (Func n bs)); [|cbn; lia].
  assert (G : forall bs, (forall b g r, In b bs -> block_call b = Some (g, r) -> (length (order g) <= func_size g)%nat) -> (length (flat_map order (rev (calls_of bs))) <= sizes bs)%nat).
  { clear. induction bs as [|b bs IHb]; intros H; [cbn; lia|]. cbn [calls_of sizes]. rewrite rev_app_distr, flat_map_app, app_length.
    specialize (IHb (fun b' g r I => H b' g r (or_intror I))). destruct (block_call b) as [[h q]|] eqn:E; [|cbn; lia].
    specialize (H b h q (or_introl eq_refl) E). cbn. rewrite app_nil_r. lia. }
  exact (G bs IH).
Qed.

(** ** The grammar under construction *)
Definition always (_ : N) : bool := true.
Notation growing := (building_with always).
Lemma put_rule_eq g n seq : put_rule g n seq = extract_named always g n seq.
Proof. reflexivity. Qed.
Lemma new_empty_ok g n : growing g -> ~ In n (names g) -> exists g', new_empty g n = Ok g' /\ growing g' /\ names g' = names g ++ [n] /\ (forall m body, rule_of g' m body <-> rule_of g m body).
Proof.
  intros B Hn. unfold new_empty. rewrite (proj2 (has_prod_false g n) Hn). eexists. split; [reflexivity|]. set (g' := mkGrammar _ _).
  assert (R : forall m body, rule_of g' m body <-> rule_of g m body).
  { intros m body. unfold rule_of, g'. cbn [productions]. split.
    - intros (p & r & H1 & H2 & H3). apply in_app_iff in H1 as [H1|[H1|[]]]; [eauto|]. inversion H1; subst. destruct H2.
    - intros (p & r & H1 & H2 & H3). exists p, r. rewrite in_app_iff. auto. }
  assert (Nm : names g' = names g ++ [n]) by (unfold names, g'; cbn; now rewrite map_app).
  assert (I : forall k p, In (k, p) (productions g') -> In (k, p) (productions g) \/ p = mkProd [] true None).
  { intros k p H. unfold g' in H. cbn [productions] in H. apply in_app_iff in H as [H|[H|[]]]; [now left|]. inversion H; subst. now right. }
  split; [|split; [exact Nm|exact R]]. constructor.
  - rewrite Nm. apply nodup_app_one; [apply (b_names _ _ B)|exact Hn].
  - intros k body m H1 H2. apply R in H1. exact (b_used _ _ B _ _ _ H1 H2).
  - intros k m H. rewrite Nm, in_app_iff. left. exact (b_users _ _ B _ _ H).
  - intros k m H. destruct (b_exact _ _ B _ _ H) as (body & H1 & H2). exists body. rewrite R. auto.
  - exact (b_set _ _ B).
  - intros k p H. apply I in H as [H| ->]; [exact (b_rules _ _ B _ _ H)|constructor].
  - intros k p H. apply I in H as [H| ->]; [exact (b_fresh _ _ B _ _ H)|]. split; [reflexivity|intros r []].
  - intros k p H. apply I in H as [H| ->]; [exact (b_removable _ _ B _ _ H)|reflexivity].
Qed.
Lemma new_empty_exit g n : In n (names g) -> new_empty g n = Exit.
Proof. intros I. unfold new_empty. now rewrite (proj2 (has_prod_iff g n) I). Qed.

(** What the entries make of a grammar. *)
Definition made (g : grammar) (es : list entry) (g' : grammar) : Prop :=
  growing g' /\ (forall k, In k (names g') <-> In k (names g) \/ In k (map fst es)) /\
  (forall m body, rule_of g' m body <-> rule_of g m body \/ exists seq, In (m, Some seq) es /\ body = combine_terminals seq).
Lemma entry_made g e : growing g -> (exists g', put_entry g e = Ok g' /\ made g [e] g') \/ (put_entry g e = Exit /\ snd e = None /\ In (fst e) (names g)).
Proof.
  intros B. destruct e as [n [seq|]]; unfold put_entry; cbn [fst snd].
  - left. destruct (extract_named_ok always g n seq B) as (g' & E & B' & Nm & R). exists g'. split; [exact E|]. split; [exact B'|]. split.
    + intros k. rewrite Nm. cbn. split; (intros [H|H]; [now left|right]); [now left|destruct H as [<-|[]]; reflexivity].
    + intros m body. rewrite R. split; (intros [H|H]; [now left|right]).
      * destruct H as [-> ->]. exists seq. split; [now left|reflexivity].
      * destruct H as (s & [E'|[]] & ->). inversion E'; subst. auto.
  - destruct (in_dec N.eq_dec n (names g)) as [I|I]; [right; rewrite new_empty_exit by exact I; auto|]. left.
    destruct (new_empty_ok g n B I) as (g' & E & B' & Nm & R). exists g'. split; [exact E|]. split; [exact B'|]. split.
    + intros k. rewrite Nm, in_app_iff. reflexivity.
    + intros m body. rewrite R. split; [now left|]. intros [H|(s & [E'|[]] & _)]; [exact H|discriminate E'].
Qed.
Lemma entries_made es : forall g, growing g -> (exists g', entries_loop g es = Ok g' /\ made g es g') \/
  (entries_loop g es = Exit /\ exists a n b, es = a ++ (n, None) :: b /\ (In n (names g) \/ In n (map fst a))).
Proof.
  induction es as [|e es IH]; intros g B; cbn [entries_loop].
  - left. exists g. split; [reflexivity|]. split; [exact B|]. split; [intros k; cbn; tauto|]. intros m body. split; [now left|]. intros [H|(s & [] & _)]. exact H.
  - destruct (entry_made g e B) as [(g1 & -> & B1 & N1 & R1)|(-> & E & I)]; cbn [bind].
    + destruct (IH g1 B1) as [(g' & E & B' & N' & R')|(E & a & n & b & -> & H)].
      * left. exists g'. split; [exact E|]. split; [exact B'|]. split.
        -- intros k. rewrite N', N1. cbn. tauto.
        -- intros m body. rewrite R', R1. split.
           ++ intros [[H|(s & [->|[]] & ->)]|(s & I & ->)]; [now left|right; exists s; split; [now left|reflexivity]|right; exists s; split; [now right|reflexivity]].
           ++ intros [H|(s & [->|I] & ->)]; [now left; left|left; right; exists s; split; [now left|reflexivity]|right; eauto].
      * right. split; [exact E|]. exists (e :: a), n, b. split; [reflexivity|]. cbn. destruct H as [H|H]; [apply N1 in H as [H|H]; [auto|]|auto]. cbn in H. destruct H as [<-|[]]. auto.
    + right. split; [reflexivity|]. destruct e as [n x]. cbn in *. subst x. exists [], n, es. auto.
Qed.
Lemma entries_twice es : forall g a n b, growing g -> es = a ++ (n, None) :: b -> In n (names g) \/ In n (map fst a) -> entries_loop g es = Exit.
Proof.
  intros g a n b B -> H. rewrite entries_app. destruct (entries_made a g B) as [(g1 & -> & B1 & N1 & _)|(-> & _)]; [|reflexivity]. cbn [bind entries_loop].
  unfold put_entry. cbn [fst snd]. rewrite new_empty_exit; [reflexivity|]. apply N1. exact H.
Qed.

(** ** verify *)
Inductive reach (g : grammar) : N -> Prop :=
| reach_start : reach g START
| reach_rule n body m : reach g n -> rule_of g n body -> In (NonTerminal m) body -> reach g m.
Lemma rules_eqb_refl l : rules_eqb l l = true.
Proof. unfold rules_eqb. apply andb_true_iff. split; apply forallb_forall; intros r I; apply rule_in_iff, in_map, I. Qed.
Lemma is_node_in g v n : In n v -> is_node g v n = true.
Proof. intros I. apply existsb_exists. exists n. split; [exact I|apply rules_eqb_refl]. Qed.
Lemma is_node_mono g v w n : is_node g v n = true -> is_node g (v ++ w) n = true.
Proof. unfold is_node. rewrite existsb_app. intros ->. reflexivity. Qed.
Lemma search_ok g : forall fuel v, (length (filter (fun n => negb (is_node g v n)) (names g)) < fuel)%nat -> In START v ->
  exists w, search fuel g v = Ok w /\ In START w /\ forall n, In n (names g) -> reached g w n = true -> is_node g w n = true.
Proof.
  induction fuel as [|fuel IH]; intros v L S; [lia|]. cbn [search]. change (map fst (productions g)) with (names g). set (new := filter (fun n => negb (is_node g v n) && reached g v n) (names g)).
  destruct new as [|x new'] eqn:E.
  - exists v. split; [reflexivity|]. split; [exact S|]. intros n I Rn. destruct (is_node g v n) eqn:En; [reflexivity|]. exfalso.
    assert (X : In n new) by (apply filter_In; split; [exact I|]; now rewrite En, Rn). rewrite E in X. destruct X.
  - rewrite <- E. apply IH; [|apply in_app_iff; now left]. assert (X : In x new) by (rewrite E; now left). apply filter_In in X as [Xn Xb]. apply andb_true_iff in Xb as [Xb _].
    assert (G : forall l, (length (filter (fun n => negb (is_node g (v ++ new) n)) l) <= length (filter (fun n => negb (is_node g v n)) l))%nat).
    { induction l as [|y l IHl]; [cbn; lia|]. cbn [filter]. destruct (is_node g v y) eqn:Ey.
      - rewrite (is_node_mono g v new y Ey). exact IHl.
      - destruct (is_node g (v ++ new) y); cbn [negb length]; lia. }
    apply in_split in Xn as (l1 & l2 & El). rewrite El in L |- *. rewrite filter_app, app_length in *. cbn [filter] in *. rewrite Xb in L.
    rewrite (is_node_in g (v ++ new) x) by (apply in_app_iff; right; rewrite E; now left). cbn [negb length] in *. assert (G1 := G l1). assert (G2 := G l2). lia.
Qed.
Lemma filter_length_le (A : Type) (p : A -> bool) l : (length (filter p l) <= length l)%nat.
Proof. induction l as [|x l IH]; [cbn; lia|]. cbn. destruct (p x); cbn; lia. Qed.
Lemma verify_ok fuel g : growing g -> In START (names g) -> (forall n body m, rule_of g n body -> In (NonTerminal m) body -> In m (names g)) ->
  (forall n, In n (names g) -> reach g n) -> verify fuel g = Ok g.
Proof.
  intros B Sg Cl Rc. unfold verify.
  assert (Rf : refs_ok g = true).
  { apply forallb_forall. intros [n p] I. cbn [fst snd]. apply andb_true_iff. split.
    - apply forallb_forall. intros r Ir. apply forallb_forall. intros v Iv. apply in_non_terminals in Iv. assert (Ro : rule_of g n (sequence r)) by (exists p, r; auto).
      apply andb_true_iff. split; [apply has_prod_iff; exact (Cl _ _ _ Ro Iv)|]. apply name_in_iff. exact (b_used _ _ B _ _ _ Ro Iv).
    - apply forallb_forall. intros u Iu. apply has_prod_iff. exact (b_users _ _ B _ _ Iu). }
  rewrite Rf. destruct (search_ok g (S (length (productions g))) [START]) as (w & -> & Sw & Hw).
  - assert (X := filter_length_le N (fun n => negb (is_node g [START] n)) (names g)). unfold names in *. rewrite map_length in X. lia.
  - now left.
  - cbn [bind]. assert (A : forall n, reach g n -> In n (names g) -> is_node g w n = true).
    { intros n Rn. induction Rn as [|n body m Rn IH Ro Im]; intros I; [apply is_node_in, Sw|]. apply Hw; [exact I|]. apply existsb_exists. exists n. split; [exact (b_used _ _ B _ _ _ Ro Im)|].
      apply IH. exact (rule_of_names _ _ _ Ro). }
    assert (F : filter (fun n => negb (is_node g w n)) (map fst (productions g)) = []).
    { destruct (filter _ (map fst (productions g))) as [|x l] eqn:E; [reflexivity|]. assert (X : In x (filter (fun n => negb (is_node g w n)) (map fst (productions g)))) by (rewrite E; now left).
      apply filter_In in X as [X Y]. rewrite (A x (Rc x X) X) in Y. discriminate Y. }
    rewrite F. reflexivity.
Qed.

(** ** The entries of a run *)
Lemma order_in f g : In g (order f) -> func_touched g = true -> forall h, In h (calls_of (func_blocks g)) -> In h (order f).
Proof.
  induction f as [n bs IH] using func_induct. rewrite order_eq. intros [<-|I] T h H.
  - right. rewrite T. apply in_flat_map. exists h. split; [now apply -> in_rev|]. rewrite order_eq. now left.
  - right. destruct (func_touched (Func n bs)); [|destruct I]. cbn [func_blocks] in *. apply in_flat_map in I as (c & Ic & I). apply in_flat_map. exists c. split; [exact Ic|].
    apply in_rev in Ic. apply calls_in in Ic as (b & r & Ib & E). exact (IH b c r Ib E I T h H).
Qed.
Lemma block_entry_names bs : map fst (block_entries bs) = map block_name bs.
Proof. induction bs as [|b bs IH]; [reflexivity|]. cbn. now rewrite IH. Qed.
Lemma block_symbols_in b nx m : In (NonTerminal m) (block_symbols b nx) -> nx = Some m \/ exists g r, block_call b = Some (g, r) /\ m = func_name g.
Proof.
  unfold block_symbols. intros I. apply in_app_iff in I as [I|I]; [apply in_map_iff in I as (t & E & _); discriminate E|].
  apply in_app_iff in I as [I|I].
  - destruct (block_call b) as [[g r]|]; [|destruct I]. destruct I as [I|I]; [inversion I; right; eauto|]. destruct r; [|destruct I]. destruct nx as [n|]; [destruct I as [I|[]]; inversion I; now left|destruct I].
  - destruct nx as [n|]; [destruct I as [I|[]]; inversion I; now left|destruct I].
Qed.
Lemma entries_closed f n seq m : In (n, Some seq) (entries f) -> In (NonTerminal m) seq -> In m (map fst (entries f)).
Proof.
  intros I J. unfold entries in I. apply in_flat_map in I as (g & Ig & I).
  assert (Own : forall x, In x (map fst (own g)) -> In x (map fst (entries f))).
  { intros x X. apply in_map_iff in X as (e & <- & X). apply in_map. apply in_flat_map. eauto. }
  assert (Call : forall h, func_touched g = true -> In h (calls_of (func_blocks g)) -> In (func_name h) (map fst (entries f))).
  { intros h T H. destruct (own_head h) as (e & es & Eo). apply in_map_iff. exists (func_name h, e). split; [reflexivity|]. apply in_flat_map. exists h. split; [exact (order_in f g Ig T h H)|]. rewrite Eo. now left. }
  unfold own in I, Own. destruct (func_touched g); [|destruct I as [I|[]]; discriminate I]. destruct (func_blocks g) as [|b0 bs0] eqn:Eb; [destruct I as [I|[]]; discriminate I|].
  destruct I as [I|I].
  - inversion I; subst. destruct J as [J|[]]. inversion J; subst. apply Own. right. rewrite block_entry_names. now left.
  - assert (Bl : forall bs, In (n, Some seq) (block_entries bs) -> (exists b, In b bs /\ block_name b = m) \/ exists h, In h (calls_of bs) /\ m = func_name h).
    { clear - J. induction bs as [|b bs IH]; intros I; [destruct I|]. destruct I as [I|I].
      - inversion I; subst. apply block_symbols_in in J as [J|(g & r & E & ->)].
        + left. destruct bs as [|b' bs]; [discriminate J|]. cbn in J. inversion J; subst. exists b'. split; [right; now left|reflexivity].
        + right. exists g. split; [|reflexivity]. cbn [calls_of]. rewrite E. now left.
      - destruct (IH I) as [(b' & Ib & E)|(h & Ih & E)]; [left; exists b'; split; [now right|exact E]|right; exists h; split; [cbn [calls_of]; apply in_app_iff; now right|exact E]]. }
    destruct (Bl _ I) as [(b & Ib & <-)|(h & Ih & ->)]; [|exact (Call h eq_refl Ih)]. apply Own. right. rewrite block_entry_names. now apply in_map.
Qed.

(** All entries are reached from the name of the run. *)
Lemma blocks_reach g bs : (forall n seq, In (n, Some seq) (block_entries bs) -> rule_of g n (combine_terminals seq)) -> (forall n, first_name bs = Some n -> reach g n) ->
  (forall b, In b bs -> reach g (block_name b)) /\ (forall h, In h (calls_of bs) -> reach g (func_name h)).
Proof.
  induction bs as [|b bs IH]; intros R F; [split; intros ? []|]. assert (Rb := F _ eq_refl). assert (Ru := R _ _ (or_introl eq_refl)).
  destruct IH as [I1 I2].
  - intros n seq I. apply R. now right.
  - intros n E. eapply reach_rule; [exact Rb|exact Ru|]. apply combine_names. unfold block_symbols. rewrite !in_app_iff. right. right. rewrite E. now left.
  - split.
    + intros b' [<-|I]; [exact Rb|exact (I1 b' I)].
    + intros h I. cbn [calls_of] in I. apply in_app_iff in I as [I|I]; [|exact (I2 h I)]. destruct (block_call b) as [[h' r]|] eqn:E; [|destruct I]. destruct I as [<-|[]].
      eapply reach_rule; [exact Rb|exact Ru|]. apply combine_names. unfold block_symbols. rewrite !in_app_iff. right. left. rewrite E. now left.
Qed.
Lemma entries_reach g f : (forall n seq, In (n, Some seq) (entries f) -> rule_of g n (combine_terminals seq)) -> reach g (func_name f) -> forall n, In n (map fst (entries f)) -> reach g n.
Proof.
  induction f as [n0 bs IH] using func_induct. intros R F. unfold entries in *. rewrite order_eq in *. cbn [flat_map] in *.
  assert (Ro : forall n seq, In (n, Some seq) (own (Func n0 bs)) -> rule_of g n (combine_terminals seq)) by (intros n seq I; apply R, in_app_iff; now left).
  assert (Own : (forall n, In n (map fst (own (Func n0 bs))) -> reach g n) /\ (func_touched (Func n0 bs) = true -> forall h, In h (calls_of bs) -> reach g (func_name h))).
  { unfold own in *. cbn [func_blocks func_name] in *. destruct (func_touched (Func n0 bs)).
    - destruct bs as [|b bs']; [split; [intros n [<-|[]]; exact F|intros _ h []]|].
      destruct (blocks_reach g (b :: bs')) as [B1 B2].
      + intros n seq I. apply Ro. now right.
      + intros n E. cbn in E. inversion E; subst. eapply reach_rule; [exact F|apply Ro; left; reflexivity|]. now left.
      + split; [|intros _; exact B2]. intros n [<-|I]; [exact F|]. rewrite block_entry_names in I. apply in_map_iff in I as (b' & <- & I). exact (B1 b' I).
    - split; [intros n [<-|[]]; exact F|discriminate]. }
  destruct Own as [O1 O2]. intros n I. rewrite map_app, in_app_iff in I. destruct I as [I|I]; [exact (O1 n I)|]. destruct (func_touched (Func n0 bs)); [|destruct I]. cbn [func_blocks] in *.
  apply in_map_iff in I as (e & <- & I). apply in_flat_map in I as (h & Ih & I). apply in_flat_map in Ih as (c & Ic & Ih). assert (Ic' := Ic). apply in_rev in Ic. assert (Rc := O2 eq_refl c Ic).
  apply calls_in in Ic as (b & r & Ib & E). apply (IH b c r Ib E); [|exact Rc|apply in_map, in_flat_map; eauto].
  intros m seq J. apply R. apply in_app_iff. right. apply in_flat_map in J as (h' & J1 & J2). apply in_flat_map. exists h'. split; [|exact J2]. apply in_flat_map. eauto.
Qed.

(** ** The grammar of a run *)
Definition start_entry (f : func) : entry := (START, Some [NonTerminal (func_name f)]).
Lemma trace_eq fuel f : (func_size f <= fuel)%nat -> trace_to_grammar fuel (Some f) = do g <- entries_loop grammar_new (start_entry f :: entries f); verify fuel g.
Proof.
  intros L. unfold trace_to_grammar. cbn [entries_loop]. unfold put_entry, start_entry. cbn [fst snd]. change (put_rule grammar_new START [NonTerminal (func_name f)]) with (new_production grammar_new START (rule_new [NonTerminal (func_name f)]) true).
  destruct (new_production grammar_new START _ true) as [g| | |]; cbn [bind]; [|reflexivity..]. rewrite funcs_eq by (cbn; rewrite app_nil_r; assert (X := order_size f); lia).
  cbn [flat_map]. rewrite app_nil_r. reflexivity.
Qed.
Lemma made_verified fuel f g : made grammar_new (start_entry f :: entries f) g -> verify fuel g = Ok g.
Proof.
  intros (B & Nm & R). apply verify_ok; [exact B| | |].
- apply Nm. right. now left.
  - intros n body m Ro I. apply R in Ro as [(p & r & [] & _)|(seq & J & ->)]. apply Nm. right. apply (proj1 (combine_names _ _)) in I. destruct J as [J|J].
    + inversion J; subst. destruct I as [I|[]]. inversion I; subst. right. unfold entries. rewrite order_eq. cbn [flat_map]. rewrite map_app. apply in_app_iff. left. destruct (own_head f) as (e & es & ->). now left.
    + right. exact (entries_closed f n seq m J I).
  - assert (Rr : forall n seq, In (n, Some seq) (entries f) -> rule_of g n (combine_terminals seq)) by (intros n seq I; apply R; right; exists seq; split; [now right|reflexivity]).
  assert (Rs : rule_of g START [NonTerminal (func_name f)]) by (apply R; right; exists [NonTerminal (func_name f)]; split; [now left|reflexivity]).
  assert (Rf : reach g (func_name f)) by (eapply reach_rule; [constructor|exact Rs|now left]).
  intros n I. apply Nm in I as [[]|[<-|I]]; [constructor|]. exact (entries_reach g f Rr Rf n I).
Qed.
Lemma trace_made fuel f : (func_size f <= fuel)%nat ->
  (exists g, trace_to_grammar fuel (Some f) = Ok g /\ made grammar_new (start_entry f :: entries f) g) \/
  (trace_to_grammar fuel (Some f) = Exit /\ exists a n b, start_entry f :: entries f = a ++ (n, None) :: b /\ In n (map fst a)).
Proof.
  intros L. rewrite (trace_eq fuel f L). destruct (entries_made (start_entry f :: entries f) grammar_new (building_new always)) as [(g & -> & M)|(-> & a & n & b & E & H)].
  - left. exists g. split; [|exact M]. exact (made_verified fuel f g M).
  - right. split; [reflexivity|]. exists a, n, b. split; [exact E|]. destruct H as [[]|H]. exact H.
Qed.

(** ** What the grammar derives *)
(** The word of a run with what follows a call repeated; none if a called function consumed
    nothing. *)
Fixpoint lang (f : func) : option (list N) :=
  let 'Func n bs := f in
  if func_touched (Func n bs) then
    (fix go (bs : list block) : option (list N) :=
       match bs with
       | [] => Some []
       | (_, tokens, c) :: r =>
           match (match c with Some (g, _) => lang g | None => Some [] end), go r with
           | Some v, Some w => Some (concat tokens ++ v ++ (match c with Some (_, true) => w | _ => [] end) ++ w)
           | _, _ => None
           end
       end) bs
  else None.
Fixpoint langs (bs : list block) : option (list N) :=
  match bs with
  | [] => Some []
  | b :: r =>
      match (match block_call b with Some (g, _) => lang g | None => Some [] end), langs r with
      | Some v, Some w => Some (concat (block_tokens b) ++ v ++ (match block_call b with Some (_, true) => w | _ => [] end) ++ w)
      | _, _ => None
      end
  end.
Lemma lang_eq n bs : lang (Func n bs) = if func_touched (Func n bs) then langs bs else None.
Proof. cbn [lang]. destruct (func_touched (Func n bs)); [|reflexivity]. induction bs as [|[[bn t] c] bs IH]; [reflexivity|]. cbn [langs block_call block_tokens fst snd]. rewrite <- IH. reflexivity. Qed.

Lemma derives_terminals R ts : derives R (map Terminal ts) (concat ts).
Proof. induction ts as [|t ts IH]; [constructor|]. cbn [map concat]. now constructor. Qed.
Lemma derives_terminals_inv R ts w : derives R (map Terminal ts) w -> w = concat ts.
Proof.
  revert w. induction ts as [|t ts IH]; intros w D; [now inversion D|]. cbn [map] in D. apply derives_terminal_inv in D as (v & -> & D). cbn [concat]. now rewrite (IH v D).
Qed.
Definition next_symbols (bs : list block) : list symbol := match first_name bs with Some n => [NonTerminal n] | None => [] end.

Section Language.
  Variable R : N -> list symbol -> Prop.

  Lemma derives_blocks bs : (forall n seq, In (n, Some seq) (block_entries bs) -> R n (combine_terminals seq)) ->
    (forall b g r w, In b bs -> block_call b = Some (g, r) -> lang g = Some w -> derives R [NonTerminal (func_name g)] w) ->
    forall w, langs bs = Some w -> derives R (next_symbols bs) w.
  Proof.
    induction bs as [|b bs IH]; intros H C w E; [inversion E; constructor|]. cbn [langs] in E. specialize (IH (fun n seq I => H n seq (or_intror I)) (fun b' g r w I => C b' g r w (or_intror I))).
    destruct (langs bs) as [w2|] eqn:E2; [|destruct (match block_call b with Some (g, _) => lang g | None => _ end); discriminate E]. specialize (IH w2 eq_refl).
    unfold next_symbols at 1. cbn [first_name]. apply derives_name. exists (combine_terminals (block_symbols b (first_name bs))). split; [apply H; now left|]. apply combine_derives.
    unfold block_symbols. destruct (block_call b) as [[g r]|] eqn:Eb.
    - destruct (lang g) as [v|] eqn:Eg; [|discriminate E]. inversion E; subst w. clear E. apply derives_app; [apply derives_terminals|].
      change (NonTerminal (func_name g) :: (if r then match first_name bs with Some n => [NonTerminal n] | None => [] end else [])) with ([NonTerminal (func_name g)] ++ (if r then next_symbols bs else [])).
      rewrite <- app_assoc. apply derives_app; [exact (C b g r v (or_introl eq_refl) Eb Eg)|]. apply derives_app; [destruct r; [exact IH|constructor]|exact IH].
    - inversion E; subst w. cbn [app]. apply derives_app; [apply derives_terminals|exact IH].
  Qed.
  Lemma derives_lang f : (forall n seq, In (n, Some seq) (entries f) -> R n (combine_terminals seq)) -> forall w, lang f = Some w -> derives R [NonTerminal (func_name f)] w.
  Proof.
    induction f as [n bs IH] using func_induct. intros H w E. rewrite lang_eq in E. destruct (func_touched (Func n bs)) eqn:T; [|discriminate E].
    unfold entries in H. rewrite order_eq, T in H. cbn [flat_map func_blocks] in H.
    assert (Ho : forall m seq, In (m, Some seq) (own (Func n bs)) -> R m (combine_terminals seq)) by (intros m seq I; apply H, in_app_iff; now left).
    assert (Hc : forall b g r w, In b bs -> block_call b = Some (g, r) -> lang g = Some w -> derives R [NonTerminal (func_name g)] w).
    { intros b g r v Ib Eb. apply (IH b g r Ib Eb). intros m seq I. apply H. apply in_app_iff. right. unfold entries in I. apply in_flat_map in I as (h & Ih & I). apply in_flat_map. exists h. split; [|exact I].
      apply in_flat_map. exists g. split; [|exact Ih]. apply -> in_rev. apply calls_in. eauto. }
    unfold own in Ho. rewrite T in Ho. cbn [func_blocks func_name] in *. destruct bs as [|b bs]; [discriminate T|].
    apply derives_name. exists [NonTerminal (block_name b)]. split; [apply (Ho _ [NonTerminal (block_name b)]); now left|].
    apply (derives_blocks (b :: bs)); [|exact Hc|exact E]. intros m seq I. apply Ho. now right.
  Qed.

  Lemma blocks_exact bs : (forall n seq body, In (n, Some seq) (block_entries bs) -> R n body -> body = combine_terminals seq) ->
    (forall b g r w, In b bs -> block_call b = Some (g, r) -> derives R [NonTerminal (func_name g)] w -> lang g = Some w) ->
    forall w, derives R (next_symbols bs) w -> langs bs = Some w.
  Proof.
    induction bs as [|b bs IH]; intros H C w D; [inversion D; reflexivity|]. specialize (IH (fun n seq body I => H n seq body (or_intror I)) (fun b' g r w I => C b' g r w (or_intror I))).
    unfold next_symbols in D. cbn [first_name] in D. apply derives_name in D as (body & Rb & D). rewrite (H _ _ _ (or_introl eq_refl) Rb) in D. apply (proj1 (combine_derives _ _ _)) in D.
    unfold block_symbols in D. apply derives_app_inv in D as (w1 & w2 & -> & D1 & D2). apply derives_terminals_inv in D1. subst w1. cbn [langs].
    apply derives_app_inv in D2 as (w1 & w3 & -> & D1 & D2). assert (E3 := IH w3 D2). destruct (block_call b) as [[g r]|] eqn:Eb.
    - change (NonTerminal (func_name g) :: (if r then match first_name bs with Some n => [NonTerminal n] | None => [] end else [])) with ([NonTerminal (func_name g)] ++ (if r then next_symbols bs else [])) in D1.
      apply derives_app_inv in D1 as (v & u & -> & D3 & D4). rewrite (C b g r v (or_introl eq_refl) Eb D3), E3. rewrite <- !app_assoc. do 3 f_equal.
      destruct r; [|inversion D4; reflexivity]. assert (E4 := IH u D4). rewrite E3 in E4. inversion E4. reflexivity.
    - inversion D1; subst. rewrite E3. reflexivity.
  Qed.
  Lemma lang_exact f : (forall n e body, In (n, e) (entries f) -> R n body -> exists seq, e = Some seq /\ body = combine_terminals seq) ->
    forall w, derives R [NonTerminal (func_name f)] w -> lang f = Some w.
  Proof.
    induction f as [n bs IH] using func_induct. intros H w D. rewrite lang_eq. apply derives_name in D as (body & Rb & D). unfold entries in H. rewrite order_eq in H. cbn [flat_map func_blocks func_name] in *.
    assert (Ho : forall m e body, In (m, e) (own (Func n bs)) -> R m body -> exists seq, e = Some seq /\ body = combine_terminals seq) by (intros m e body' I; apply H, in_app_iff; now left).
    unfold own in Ho. cbn [func_blocks func_name] in Ho. destruct (func_touched (Func n bs)) eqn:T.
    - destruct bs as [|b bs]; [discriminate T|]. destruct (Ho _ _ _ (or_introl eq_refl) Rb) as (seq & Es & Eb). inversion Es; subst seq. subst body. cbn in D.
      apply (blocks_exact (b :: bs)).
      + intros m seq body I Rm. destruct (Ho m (Some seq) body (or_intror I) Rm) as (s' & E & ->). now inversion E.
      + intros b' g r v Ib Ebl Dv. apply (IH b' g r Ib Ebl); [|exact Dv]. intros m e body I. apply H. apply in_app_iff. right. unfold entries in I. apply in_flat_map in I as (h & Ih & I). apply in_flat_map. exists h. split; [|exact I].
        apply in_flat_map. exists g. split; [|exact Ih]. apply -> in_rev. apply calls_in. eauto.
      + exact D.
    - destruct (Ho _ _ _ (or_introl eq_refl) Rb) as (seq & Es & _). discriminate Es.
  Qed.
End Language.

(** ** Distinct names *)
Lemma own_names f : incl (map fst (own f)) (func_name f :: map block_name (func_blocks f)).
Proof.
  unfold own. destruct (func_touched f); [destruct (func_blocks f) as [|b bs]|]; cbn [map fst]; intros n I.
  - destruct I as [<-|[]]. now left.
  - destruct I as [<-|I]; [now left|]. right. now rewrite block_entry_names in I.
  - destruct I as [<-|[]]. now left.
Qed.
Lemma block_names_in bs b : In b bs -> In (block_name b) (block_names bs) /\ forall g r, block_call b = Some (g, r) -> incl (all_names g) (block_names bs).
Proof.
  induction bs as [|b' bs IH]; intros I; [destruct I|]. cbn [block_names]. destruct I as [->|I].
  - split; [now left|]. intros g r E x X. right. apply in_app_iff. left. now rewrite E.
  - destruct (IH I) as [A B]. split; [right; apply in_app_iff; now right|]. intros g r E x X. right. apply in_app_iff. right. exact (B g r E x X).
Qed.
Lemma entries_names f : incl (map fst (entries f)) (all_names f).
Proof.
  induction f as [n bs IH] using func_induct. unfold entries. rewrite order_eq, all_names_eq. cbn [flat_map func_blocks]. rewrite map_app. intros x I. apply in_app_iff in I as [I|I].
  - apply own_names in I as [<-|I]; [now left|]. cbn [func_blocks] in I. apply in_map_iff in I as (b & <- & I). right. exact (proj1 (block_names_in bs b I)).
  - destruct (func_touched (Func n bs)); [|destruct I]. apply in_map_iff in I as (e & <- & I). apply in_flat_map in I as (h & Ih & I). apply in_flat_map in Ih as (c & Ic & Ih). apply in_rev in Ic.
    apply calls_in in Ic as (b & r & Ib & E). right. apply (proj2 (block_names_in bs b Ib) c r E). apply (IH b c r Ib E). apply in_map, in_flat_map. eauto.
Qed.
Lemma nodup_app (A : Type) (a b : list A) : NoDup (a ++ b) <-> NoDup a /\ NoDup b /\ forall x, In x a -> ~ In x b.
Proof.
  induction a as [|x a IH]; cbn [app].
  - split; [intros H; split; [constructor|split; [exact H|intros x []]]|intros (_ & H & _); exact H].
  - split.
    + intros H. inversion H as [|y l N D]; subst. apply IH in D as (A1 & A2 & A3). split; [constructor; [intros I; apply N, in_app_iff; now left|exact A1]|]. split; [exact A2|].
      intros y [<-|I]; [intros J; apply N, in_app_iff; now right|exact (A3 y I)].
    + intros (H1 & H2 & H3). inversion H1 as [|y l N D]; subst. constructor; [|apply IH; split; [exact D|split; [exact H2|intros y I; apply H3; now right]]].
      intros I. apply in_app_iff in I as [I|I]; [exact (N I)|exact (H3 x (or_introl eq_refl) I)].
Qed.
Lemma block_names_own bs x : In x (map block_name bs) -> In x (block_names bs).
Proof. intros I. apply in_map_iff in I as (b & <- & I). exact (proj1 (block_names_in bs b I)). Qed.
Lemma entries_nodup f : NoDup (all_names f) -> NoDup (map fst (entries f)).
Proof.
  induction f as [n bs IH] using func_induct. rewrite all_names_eq. intros H. inversion H as [|x l N D]; subst.
  unfold entries. rewrite order_eq. cbn [flat_map func_blocks]. rewrite map_app.
  assert (Bl : NoDup (map block_name bs) /\ NoDup (map fst (flat_map own (flat_map order (rev (calls_of bs))))) /\
    (forall x, In x (map block_name bs) -> ~ In x (map fst (flat_map own (flat_map order (rev (calls_of bs)))))) /\ incl (map fst (flat_map own (flat_map order (rev (calls_of bs))))) (block_names bs)).
  { clear N H. induction bs as [|b bs IHb]; [split; [constructor|split; [constructor|split; [intros x []|intros x []]]]|].
    cbn [block_names] in D. inversion D as [|x l N' D']; subst. apply nodup_app in D' as (D1 & D2 & D3).
    destruct (IHb (fun b' g r I => IH b' g r (or_intror I)) D2) as (B1 & B2 & B3 & B4). cbn [map calls_of]. rewrite rev_app_distr, !flat_map_app, map_app.
    set (rest := map fst (flat_map own (flat_map order (rev (calls_of bs))))) in *.
    set (mine := map fst (flat_map own (flat_map order (rev match block_call b with Some (g, _) => [g] | None => [] end)))).
    assert (M : NoDup mine /\ incl mine match block_call b with Some (g, _) => all_names g | None => [] end).
    { unfold mine. destruct (block_call b) as [[g r]|] eqn:E; [|split; [constructor|intros x []]]. cbn [rev app flat_map]. rewrite app_nil_r. split; [exact (IH b g r (or_introl eq_refl) E D1)|exact (entries_names g)]. }
    destruct M as [M1 M2]. split; [|split; [|split]].
    - constructor; [|exact B1]. intros I. apply N', in_app_iff. right. exact (block_names_own _ _ I).
    - apply nodup_app. split; [exact B2|]. split; [exact M1|]. intros x I J. apply (D3 x); [exact (M2 x J)|exact (B4 x I)].
    - intros x [<-|I] J; apply in_app_iff in J as [J|J].
      + apply N', in_app_iff. right. exact (B4 _ J).
      + apply N', in_app_iff. left. exact (M2 _ J).
      + exact (B3 x I J).
      + apply (D3 x); [exact (M2 x J)|exact (block_names_own _ _ I)].
    - intros x I. right. apply in_app_iff in I as [I|I]; apply in_app_iff; [right; exact (B4 x I)|left; exact (M2 x I)]. }
  destruct Bl as (B1 & B2 & B3 & B4). apply nodup_app. split; [|split].
  - unfold own. cbn [func_blocks func_name]. assert (One : NoDup (map fst [(n, @None (list symbol))])) by (constructor; [intros []|constructor]).
    destruct (func_touched (Func n bs)); [destruct bs as [|b bs']; [exact One|]|exact One]. change (NoDup (n :: map fst (block_entries (b :: bs')))). rewrite block_entry_names. constructor; [|exact B1].
    intros I. exact (N (block_names_own _ _ I)).
  - destruct (func_touched (Func n bs)); [exact B2|constructor].
  - intros x I J. destruct (func_touched (Func n bs)); [|destruct J]. apply own_names in I as [<-|I]; [exact (N (B4 _ J))|exact (B3 x I J)].
Qed.
Lemma nodup_fst (A B : Type) (l : list (A * B)) n e e' : NoDup (map fst l) -> In (n, e) l -> In (n, e') l -> e = e'.
Proof.
  induction l as [|[m x] l IH]; intros D I J; [destruct I|]. cbn in D. inversion D as [|y k N D']; subst. destruct I as [I|I], J as [J|J].
  - congruence.
  - inversion I; subst. exfalso. apply N. apply in_map_iff. exists (n, e'). auto.
  - inversion J; subst. exfalso. apply N. apply in_map_iff. exists (n, e). auto.
  - exact (IH D' I J).
Qed.

(** ** Words *)
Lemma untouched_eats n bs : func_touched (Func n bs) = false -> consumed (Func n bs) = [].
Proof.
  revert n bs. enough (G : forall f, func_touched f = false -> consumed f = []) by (intros n bs; apply G).
  induction f as [n bs IH] using func_induct. intros T. rewrite consumed_eq. cbn [func_touched] in T. induction bs as [|[[bn t] c] bs IHb]; [reflexivity|]. cbn [existsb] in T. apply orb_false_iff in T as [T1 T2].
  cbn [eaten block_tokens block_call fst snd]. rewrite (IHb (fun b g r I => IH b g r (or_intror I)) T2), app_nil_r. destruct t; [|discriminate T1]. cbn [concat app]. destruct c as [[g r]|]; [|reflexivity].
  exact (IH _ g r (or_introl eq_refl) eq_refl T1).
Qed.
Lemma touched_eats f : (forall h b t, called_in h f -> In b (func_blocks h) -> In t (block_tokens b) -> t <> []) -> func_touched f = true -> consumed f <> [].
Proof.
  induction f as [n bs IH] using func_induct. intros Tk T. rewrite consumed_eq. cbn [func_touched] in T. apply existsb_exists in T as ([[bn t] c] & I & T).
  assert (Hb : concat t ++ match c with Some (g, _) => consumed g | None => [] end <> []).
  { destruct t as [|t ts].
    - destruct c as [[g r]|]; [|discriminate T]. cbn [concat app]. apply (IH _ g r I eq_refl); [|exact T]. intros h b t' C. apply Tk. eapply ci_below; [exact I|reflexivity|exact C].
    - assert (X := Tk (Func n bs) _ t (ci_self _) I (or_introl eq_refl)). destruct t; [contradiction|]. discriminate. }
  clear T IH Tk. induction bs as [|b bs IHb]; [destruct I|]. cbn [eaten]. destruct I as [->|I].
  - cbn [block_tokens block_call fst snd]. rewrite app_assoc. intros Q. apply app_eq_nil in Q as [Q _]. exact (Hb Q).
  - intros Q. apply app_eq_nil in Q as [_ Q]. apply app_eq_nil in Q as [_ Q]. exact (IHb I Q).
Qed.

Lemma lang_some f : (forall h, called_in h f -> consumed h <> []) -> exists w, lang f = Some w.
Proof.
  induction f as [n bs IH] using func_induct. intros H. rewrite lang_eq. destruct (func_touched (Func n bs)) eqn:T; [|exfalso; exact (H _ (ci_self _) (untouched_eats n bs T))].
  assert (C : forall b g r, In b bs -> block_call b = Some (g, r) -> exists w, lang g = Some w) by (intros b g r I E; apply (IH b g r I E); intros h C; apply H; eapply ci_below; eauto).
  clear T IH H. induction bs as [|b bs IHb]; [exists []; reflexivity|]. cbn [langs]. destruct IHb as (w & ->); [intros b' g r I; apply C; now right|]. destruct (block_call b) as [[g r]|] eqn:E; [|eauto].
  destruct (C b g r (or_introl eq_refl) E) as (v & ->). eauto.
Qed.
Lemma lang_none f h : (forall h b t, called_in h f -> In b (func_blocks h) -> In t (block_tokens b) -> t <> []) -> called_in h f -> consumed h = [] -> lang f = None.
Proof.
  intros Tk C. revert Tk. induction C as [f|h n bs b g r I E C IH]; intros Tk Q.
  - destruct f as [n bs]. rewrite lang_eq. destruct (func_touched (Func n bs)) eqn:T; [|reflexivity]. exfalso. exact (touched_eats _ Tk T Q).
  - rewrite lang_eq. destruct (func_touched (Func n bs)); [|reflexivity]. assert (L : lang g = None) by (apply IH; [|exact Q]; intros h' b' t' C'; apply Tk; eapply ci_below; eauto).
    clear - I E L. induction bs as [|b' bs IHb]; [destruct I|]. cbn [langs]. destruct I as [->|I]; [rewrite E, L; reflexivity|]. rewrite (IHb I). destruct (match block_call b' with Some (g0, _) => _ | None => _ end); reflexivity.
Qed.
(** The word is at least as long as what was consumed, and longer if something is repeated. *)
Lemma langs_long bs : (forall b g r w, In b bs -> block_call b = Some (g, r) -> lang g = Some w -> (length (consumed g) <= length w)%nat) -> forall w, langs bs = Some w -> (length (eaten bs) <= length w)%nat.
Proof.
  induction bs as [|b bs IH]; intros H w E; [inversion E; cbn; lia|]. cbn [langs] in E. cbn [eaten]. destruct (langs bs) as [w2|]; [|destruct (match block_call b with Some (g, _) => _ | None => _ end); discriminate E].
  specialize (IH (fun b' g r w I => H b' g r w (or_intror I)) w2 eq_refl). destruct (block_call b) as [[g r]|] eqn:Eb.
  - destruct (lang g) as [v|] eqn:Eg; [|discriminate E]. inversion E; subst w. assert (X := H b g r v (or_introl eq_refl) Eb Eg). rewrite !app_length. lia.
  - inversion E; subst w. rewrite !app_length. cbn. lia.
Qed.
Lemma lang_long f : forall w, lang f = Some w -> (length (consumed f) <= length w)%nat.
Proof.
  induction f as [n bs IH] using func_induct. intros w E. rewrite lang_eq in E. destruct (func_touched (Func n bs)); [|discriminate E]. rewrite consumed_eq. apply langs_long; [|exact E]. intros b g r v I Eb. exact (IH b g r I Eb v).
Qed.
Lemma langs_longer a b g r : block_call b = Some (g, true) -> eaten r <> [] -> forall w, langs (a ++ b :: r) = Some w -> (length (eaten (a ++ b :: r)) < length w)%nat.
Proof.
  intros Eb Er. induction a as [|x a IH]; intros w E; cbn [app langs eaten] in *.
  - rewrite Eb in *. destruct (lang g) as [v|] eqn:Eg; [|discriminate E]. destruct (langs r) as [w2|] eqn:E2; [|discriminate E]. inversion E; subst w. assert (X := lang_long g v Eg).
    assert (Y := langs_long r (fun b' g' r' w' _ _ => lang_long g' w') w2 E2). rewrite !app_length. destruct (eaten r); [contradiction|]. cbn [length] in *. lia.
  - destruct (langs (a ++ b :: r)) as [w2|]; [|destruct (match block_call x with Some (g, _) => _ | None => _ end); discriminate E]. specialize (IH w2 eq_refl). destruct (block_call x) as [[h q]|].
    + destruct (lang h) as [v|] eqn:Eh; [|discriminate E]. inversion E; subst w. assert (X := lang_long h v Eh). rewrite !app_length. lia.
    + inversion E; subst w. rewrite !app_length. cbn. lia.
Qed.
Lemma lang_longer f h : called_in h f -> consumes_after_call h -> forall w, lang f = Some w -> (length (consumed f) < length w)%nat.
Proof.
  intros C A. induction C as [f|h n bs b g r I E C IH]; intros w L.
  - destruct f as [n bs]. destruct A as (a & b & g & r & Eb & Ec & N). cbn in Eb. subst bs. rewrite lang_eq in L. destruct (func_touched _); [|discriminate L]. rewrite consumed_eq in *. exact (langs_longer a b g r Ec N w L).
  - rewrite lang_eq in L. destruct (func_touched (Func n bs)); [|discriminate L]. rewrite consumed_eq. specialize (IH A). clear C A. revert w L. induction bs as [|x bs IHb]; intros w L; [destruct I|]. cbn [langs eaten] in *.
    destruct (langs bs) as [w2|] eqn:E2; [|destruct (match block_call x with Some (g, _) => _ | None => _ end); discriminate L].
    assert (Y := langs_long bs (fun b' g' r' w' _ _ => lang_long g' w') w2 E2). destruct I as [->|I].
    + rewrite E in *. destruct (lang g) as [v|] eqn:Eg; [|discriminate L]. inversion L; subst w. specialize (IH v eq_refl). rewrite !app_length. lia.
    + specialize (IHb I w2 eq_refl). destruct (block_call x) as [[k q]|].
      * destruct (lang k) as [v|] eqn:Ek; [|discriminate L]. inversion L; subst w. assert (X := lang_long k v Ek). rewrite !app_length. lia.
      * inversion L; subst w. rewrite !app_length. cbn. lia.
Qed.
(** Without repetitions it is what was consumed. *)
Lemma lang_same f : (forall h, called_in h f -> ~ consumes_after_call h) -> forall w, lang f = Some w -> w = consumed f.
Proof.
  induction f as [n bs IH] using func_induct. intros H w L. rewrite lang_eq in L. destruct (func_touched (Func n bs)); [|discriminate L]. rewrite consumed_eq.
  assert (C : forall b g r v, In b bs -> block_call b = Some (g, r) -> lang g = Some v -> v = consumed g) by (intros b g r v I E; apply (IH b g r I E); intros h Ch; apply H; eapply ci_below; eauto).
  assert (Q : forall a b g r, bs = a ++ b :: r -> block_call b = Some (g, true) -> eaten r = []).
  { intros a b g r E Eb. destruct (eaten r) as [|x l] eqn:Er; [reflexivity|]. exfalso. apply (H _ (ci_self _)). exists a, b, g, r. split; [exact E|]. split; [exact Eb|]. rewrite consumed_eq, Er. discriminate. }
  clear H IH. revert w L. induction bs as [|b bs IHb]; intros w L; [now inversion L|]. cbn [langs eaten] in *.
  destruct (langs bs) as [w2|] eqn:E2; [|destruct (match block_call b with Some (g, _) => _ | None => _ end); discriminate L].
  assert (W2 : w2 = eaten bs). { apply IHb; [intros b' g r v I; apply C; now right| |reflexivity]. intros a b' g r E. apply (Q (b :: a)). now rewrite E. }
  destruct (block_call b) as [[g r]|] eqn:Eb.
  - destruct (lang g) as [v|] eqn:Eg; [|discriminate L]. inversion L; subst w w2. rewrite (C b g r v (or_introl eq_refl) Eb Eg). destruct r; [|reflexivity]. rewrite (Q [] b g bs eq_refl Eb). reflexivity.
  - inversion L; subst. reflexivity.
Qed.

(** ** Functions called twice *)
Lemma order_below f h : called_in h f -> func_touched h = true -> exists a b, order f = a ++ order h ++ b /\ func_touched f = true.
Proof.
  intros C. induction C as [f|h n bs b g r I E C IH]; intros T; [exists [], []; rewrite app_nil_r; auto|]. destruct (IH T) as (a & c & Eo & Tg).
  assert (Tf : func_touched (Func n bs) = true).
  { cbn [func_touched]. apply existsb_exists. exists b. split; [exact I|]. destruct b as [[bn t] cl]. cbn in E. subst cl. rewrite Tg. now destruct t. }
  assert (Ic : In g (rev (calls_of bs))) by (apply -> in_rev; apply calls_in; eauto). apply in_split in Ic as (l1 & l2 & El).
  rewrite order_eq, Tf. cbn [func_blocks]. rewrite El, flat_map_app. cbn [flat_map]. rewrite Eo. exists (Func n bs :: flat_map order l1 ++ a), (c ++ flat_map order l2).
  split; [|reflexivity]. cbn [app]. now rewrite <- !app_assoc.
Qed.
Lemma calls_app a b : calls_of (a ++ b) = calls_of a ++ calls_of b.
Proof. induction a as [|x a IH]; [reflexivity|]. cbn [app calls_of]. now rewrite IH, app_assoc. Qed.
Lemma twice_entries f a b m c r g q h q' : func_touched f = true -> func_blocks f = a ++ b :: m ++ c :: r -> block_call b = Some (g, q) -> block_call c = Some (h, q') ->
  func_touched g = false -> exists x y z, entries f = x ++ own h ++ y ++ (func_name g, None) :: z.
Proof.
  intros T Eb E1 E2 Tg. assert (Og : own g = [(func_name g, None)]) by (unfold own; now rewrite Tg).
  assert (Fo : forall l, flat_map own (flat_map order l) = flat_map entries l) by (induction l as [|x l IH]; [reflexivity|cbn [flat_map]; now rewrite flat_map_app, IH]).
  assert (Eh : entries h = own h ++ flat_map own (tl (order h))) by (unfold entries; now rewrite (order_eq h)).
  assert (Eg : entries g = [(func_name g, None)]) by (unfold entries; rewrite (order_eq g), Tg; cbn [flat_map]; now rewrite Og).
  unfold entries. rewrite order_eq, T, Eb. cbn [flat_map]. rewrite Fo, calls_app. cbn [calls_of]. rewrite E1, calls_app. cbn [calls_of]. rewrite E2.
  rewrite !rev_app_distr. cbn [rev app]. rewrite !flat_map_app. cbn [flat_map]. rewrite Eh, Eg, !app_nil_r.
  exists (own f ++ flat_map entries (rev (calls_of r))), (flat_map own (tl (order h)) ++ flat_map entries (rev (calls_of m))), (flat_map entries (rev (calls_of a))).
  rewrite <- !app_assoc. cbn [app]. reflexivity.
Qed.

Lemma called_trans a b c : called_in a b -> called_in b c -> called_in a c.
Proof. intros H C. induction C as [f|h n bs b' g r I E C IH]; [exact H|]. eapply ci_below; [exact I|exact E|exact (IH H)]. Qed.
Lemma order_called f h : In h (order f) -> called_in h f.
Proof.
  induction f as [n bs IH] using func_induct. rewrite order_eq. intros [<-|I]; [constructor|]. destruct (func_touched (Func n bs)); [|destruct I]. cbn [func_blocks] in I.
  apply in_flat_map in I as (c & Ic & I). apply in_rev in Ic. apply calls_in in Ic as (b & r & Ib & E). eapply ci_below; [exact Ib|exact E|exact (IH b c r Ib E I)].
Qed.
Lemma all_entries f : (forall h, called_in h f -> consumed h <> []) -> forall n, ~ In (n, None) (entries f).
Proof.
  intros C n I. apply in_flat_map in I as (h & Ih & I). assert (Ch := C h (order_called f h Ih)). destruct (func_touched h) eqn:T.
  - unfold own in I. rewrite T in I. destruct (func_blocks h) as [|b bs] eqn:Eb; [destruct h; cbn in Eb; subst; discriminate T|]. destruct I as [I|I]; [discriminate I|].
    clear - I. revert I. generalize (b :: bs). intros l. induction l as [|x l IH]; [intros []|]. intros [I|I]; [discriminate I|exact (IH I)].
  - destruct h as [k bs]. exact (Ch (untouched_eats k bs T)).
Qed.
