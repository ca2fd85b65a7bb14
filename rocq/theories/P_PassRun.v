(** Executions are properly nested; what is reported about instrumented executions; JSON and
    ignore lists. *)
From Coq Require Import NArith Arith List Bool Lia.
From Verif Require Import M_Base M_Functions M_CfLog M_PySections M_Ir M_Passes S_CallStack S_Passes P_Base P_CfLog P_Ir P_Passes.
Import ListNotations.
Open Scope N_scope.

(** ** Nesting; stacks innermost first *)
Fixpoint proper (st : list N) (os : list obs) : Prop :=
  match os with
  | [] => True
  | OEnter f :: r => proper (f :: st) r
  | OLeave f :: r => match st with g :: st' => f = g /\ proper st' r | [] => False end
  | ODecide f _ _ :: r => match st with g :: _ => f = g | [] => False end /\ proper st r
  | ORt _ :: r => proper st r
  end.
Fixpoint after (st : list N) (os : list obs) : list N :=
  match os with
  | [] => st
  | OEnter f :: r => after (f :: st) r
  | OLeave f :: r => after (tl st) r
  | _ :: r => after st r
  end.
Lemma proper_app os : forall st os', proper st os -> proper (after st os) os' -> proper st (os ++ os').
Proof.
  induction os as [|o os IH]; intros st os' H H'; [exact H'|]. destruct o; cbn [app proper after] in *; auto.
  - destruct st; [tauto|]. destruct H. cbn [tl] in H'. auto.
  - destruct H. auto.
Qed.
Lemma after_app os : forall st os', after st (os ++ os') = after (after st os) os'.
Proof. induction os as [|o os IH]; intros; [reflexivity|]. destruct o; cbn [app after]; apply IH. Qed.
Lemma active_after os : forall st, active (rev st) os = rev (after st os).
Proof.
  induction os as [|o os IH]; intros st; [reflexivity|]. destruct o; cbn [active after]; auto.
  - exact (IH (f :: st)).
  - destruct st as [|g st]; cbn [rev tl]; [exact (IH [])|]. rewrite removelast_last. apply IH.
Qed.

Section Run.
  Context {W : Type}.
  Variable answer : list (rtcall val) -> rtcall val -> val.
  Notation fns s := (map fr_fn (@s_stack W s)).

  Lemma step_proper M s s' os : @step W answer M s = Some (s', os) -> proper (fns s) os /\ after (fns s) os = fns s'.
  Proof.
    unfold step. destruct (s_stack s) as [|fr rest] eqn:Es; [discriminate|]. destruct (fr_ins fr) as [|i is].
    - unfold step_term. destruct (fr_term fr) as [t|c y n|c w cases d|v|]; intros E.
      + destruct (goto M fr t) as [fr'|] eqn:G; [|discriminate]. injection E as <- <-. cbn. split; [exact I|].
        unfold goto in G. destruct (get M (fr_fn fr)); [|discriminate]. destruct (get _ t); [|discriminate]. now injection G as <-.
      + destruct (goto M fr _) as [fr'|] eqn:G; [|discriminate]. injection E as <- <-. cbn. split; [auto|].
        unfold goto in G. destruct (get M (fr_fn fr)); [|discriminate]. destruct (get _ _); [|discriminate]. now injection G as <-.
      + destruct (goto M fr _) as [fr'|] eqn:G; [|discriminate]. injection E as <- <-. cbn. split; [auto|].
        unfold goto in G. destruct (get M (fr_fn fr)); [|discriminate]. destruct (get _ _); [|discriminate]. now injection G as <-.
      + destruct rest as [|c rest']; injection E as <- <-; cbn; auto.
      + discriminate.
    - unfold step_instr. destruct i as [dst args f|dst b idxs f|dst c a b f|dst v x y|dst tg args|dst c]; intros E.
      + destruct (f _ _) as [[v w']|]; [|discriminate]. injection E as <- <-. cbn. auto.
      + injection E as <- <-. cbn. auto.
      + injection E as <- <-. cbn. auto.
      + injection E as <- <-. cbn. auto.
      + destruct (enter M _ _ dst) as [fr'|]; [|discriminate]. injection E as <- <-. cbn. auto.
      + injection E as <- <-. cbn. auto.
  Qed.
  Lemma run_proper M n : forall s s' os, @run W answer M n s = Some (s', os) -> proper (fns s) os /\ after (fns s) os = fns s'.
  Proof.
    induction n as [|n IH]; intros s s' os E; cbn [run] in E; [injection E as <- <-; cbn; auto|].
    destruct (step answer M s) as [[s1 o1]|] eqn:E1; [|discriminate]. destruct (run answer M n s1) as [[s2 o2]|] eqn:E2; [|discriminate]. injection E as <- <-.
    destruct (step_proper _ _ _ _ E1) as [P1 A1]. destruct (IH _ _ _ E2) as [P2 A2]. rewrite <- A1 in P2, A2. split; [now apply proper_app|now rewrite after_app].
  Qed.
  Lemma exec_proper M f args w n s os : @execution W answer M f args w n = Some (s, os) -> proper [] os /\ after [] os = fns s.
  Proof.
    unfold execution, start, enter. destruct (get M f) as [fn|]; [|discriminate]. destruct (f_blocks fn) as [|b bs]; [discriminate|]. intros E.
    destruct (run answer M n _) as [[s2 o2]|] eqn:E2; [|discriminate]. injection E as <- <-.
    destruct (run_proper _ _ _ _ _ E2) as [P A]. cbn [s_stack map fr_fn] in P, A. cbn [app proper after]. auto.
  Qed.
  (** Functions that run have a body. *)
  Definition bodied (M : modul W) (f : N) : Prop := exists fn, get M f = Some fn /\ defined fn = true.
  Lemma enter_bodied M f args dst fr : @enter W M f args dst = Some fr -> fr_fn fr = f /\ bodied M f.
  Proof.
    unfold enter. destruct (get M f) as [fn|] eqn:G; [|discriminate]. destruct (f_blocks fn) eqn:Eb; [discriminate|]. intros E. injection E as <-.
    split; [reflexivity|]. exists fn. split; [exact G|]. unfold defined. now rewrite Eb.
  Qed.
  Lemma run_bodied M n : forall s s' os, @run W answer M n s = Some (s', os) -> forall f, In (OEnter f) os -> bodied M f.
  Proof.
    induction n as [|n IH]; intros s s' os E f I0; cbn [run] in E; [injection E as <- <-; destruct I0|].
    destruct (step answer M s) as [[s1 o1]|] eqn:E1; [|discriminate]. destruct (run answer M n s1) as [[s2 o2]|] eqn:E2; [|discriminate]. injection E as <- <-.
    apply in_app_or in I0 as [I1|I2]; [|now apply (IH _ _ _ E2)]. clear IH E2. unfold step in E1.
    destruct (s_stack s) as [|fr rest]; [discriminate|]. destruct (fr_ins fr) as [|i is].
    - unfold step_term in E1. destruct (fr_term fr) as [t|c y n0|c w cases d|v|].
      + destruct (goto M fr t); [|discriminate]. injection E1 as <- <-. destruct I1.
      + destruct (goto M fr _); [|discriminate]. injection E1 as <- <-. destruct I1 as [I1|[]]; discriminate.
      + destruct (goto M fr _); [|discriminate]. injection E1 as <- <-. destruct I1 as [I1|[]]; discriminate.
      + destruct rest; injection E1 as <- <-; destruct I1 as [I1|[]]; discriminate.
      + discriminate.
    - unfold step_instr in E1. destruct i as [dst args g|dst b idxs g|dst c a b g|dst v x y|dst tg args|dst c].
      + destruct (g _ _) as [[v w']|]; [|discriminate]. injection E1 as <- <-. destruct I1.
      + injection E1 as <- <-. destruct I1 as [I1|[]]; discriminate.
      + injection E1 as <- <-. destruct I1 as [I1|[]]; discriminate.
      + injection E1 as <- <-. destruct I1.
      + destruct (enter M _ _ dst) as [fr'|] eqn:En; [|discriminate]. injection E1 as <- <-. destruct I1 as [I1|[]]. injection I1 as <-.
        destruct (enter_bodied _ _ _ _ _ En) as [-> B]. exact B.
      + injection E1 as <- <-. destruct I1 as [I1|[]]; discriminate.
  Qed.
  Lemma exec_bodied M f args w n s os : @execution W answer M f args w n = Some (s, os) -> forall g, In (OEnter g) os -> bodied M g.
  Proof.
    unfold execution, start. destruct (enter M f args 0) as [fr|] eqn:En; [|discriminate]. destruct (enter_bodied _ _ _ _ _ En) as [_ B].
    destruct (run answer M n _) as [[s2 o2]|] eqn:E2; [|discriminate]. intros E. injection E as <- <-. intros g [I0|I0].
    - now injection I0 as <-.
    - exact (run_bodied _ _ _ _ _ E2 g I0).
  Qed.
End Run.

(** ** The control-flow log of an instrumented execution *)
Lemma log_of_app a b : log_of (a ++ b) = log_of a ++ log_of b.
Proof. unfold log_of. now rewrite calls_app, map_app, concat_app. Qed.
Lemma log_of_flow id os : calls os = [] -> log_of (concat (map (flow_logged id) os)) =
  concat (map (fun o => match o with
    | OEnter f => [CfEnter (id f)]
    | OLeave f => [CfLeave (id f)]
    | ODecide f _ vs => map (fun l => CfTainted l (id f)) (filter (fun l => 0 <? l) (map (fun x => snd (snd x)) vs))
    | ORt _ => [] end) os).
Proof.
  induction os as [|o os IH]; intros C; [reflexivity|]. cbn [map concat]. rewrite log_of_app. destruct o as [f|f|f k vs|c]; cbn [calls] in C; try discriminate; rewrite IH by exact C; f_equal.
  cbn [flow_logged]. rewrite log_of_app. unfold log_of at 2. cbn [calls map concat]. rewrite app_nil_r. unfold log_of. rewrite <- map_map with (g := ORt), calls_map.
  clear. induction vs as [|[w [v l]] vs IH]; [reflexivity|]. cbn [map concat filter snd widened fst logged]. rewrite IH. now destruct (0 <? l).
Qed.
Section Reports.
  Variable id : N -> N.
  Variable name : N -> list N.
  Variable names : list (list N).
  Variable good : N -> Prop.
  Hypothesis Hn : forall f, good f -> get names (id f) = Some (name f).
  Lemma flow_run os : forall st, proper st os -> Forall good st -> (forall f, In (OEnter f) os -> good f) -> calls os = [] ->
    run_stack (get names) (map name (rev st)) (log_of (concat (map (flow_logged id) os)))
      (flow_reports name (rev st) os) (map name (rev (after st os))).
  Proof.
    induction os as [|o os IH]; intros st P G I0 C; [constructor|]. rewrite log_of_flow by exact C. cbn [map concat]. destruct o as [f|f|f k vs|c]; cbn [calls] in C; try discriminate;
      rewrite <- log_of_flow by exact C; cbn [proper] in P; cbn [flow_reports after app].
    - rewrite map_app. cbn [map]. constructor; [apply Hn, I0; now left|]. specialize (IH (f :: st) P). cbn [rev] in IH. rewrite map_app in IH. cbn [map] in IH.
      apply IH; [constructor; [apply I0; now left|exact G]|intros g Ig; apply I0; now right|exact C].
    - destruct st as [|g st]; [destruct P|]. destruct P as [-> P]. inversion G; subst. cbn [rev tl]. rewrite removelast_last, map_app. cbn [map]. constructor; [now apply Hn|].
      apply IH; [exact P|assumption|intros h Ih; apply I0; now right|exact C].
    - destruct P as [P1 P]. destruct st as [|g st]; [destruct P1|]. subst g. inversion G; subst. cbn [rev]. rewrite map_app. cbn [map].
      induction (filter _ _) as [|l ls IHl]; cbn [map app].
      + specialize (IH (f :: st) P). cbn [rev] in IH. rewrite map_app in IH. cbn [map] in IH. apply IH; [exact G|intros h Ih; apply I0; now right|exact C].
      + constructor; [now apply Hn|exact IHl].
  Qed.
  Lemma flow_fits os : (forall f, id f < 2 ^ 32) -> calls os = [] -> labels_fit os -> Forall cf_ok (log_of (concat (map (flow_logged id) os))).
  Proof.
    intros Hi C. rewrite log_of_flow by exact C. clear C. induction os as [|o os IH]; intros L; [constructor|]. inversion L as [|x l L1 L2]; subst. cbn [map concat]. apply Forall_app. split; [|now apply IH].
    destruct o as [f|f|f k vs|c]; try (constructor; [|constructor]; cbn; apply Hi); [|constructor].
    clear - L1 Hi. induction vs as [|[w [v l]] vs IH]; [constructor|]. inversion L1; subst. cbn [map filter snd] in *. destruct (0 <? l); cbn [map]; [constructor; [split; [assumption|apply Hi]|]|]; now apply IH.
  Qed.
End Reports.

(** ** Numbering *)
Lemma get_filter_rank {W} (M : modul W) : forall i f, nth_error M i = Some f -> defined f = true ->
  nth_error (filter defined M) (length (filter defined (firstn i M))) = Some f.
Proof.
  induction M as [|g M IH]; intros [|i] f G D; try discriminate; cbn in G.
  - injection G as <-. cbn. now rewrite D.
  - cbn [firstn filter]. destruct (defined g); cbn [length nth_error]; now apply IH.
Qed.
Lemma rank_name {W} (M : modul W) i f : get M i = Some f -> defined f = true ->
  get (map f_name (filter defined M)) (rank M i) = Some (f_name f).
Proof.
  intros G D. unfold get, rank, len. rewrite Nat2N.id, nth_error_map. unfold get in G. now rewrite (get_filter_rank M (N.to_nat i) f G D).
Qed.
Lemma rank_le {W} (M : modul W) i : rank M i <= len (filter defined M).
Proof.
  unfold rank, len. rewrite <- (firstn_skipn (N.to_nat i) M) at 2. rewrite filter_app, app_length. lia.
Qed.
Lemma rank_lt {W} (M : modul W) i f : get M i = Some f -> defined f = true -> rank M i < len (filter defined M).
Proof.
  intros G D. unfold rank, len. assert (nth_error (filter defined M) (length (filter defined (firstn (N.to_nat i) M))) <> None) as X by (rewrite (get_filter_rank M _ f G D); discriminate).
  apply nth_error_Some in X. lia.
Qed.

(** ** functionid.json *)
Lemma tcf_js {W} (M M' : modul W) js : tcf_pass M = (M', js) -> exists f, js = o_bytes (js_end f) /\ js_ok f (map f_name (filter defined M)).
Proof.
  unfold tcf_pass. destruct (tcf_funcs tcf_new 0 M) as [M1 t] eqn:E. intros X. injection X as <- <-. exists (t_js t). split; [reflexivity|].
  assert (G : forall M P t M1 t1, tcf_funcs t (len P) M = (M1, t1) -> (forall k i, In (k, i) (t_ids t) -> k < len P) ->
            js_ok (t_js t) (map f_name (filter (@defined W) P)) -> js_ok (t_js t1) (map f_name (filter (@defined W) (P ++ M)))).
  { clear. induction M as [|f M IH]; intros P t M1 t1 E Ks J; cbn [tcf_funcs] in E.
    - injection E as <- <-. now rewrite app_nil_r.
    - destruct (tcf_func t (len P) f) as [f' t2] eqn:E1. destruct (tcf_funcs t2 (len P + 1) M) as [r' t3] eqn:E2. injection E as <- <-.
      replace (len P + 1) with (len (P ++ [f])) in E2 by (rewrite len_app; reflexivity).
      replace (P ++ f :: M) with ((P ++ [f]) ++ M) by (rewrite <- app_assoc; reflexivity). 
      assert (K : (forall k i, In (k, i) (t_ids t2) -> k < len (P ++ [f])) /\ js_ok (t_js t2) (map f_name (filter defined (P ++ [f])))).
      { unfold tcf_func in E1. rewrite filter_app. cbn [filter]. unfold defined at 2. destruct (f_blocks f) as [|b bs].
        - injection E1 as <- <-. rewrite app_nil_r, len_app. split; [|exact J]. intros k i Hk. specialize (Ks k i Hk). lia.
        - assert (Nid : id_find (t_ids t) (len P) = None).
          { clear - Ks. induction (t_ids t) as [|[k i] l IHl]; [reflexivity|]. cbn [id_find]. assert (k < len P) by (apply (Ks k i); now left).
            destruct (N.eqb_spec k (len P)); [lia|]. apply IHl. intros k0 i0 I0. apply (Ks k0 i0). now right. }
          unfold get_id in E1. rewrite Nid in E1. set (tn := mkTcf _ _ _) in E1.
          destruct (tcf_blocks tn (len P) (f_name f) (fresh f) _) as [[bs' t4] k4] eqn:E3. injection E1 as <- <-.
          assert (t4 = tn) as ->.
          { assert (Hid : id_find (t_ids tn) (len P) = Some (t_counter t)) by (cbn [tn t_ids id_find]; now rewrite N.eqb_refl).
            clear - E3 Hid. revert E3. generalize (fresh f) as k, (at_entry (IRt None (RtEnter (t_counter t))) (b :: bs)) as cs.
            assert (Ti : forall idxs k pre idxs' t' k', @tcf_idxs W tn (len P) (f_name f) k idxs = (pre, idxs', t', k') -> t' = tn).
            { induction idxs as [|[o w] r IH]; intros k pre i' t' k' E; cbn [tcf_idxs] in E; [now injection E|]. destruct (is_const o).
              - destruct (tcf_idxs tn (len P) (f_name f) k r) as [[[p q] u] k1] eqn:E1. injection E as <- <- <- <-. exact (IH _ _ _ _ _ E1).
              - rewrite (get_id_known _ _ _ _ Hid) in E. unfold tcf_route in E. destruct (tcf_idxs tn (len P) (f_name f) (k + 3) r) as [[[p q] u] k1] eqn:E1. injection E as <- <- <- <-. exact (IH _ _ _ _ _ E1). }
            assert (Tn : forall i k p t' k', @tcf_instr W tn (len P) (f_name f) k i = (p, t', k') -> t' = tn).
            { intros i k p t' k' E. destruct i; cbn [tcf_instr] in E; try (now injection E).
              - destruct (tcf_idxs tn (len P) (f_name f) k idxs) as [[[p0 q] u] k1] eqn:E1. injection E as <- <- <-. exact (Ti _ _ _ _ _ _ E1).
              - rewrite (get_id_known _ _ _ _ Hid) in E. now injection E. }
            assert (Ts : forall is k p t' k', @tcf_instrs W tn (len P) (f_name f) k is = (p, t', k') -> t' = tn).
            { induction is as [|i r IH]; intros k p t' k' E; cbn [tcf_instrs] in E; [now injection E|].
              destruct (tcf_instr tn (len P) (f_name f) k i) as [[p0 u] k1] eqn:E1. assert (u = tn) by exact (Tn _ _ _ _ _ E1). subst u.
              destruct (tcf_instrs tn (len P) (f_name f) k1 r) as [[q u] k2] eqn:E2. injection E as <- <- <-. exact (IH _ _ _ _ E2). }
            intros k cs. revert k bs' t4 k4. induction cs as [|c r IH]; intros k bs' t4 k4 E; cbn [tcf_blocks] in E; [now injection E|].
            unfold tcf_block in E. destruct (tcf_instrs tn (len P) (f_name f) k (b_ins c)) as [[p u] k1] eqn:E1. assert (u = tn) by exact (Ts _ _ _ _ _ E1). subst u.
            destruct (tcf_term tn (len P) (f_name f) k1 (b_term c)) as [[[q x] u] k2] eqn:E2.
            assert (u = tn) by (destruct (b_term c); cbn [tcf_term] in E2; rewrite ?(get_id_known _ _ _ _ Hid) in E2; now injection E2). subst u.
            destruct (tcf_blocks tn (len P) (f_name f) k2 r) as [[r1 u] k3] eqn:E3. injection E as <- <- <-. exact (IH _ _ _ _ E3). }
          split.
          + intros k i Hk. rewrite len_app. cbn [tn t_ids] in Hk. destruct Hk as [Hk|Hk]; [injection Hk as <- <-; change (len [f]) with 1; lia|]. specialize (Ks k i Hk). lia.
          + rewrite map_app. cbn [tn t_js map]. now apply js_append_ok. }
      destruct K as [K1 K2]. exact (IH (P ++ [f]) t2 r' t3 E2 K1 K2). }
  exact (G M [] tcf_new M1 t E (fun k i H => match H with end) js_new_ok).
Qed.
Lemma tcf_json {W} (M M' : modul W) js : tcf_pass M = (M', js) -> filter defined M <> [] ->
  Forall (fun f => plain_name (f_name f)) (filter defined M) -> json_strings js = Some (map f_name (filter defined M)).
Proof.
  intros E Ne Pl. destruct (tcf_js M M' js E) as (f & -> & J).
  destruct (exists_last Ne) as (l & x & El). rewrite El, map_app in *. cbn [map] in *. apply Forall_app in Pl as [Pl Px]. inversion Px; subst.
  rewrite (js_end_ok f _ _ J). apply js_text_parses; [|assumption]. now apply Forall_map.
Qed.

(** ** Function traces *)
Lemma bytes_eqb_refl b : bytes_eqb b b = true.
Proof. induction b; [reflexivity|]. cbn. now rewrite N.eqb_refl. Qed.
Lemma name_table_app h h' : exists rest, name_table (h ++ h') = name_table h ++ rest.
Proof.
  induction h as [|c h [rest IH]]; [eexists; reflexivity|]. destruct c; cbn [app name_table]; rewrite IH; eauto. rewrite filter_app. cbn [app]. eauto.
Qed.
Lemma position_app n l r i : position n l = Some i -> position n (l ++ r) = Some i.
Proof.
  revert i. induction l as [|x l IH]; intros i E; [discriminate|]. cbn [position app] in *. destruct (bytes_eqb x n); [exact E|].
  destruct (position n l) as [j|]; [|discriminate]. now rewrite (IH j eq_refl).
Qed.
Lemma position_get (beq : forall a b, bytes_eqb a b = true -> a = b) n l i : position n l = Some i -> get l i = Some n.
Proof.
  revert i. induction l as [|x l IH]; intros i E; [discriminate|]. cbn [position] in E. destruct (bytes_eqb x n) eqn:B.
  - injection E as <-. apply beq in B as ->. reflexivity.
  - destruct (position n l) as [j|] eqn:P; [|discriminate]. injection E as <-. specialize (IH j eq_refl). unfold get in *. rewrite N2Nat.inj_succ. exact IH.
Qed.
Lemma position_in n l : In n l -> position n l <> None.
Proof.
  induction l as [|x l IH]; [tauto|]. intros [->|I0]; cbn [position]; [now rewrite bytes_eqb_refl|]. destruct (bytes_eqb x n); [discriminate|]. specialize (IH I0). now destruct (position n l).
Qed.
Lemma name_table_in (beq : forall a b, bytes_eqb a b = true -> a = b) h name n : In (RtEntry name n) h -> In (seen name n) (name_table h).
Proof.
  induction h as [|c h IH]; [tauto|]. intros [->|I0].
  - cbn [name_table]. now left.
  - specialize (IH I0). destruct c; cbn [name_table]; auto. destruct (bytes_eqb (seen name0 length) (seen name n)) eqn:B; [left; now apply beq|].
    right. apply filter_In. split; [exact IH|]. now rewrite B.
Qed.

Lemma Forall2_weak {A B} (P Q : A -> B -> Prop) l l' : (forall a b, P a b -> Q a b) -> Forall2 P l l' -> Forall2 Q l l'.
Proof. intros H F. induction F; constructor; auto. Qed.
Section Traces.
  Variable answer : list (rtcall val) -> rtcall val -> val.
  Hypothesis Hnum : numbers answer.
  Hypothesis beq : forall a b, bytes_eqb a b = true -> a = b.
  Variable skip : N -> bool.
  Variable name : N -> list N.
  Hypothesis Hshort : forall f, len (name f) < two16.
  Lemma seen_all f : seen (name f) (len (name f) mod two16) = name f.
  Proof. unfold seen. rewrite N.mod_small by apply Hshort. unfold len. rewrite Nat2N.id. apply firstn_all. Qed.
  Lemma trace_ok os : forall st gs h full, proper st os -> calls os = [] ->
    Forall2 (fun (g : val) f => skip f = true \/ position (name f) (name_table h) = Some (fst g)) gs st ->
    full = h ++ calls (trace_logged answer skip name gs h os) ->
    concat (map (trace_said (name_table full)) (calls (trace_logged answer skip name gs h os))) = concat (map (traced skip name) os).
  Proof.
    induction os as [|o os IH]; intros st gs h full P C F Ef; [reflexivity|]. destruct o as [f|f|f k vs|c]; cbn [calls] in C; try discriminate; cbn [proper] in P; cbn [trace_logged map concat traced] in *.
    - destruct (skip f) eqn:Sk; cbn [calls app map concat] in *.
      + apply (IH (f :: st) _ h full P C); [|exact Ef]. constructor; auto.
      + cbn [trace_said]. rewrite seen_all. cbn [app]. f_equal. set (c := RtEntry (name f) (len (name f) mod two16)) in *.
        apply (IH (f :: st) (answer h c :: gs) (h ++ [c]) full P C).
        * constructor.
          -- right. assert (X : In (name f) (name_table (h ++ [c]))).
             { rewrite <- (seen_all f) at 1. apply (name_table_in beq). apply in_or_app. right. now left. }
             apply position_in in X. unfold c at 2. rewrite Hnum, seen_all. fold c. cbn [fst]. now destruct (position (name f) (name_table (h ++ [c]))).
          -- eapply Forall2_weak; [|exact F]. cbn beta. intros g f0 [X|X]; [now left|right]. destruct (name_table_app h [c]) as [rest ->]. now apply position_app.
        * now rewrite <- app_assoc.
    - destruct st as [|g0 st]; [destruct P|]. destruct P as [-> P]. inversion F as [|g f0 gs' st' F1 F2]; subst gs st' f0. cbn [hd tl] in *.
      destruct (skip g0) eqn:Sk; cbn [calls app map concat] in *.
      + now apply (IH st gs' h full P C).
      + assert (Et : get (name_table full) (fst g) = Some (name g0)).
        { destruct F1 as [F1|F1]; [congruence|]. apply (position_get beq). rewrite Ef. match goal with |- context[name_table (h ++ ?x)] => destruct (name_table_app h x) as [rest ->] end. now apply position_app. }
        destruct g as [gi gl]. cbn [trace_said fst] in *. rewrite Et. cbn [app]. f_equal.
        apply (IH st gs' (h ++ [RtExit (gi, gl)]) full P C).
        * eapply Forall2_weak; [|exact F2]. cbn beta. intros g f0 [X|X]; [now left|right]. destruct (name_table_app h [RtExit (gi, gl)]) as [rest ->]. now apply position_app.
        * now rewrite <- app_assoc.
    - cbn [calls app] in *. destruct P as [_ P]. now apply (IH st gs h full P C).
  Qed.
End Traces.

(** The runtime of the model meets its assumptions. *)
Definition plain_answer (h : list (rtcall val)) (c : rtcall val) : val :=
  match c with
  | RtTainted v _ => v
  | RtEntry name n => (match position (seen name n) (name_table (h ++ [c])) with Some i => i | None => 0 end, 0)
  | _ => (0, 0)
  end.
Lemma name_table_filter h : name_table (filter is_entry h) = name_table h.
Proof. induction h as [|c h IH]; [reflexivity|]. destruct c; cbn [filter is_entry name_table]; rewrite ?IH; auto. Qed.
Lemma plain_fair : fair plain_answer.
Proof.
  constructor.
  - reflexivity.
  - intros h h' [v i|i|i|v|name n|v] E; try reflexivity. cbn [plain_answer]. rewrite <- (name_table_filter (h ++ _)), <- (name_table_filter (h' ++ _)), !filter_app, E. reflexivity.
  - intros h h' [v i|i|i|v|name n|v] E; try reflexivity. discriminate.
Qed.
Lemma plain_numbers : numbers plain_answer.
Proof. intros h name n. reflexivity. Qed.

(** ** Ignore lists *)
Lemma starts_with_spec p : forall s, starts_with p s = true <-> exists r, s = p ++ r.
Proof.
  induction p as [|a p IH]; intros s; cbn [starts_with].
  - split; [intros _; exists s; reflexivity|reflexivity].
  - destruct s as [|b s].
    + split; [discriminate|intros (r & E); discriminate].
    + rewrite andb_true_iff, IH. split.
      * intros (E & r & ->). apply N.eqb_eq in E as ->. exists r. reflexivity.
      * intros (r & E). injection E as <- ->. split; [apply N.eqb_refl|eauto].
Qed.
Lemma contains_spec p s : contains p s = true <-> word_in p s.
Proof.
  induction s as [|b s IH]; cbn [contains]; rewrite orb_true_iff, starts_with_spec.
  - split.
    + intros [(r & E)|E]; [|discriminate]. exists [], r. exact E.
    + intros (a & r & E). left. destruct a; [|discriminate]. exists r. exact E.
  - rewrite IH. split.
    + intros [(r & E)|(a & r & E)]; [exists [], r; exact E|exists (b :: a), r; now rewrite E].
    + intros ([|x a] & r & E); [left; exists r; exact E|right]. injection E as _ ->. exists a, r. reflexivity.
Qed.
Lemma find_char_none c s : find_char c s = None <-> ~ In c s.
Proof.
  induction s as [|b s IH]; cbn [find_char In]; [tauto|]. destruct (N.eqb_spec b c).
  - split; [discriminate|tauto].
  - destruct (find_char c s); cbn [option_map]; split; try discriminate; [intros H; exfalso; destruct IH as [_ IH]; assert (Some n0 = None) by (apply IH; tauto); discriminate|tauto|tauto].
Qed.
Lemma find_char_some c s i : find_char c s = Some i <-> exists a b, s = a ++ c :: b /\ length a = i /\ ~ In c a.
Proof.
  revert i. induction s as [|x s IH]; intros i; cbn [find_char].
  - split; [discriminate|]. intros ([|y a] & b & E & _); discriminate.
  - destruct (N.eqb_spec x c) as [->|Ne].
    + split.
      * intros E. injection E as <-. exists [], s. auto.
      * intros ([|y a] & b & E & L & Ni); [cbn in L; now subst|]. injection E as <- _. cbn in Ni. tauto.
    + destruct (find_char c s) as [j|]; cbn [option_map].
      * split.
        -- intros E. injection E as <-. destruct (proj1 (IH j) eq_refl) as (a & b & -> & L & Ni). exists (x :: a), b. cbn. split; [reflexivity|]. split; [now rewrite L|]. intros [?|?]; auto.
        -- intros ([|y a] & b & E & L & Ni); [cbn in E; congruence|]. injection E as <- E. f_equal. cbn in L. rewrite <- L. f_equal.
           assert (Some j = Some (length a)) as X; [|now injection X]. apply IH. exists a, b. split; [exact E|]. split; [reflexivity|]. cbn in Ni. tauto.
      * split; [discriminate|]. intros ([|y a] & b & E & L & Ni); [cbn in E; congruence|]. injection E as <- E.
        assert (None = Some (length a)) as X; [|discriminate]. apply IH. exists a, b. split; [exact E|]. split; [reflexivity|]. cbn in Ni. tauto.
Qed.
Lemma ignore_line_spec l n : ~ In 10 l -> (ignore_line l = Some n <-> names_function l n).
Proof.
  intros Nl. unfold ignore_line, names_function.
  destruct (starts_with [35] l) eqn:E1; cbn [orb].
  - split; [discriminate|]. intros (H & _). apply starts_with_spec in E1 as (r & ->). now destruct (H r).
  - assert (H1 : forall r, l <> 35 :: r) by (intros r ->; rewrite (proj2 (starts_with_spec [35] (35 :: r))) in E1; [discriminate|eexists; reflexivity]).
    replace (bytes_eqb l [10]) with false.
    2:{ symmetry. destruct l as [|x [|y l]]; cbn; [reflexivity| |destruct (x =? 10); reflexivity]. destruct (N.eqb_spec x 10); [|reflexivity]. subst. cbn in Nl. tauto. }
    destruct (contains name_main l) eqn:E2.
    { apply contains_spec in E2. split; [discriminate|]. intros (_ & H & _). destruct H. exact E2. }
    assert (H2 : ~ word_in name_main l) by (intros X; apply contains_spec in X; congruence).
    destruct (contains word_discard l) eqn:E3; cbn [negb].
    2:{ split; [discriminate|]. intros (_ & _ & H & _). apply contains_spec in H. unfold word_discard in E3. congruence. }
    apply contains_spec in E3.
    split.
    + destruct (find_char 58 l) as [s|] eqn:Es; [|discriminate]. destruct (find_char 61 l) as [e|] eqn:Ee; [|discriminate].
      destruct (Nat.ltb_spec (s + 1) e); [|discriminate]. intros E. injection E as <-.
      apply find_char_some in Es as (a & b & El & La & Na). apply find_char_some in Ee as (a' & b' & El' & La' & Na').
      assert (Sk : skipn (s + 1) l = b) by (rewrite El, <- La; replace (length a + 1)%nat with (length (a ++ [58])) by (rewrite app_length; reflexivity); change (58 :: b) with ([58] ++ b); rewrite app_assoc, skipn_app, skipn_all, Nat.sub_diag; reflexivity).
      assert (Ea : a' = a ++ [58] ++ firstn (e - (s + 1)) b).
      { assert (a' = firstn e l) as -> by (rewrite El', <- La', firstn_app, Nat.sub_diag, firstn_O, app_nil_r, firstn_all; reflexivity).
        rewrite El, firstn_app, firstn_all2 by lia. f_equal. rewrite La. replace (e - s)%nat with (S (e - (s + 1))) by lia. reflexivity. }
      split; [exact H1|]. split; [exact H2|]. split; [exact E3|]. rewrite Sk. split.
      * intros X. apply (f_equal (@length N)) in Ea. rewrite !app_length, X in Ea. cbn in Ea. lia.
      * exists a, b'. split; [rewrite El', Ea, <- !app_assoc; reflexivity|]. split; [exact Na|]. rewrite Ea in Na'. split; intros X; apply Na'; apply in_or_app; [left|right; apply in_or_app; right]; exact X.
    + intros (_ & _ & _ & Nn & kind & rest & El & N1 & N2 & N3).
      assert (Es : find_char 58 l = Some (length kind)) by (apply find_char_some; exists kind, (n ++ [61] ++ rest); auto).
      assert (Ee : find_char 61 l = Some (length (kind ++ [58] ++ n))).
      { apply find_char_some. exists (kind ++ [58] ++ n), rest. split; [rewrite El, <- !app_assoc; reflexivity|]. split; [reflexivity|].
        rewrite !in_app_iff. cbn [In]. intros [?|[[?|[]]|?]]; auto. discriminate. }
      rewrite Es, Ee, !app_length. cbn [length]. destruct n as [|n0 n]; [now destruct Nn|]. destruct (Nat.ltb_spec (length kind + 1) (length kind + (1 + length (n0 :: n)))); [|cbn [length] in *; lia].
      f_equal. replace (length kind + (1 + length (n0 :: n)) - (length kind + 1))%nat with (length (n0 :: n)) by lia.
      rewrite El. replace (length kind + 1)%nat with (length (kind ++ [58])) by (rewrite app_length; reflexivity). rewrite (app_assoc kind), skipn_app, skipn_all, Nat.sub_diag. cbn [skipn app].
      rewrite (app_comm_cons n), firstn_app, Nat.sub_diag, firstn_O, firstn_all, app_nil_r. reflexivity.
Qed.
Lemma get_lines_spec bs : forall acc l, ~ In 10 acc ->
  (In l (get_lines acc bs) <->
   exists before after, rev acc ++ bs = before ++ l ++ after /\ ~ In 10 l /\ (before = [] \/ exists b, before = b ++ [10]) /\
     ((exists a, after = 10 :: a) \/ after = [] /\ l <> [])).
Proof.
  induction bs as [|x bs IH]; intros acc l Na; cbn [get_lines].
  - rewrite app_nil_r. split.
    + destruct acc as [|a acc]; [intros []|]. intros [<-|[]]. exists [], []. rewrite app_nil_r. split; [reflexivity|]. split; [rewrite <- in_rev; exact Na|]. split; [auto|]. right. split; [reflexivity|]. cbn [rev]. intros X. now destruct (rev acc).
    + intros (before & after & E & Nl & Hb & Ha). assert (Nr : ~ In 10 (rev acc)) by (rewrite <- in_rev; exact Na). rewrite E in Nr.
      assert (before = []) as -> by (destruct Hb as [->|(b & ->)]; [reflexivity|]; exfalso; apply Nr; rewrite !in_app_iff; cbn; tauto).
      destruct Ha as [(a & ->)|(-> & Nn)]; [exfalso; apply Nr; rewrite !in_app_iff; cbn; tauto|]. cbn [app] in E. rewrite app_nil_r in E. subst l.
      destruct acc; [now destruct Nn|]. now left.
  - destruct (N.eqb_spec x 10) as [->|Ne].
    + cbn [In]. rewrite (IH [] l) by tauto. cbn [rev app]. split.
      * intros [<-|(before & after & -> & Nl & Hb & Ha)].
        -- exists [], (10 :: bs). split; [reflexivity|]. split; [rewrite <- in_rev; exact Na|]. split; [auto|]. left. eauto.
        -- exists (rev acc ++ 10 :: before), after. split; [rewrite <- app_assoc; reflexivity|]. split; [exact Nl|]. split; [|exact Ha]. right.
           destruct Hb as [->|(b & ->)]; [exists (rev acc); reflexivity|]. exists (rev acc ++ 10 :: b). now rewrite <- app_assoc.
      * intros (before & after & E & Nl & Hb & Ha). assert (Nr : ~ In 10 (rev acc)) by (rewrite <- in_rev; exact Na).
        destruct Hb as [->|(b & ->)].
        -- left. cbn [app] in E. destruct Ha as [(a & ->)|(-> & _)].
           ++ clear - E Nr Nl. revert l E Nl Nr. induction (rev acc) as [|y r IHr]; intros l E Nl Nr; cbn [app] in E.
              ** destruct l as [|z l]; [reflexivity|]. injection E as E0 _. subst z. cbn in Nl. tauto.
              ** destruct l as [|z l]; [injection E as -> _; cbn in Nr; tauto|]. injection E as -> E. f_equal. apply IHr; auto; cbn in *; tauto.
           ++ exfalso. rewrite app_nil_r in E. apply Nl. rewrite <- E. apply in_or_app. right. now left.
        -- right. clear - E Nr Nl Ha. revert b E Nr. induction (rev acc) as [|y r IHr]; intros b E Nr; cbn [app] in E.
           ++ destruct b as [|z b]; cbn [app] in E.
              ** injection E as E. exists [], after. auto.
              ** injection E as _ E. exists (b ++ [10]), after. split; [exact E|]. split; [exact Nl|]. split; [right; eauto|exact Ha].
           ++ destruct b as [|z b]; cbn [app] in E; [injection E as -> _; cbn in Nr; tauto|]. injection E as _ E. apply (IHr b E). cbn in Nr. tauto.
    + rewrite IH by (cbn; intros [?|?]; auto). cbn [rev]. rewrite <- app_assoc. reflexivity.
Qed.
Lemma get_lines_is_line bs l : In l (get_lines [] bs) <-> is_line l bs.
Proof.
  rewrite get_lines_spec by tauto. cbn [rev app]. unfold is_line. split.
  - intros (before & after & E & Nl & Hb & Ha). split; [exact Nl|]. eauto.
  - intros (Nl & before & after & E & Hb & Ha). exists before, after. auto.
Qed.
Lemma read_ignore_spec files n : In n (read_ignore files) <-> exists bs l, In (Some bs) files /\ is_line l bs /\ names_function l n.
Proof.
  induction files as [|[bs|] files IH]; cbn [read_ignore].
  - split; [intros []|]. intros (bs & l & [] & _).
  - rewrite in_app_iff, IH. split.
    + intros [H|(bs' & l & I0 & H)].
      * assert (X : exists l, In l (get_lines [] bs) /\ ignore_line l = Some n).
        { clear - H. induction (get_lines [] bs) as [|l ls IHl]; [destruct H|]. cbn [ignore_lines] in H. destruct (ignore_line l) as [m|] eqn:E.
          - destruct H as [->|H]; [exists l; split; [now left|exact E]|]. destruct (IHl H) as (l' & I0 & E'). exists l'. split; [now right|exact E'].
          - destruct (IHl H) as (l' & I0 & E'). exists l'. split; [now right|exact E']. }
        destruct X as (l & Il & El). apply get_lines_is_line in Il. exists bs, l. split; [now left|]. split; [exact Il|]. apply ignore_line_spec; [apply Il|exact El].
      * exists bs', l. split; [now right|exact H].
    + intros (bs' & l & [I0|I0] & Il & Hn); [left|right; eauto]. injection I0 as <-. apply ignore_line_spec in Hn; [|apply Il]. apply get_lines_is_line in Il.
      clear - Il Hn. induction (get_lines [] bs) as [|l' ls IHl]; [destruct Il|]. cbn [ignore_lines]. destruct Il as [->|Il].
      * rewrite Hn. now left.
      * destruct (ignore_line l'); [right|]; now apply IHl.
  - rewrite IH. split; intros (bs & l & I0 & H); exists bs, l; (split; [|exact H]); [now right|destruct I0 as [I0|I0]; [discriminate|exact I0]].
Qed.

Lemma rank_strict {W} (M : modul W) i j f : get M i = Some f -> defined f = true -> i < j -> rank M i = rank M j -> False.
Proof.
  intros G D L E. unfold rank in E. assert (Sp : exists k, N.to_nat j = (N.to_nat i + S k)%nat) by (exists (N.to_nat j - N.to_nat i - 1)%nat; lia).
  destruct Sp as [k Ek]. rewrite Ek in E. unfold get in G. clear - G D E.
  assert (H : firstn (N.to_nat i + S k) M = firstn (N.to_nat i) M ++ f :: firstn k (skipn (S (N.to_nat i)) M)).
  { clear - G. revert M G. induction (N.to_nat i) as [|n IH]; intros [|g M] G; try discriminate; cbn in G.
    - injection G as ->. reflexivity.
    - cbn [Nat.add firstn app skipn]. f_equal. exact (IH M G). }
  rewrite H, filter_app, len_app in E. cbn [filter] in E. rewrite D in E. unfold len in E. cbn [length] in E. lia.
Qed.

(** The ids in the code. *)
Definition carries {A} (fid : N) (c : rtcall A) : Prop :=
  match c with RtTainted _ i | RtEnter i | RtLeave i => i = fid | _ => False end.
Section Embedded.
  Context {W : Type}.
  Variables (t : tcf) (key : N) (name : list N) (fid : N).
  Hypothesis Hid : id_find (t_ids t) key = Some fid.
  Definition good_code (old : list (instr W)) (x : instr W) : Prop := forall d c, x = IRt d c -> carries fid c \/ In x old.
  Lemma emb_route k o w old : Forall (good_code old) (fst (fst (tcf_route k fid o w))).
  Proof. cbn [tcf_route fst]. apply Forall_forall. intros x I0 d c E. cbn [In] in I0. destruct I0 as [<-|[<-|[<-|[]]]]; try discriminate. injection E as <- <-. left. reflexivity. Qed.
  Lemma emb_idxs old : forall idxs k pre idxs' t' k', tcf_idxs t key name k idxs = (pre, idxs', t', k') -> t' = t /\ Forall (good_code old) pre.
  Proof.
    induction idxs as [|[o w] r IH]; intros k pre i' t' k' E; cbn [tcf_idxs] in E.
    - injection E as <- <- <- <-. auto.
    - destruct (is_const o).
      + destruct (tcf_idxs t key name k r) as [[[p q] u] k1] eqn:E1. injection E as <- <- <- <-. exact (IH _ _ _ _ _ E1).
      + rewrite (get_id_known _ _ _ _ Hid) in E. destruct (tcf_route k fid o w) as [[p o'] k1] eqn:Er. destruct (tcf_idxs t key name k1 r) as [[[q s] u] k2] eqn:E1. injection E as <- <- <- <-.
        destruct (IH _ _ _ _ _ E1) as [-> F]. split; [reflexivity|]. apply Forall_app. split; [|exact F]. pose proof (emb_route k o w old) as X. now rewrite Er in X.
  Qed.
  Lemma emb_instr old i k p t' k' : In i old -> tcf_instr t key name k i = (p, t', k') -> t' = t /\ Forall (good_code old) p.
  Proof.
    intros I0 E. destruct i; cbn [tcf_instr] in E; try (injection E as <- <- <-; split; [reflexivity|]; constructor; [|constructor]; intros d0 c0 X; try discriminate; right; exact I0).
    - destruct (tcf_idxs t key name k idxs) as [[[p0 q] u] k1] eqn:E1. injection E as <- <- <-. destruct (emb_idxs old _ _ _ _ _ _ E1) as [-> F].
      split; [reflexivity|]. apply Forall_app. split; [exact F|]. constructor; [|constructor]. intros d c X. discriminate.
    - rewrite (get_id_known _ _ _ _ Hid) in E. destruct (tcf_route k fid cond 1) as [[p0 o'] k1] eqn:Er. injection E as <- <- <-. split; [reflexivity|].
      apply Forall_app. split; [pose proof (emb_route k cond 1 old) as X; now rewrite Er in X|]. constructor; [|constructor]. intros d c X. discriminate.
  Qed.
  Lemma emb_instrs old is : forall k p t' k', incl is old -> tcf_instrs t key name k is = (p, t', k') -> t' = t /\ Forall (good_code old) p.
  Proof.
    induction is as [|i r IH]; intros k p t' k' I0 E; cbn [tcf_instrs] in E; [injection E as <- <- <-; auto|].
    destruct (tcf_instr t key name k i) as [[p0 u] k1] eqn:E1. destruct (emb_instr old i k p0 u k1 (I0 i (or_introl eq_refl)) E1) as [-> F].
    destruct (tcf_instrs t key name k1 r) as [[q u] k2] eqn:E2. injection E as <- <- <-.
    destruct (IH _ _ _ _ (fun x H => I0 x (or_intror H)) E2) as [-> F2]. split; [reflexivity|]. apply Forall_app. auto.
  Qed.
  Lemma emb_block b k b' t' k' : tcf_block t key name k b = (b', t', k') -> t' = t /\ Forall (good_code (b_ins b)) (b_ins b').
  Proof.
    unfold tcf_block. intros E. destruct (tcf_instrs t key name k (b_ins b)) as [[p u] k1] eqn:E1. destruct (emb_instrs (b_ins b) _ _ _ _ _ (fun x H => H) E1) as [-> F].
    destruct (tcf_term t key name k1 (b_term b)) as [[[q x] u] k2] eqn:E2. injection E as <- <- <-. cbn [b_ins].
    assert (X : u = t /\ Forall (good_code (b_ins b)) q).
    { destruct (b_term b) as [tg|c y n|c w cases d|v|]; cbn [tcf_term] in E2; rewrite ?(get_id_known _ _ _ _ Hid) in E2.
      - injection E2 as <- <- <- <-. auto.
      - destruct (tcf_route k1 fid c 1) as [[p0 o'] k3] eqn:Er. injection E2 as <- <- <- <-. split; [reflexivity|]. pose proof (emb_route k1 c 1 (b_ins b)) as X. now rewrite Er in X.
      - destruct (tcf_route k1 fid c w) as [[p0 o'] k3] eqn:Er. injection E2 as <- <- <- <-. split; [reflexivity|]. pose proof (emb_route k1 c w (b_ins b)) as X. now rewrite Er in X.
      - injection E2 as <- <- <- <-. split; [reflexivity|]. constructor; [|constructor]. intros d c X. injection X as <- <-. left. reflexivity.
      - injection E2 as <- <- <- <-. auto. }
    destruct X as [-> F2]. split; [reflexivity|]. apply Forall_app. auto.
  Qed.
  Lemma emb_blocks bs : forall k bs' t' k', tcf_blocks t key name k bs = (bs', t', k') ->
    t' = t /\ Forall (fun b' => exists b, In b bs /\ Forall (good_code (b_ins b)) (b_ins b')) bs'.
  Proof.
    induction bs as [|b r IH]; intros k bs' t' k' E; cbn [tcf_blocks] in E; [injection E as <- <- <-; auto|].
    destruct (tcf_block t key name k b) as [[b1 u] k1] eqn:E1. destruct (emb_block _ _ _ _ _ E1) as [-> F]. destruct (tcf_blocks t key name k1 r) as [[r1 u] k2] eqn:E2. injection E as <- <- <-.
    destruct (IH _ _ _ _ E2) as [-> F2]. split; [reflexivity|]. constructor; [exists b; split; [now left|exact F]|]. eapply Forall_impl; [|exact F2]. intros x (y & Iy & Fy). exists y. split; [now right|exact Fy].
  Qed.
End Embedded.
Lemma embedded {W} (M M' : modul W) js i f f' : tcf_pass M = (M', js) ->
  len (filter defined M) <= two32 -> get M i = Some f -> get M' i = Some f' ->
  Forall (fun b => Forall (fun x => forall d c, x = IRt d c ->
      carries (rank M i) c \/ exists b0, In b0 (f_blocks f) /\ In x (b_ins b0)) (b_ins b)) (f_blocks f').
Proof.
  unfold tcf_pass. destruct (tcf_funcs tcf_new 0 M) as [M1 t0] eqn:E0. intros X L. injection X as <- _.
  assert (G : forall R P t R' t', M = P ++ R -> tcf_funcs t (len P) R = (R', t') -> t_counter t = len (filter defined P) mod two32 ->
    (forall k i, In (k, i) (t_ids t) -> k < len P) ->
    forall j f f', nth_error R j = Some f -> nth_error R' j = Some f' ->
      Forall (fun b => Forall (fun x => forall d c, x = IRt d c ->
      carries (rank M (len P + N.of_nat j)) c \/ exists b0, In b0 (f_blocks f) /\ In x (b_ins b0)) (b_ins b)) (f_blocks f')).
  { clear - L. induction R as [|f R IH]; intros P t R' t' EM E Ct Ks j g g' G G'; cbn [tcf_funcs] in E; [now destruct j|].
    destruct (tcf_func t (len P) f) as [f1 t2] eqn:E1. destruct (tcf_funcs t2 (len P + 1) R) as [r' t3] eqn:E2. injection E as <- <-.
    replace (len P + 1) with (len (P ++ [f])) in E2 by (rewrite len_app; reflexivity).
    assert (EM' : M = (P ++ [f]) ++ R) by (rewrite EM, <- app_assoc; reflexivity).
    assert (K : (forall k i, In (k, i) (t_ids t2) -> k < len (P ++ [f])) /\ t_counter t2 = len (filter defined (P ++ [f])) mod two32 /\
      Forall (fun b => Forall (fun x => forall d c, x = IRt d c -> carries (rank M (len P)) c \/ exists b0, In b0 (f_blocks f) /\ In x (b_ins b0)) (b_ins b)) (f_blocks f1)).
    { unfold tcf_func in E1. rewrite filter_app. cbn [filter]. unfold defined at 2. destruct (f_blocks f) as [|b bs] eqn:Eb.
      - injection E1 as <- <-. rewrite app_nil_r, len_app. rewrite Eb. split; [|split; [exact Ct|constructor]]. intros k i Hk. specialize (Ks k i Hk). lia.
      - assert (Nid : id_find (t_ids t) (len P) = None).
        { clear - Ks. induction (t_ids t) as [|[k i] l IHl]; [reflexivity|]. cbn [id_find]. assert (k < len P) by (apply (Ks k i); now left).
          destruct (N.eqb_spec k (len P)); [lia|]. apply IHl. intros k0 i0 I0. apply (Ks k0 i0). now right. }
        assert (Er : t_counter t = rank M (len P)).
        { rewrite Ct, (rank_app M P f R EM). apply N.mod_small.
          rewrite EM, filter_app in L. cbn [filter] in L. unfold defined at 2 in L. rewrite Eb in L. rewrite len_app in L. unfold len in *. cbn [length] in L. lia. }
        unfold get_id in E1. rewrite Nid in E1. set (tn := mkTcf _ _ _) in E1.
        destruct (tcf_blocks tn (len P) (f_name f) (fresh f) _) as [[bs' t4] k4] eqn:E3. injection E1 as <- <-.
        assert (Hid : id_find (t_ids tn) (len P) = Some (t_counter t)) by (cbn [tn t_ids id_find]; now rewrite N.eqb_refl).
        destruct (emb_blocks tn (len P) (f_name f) (t_counter t) Hid _ _ _ _ _ E3) as [-> F]. split; [|split].
        + intros k i Hk. rewrite len_app. cbn [tn t_ids] in Hk. destruct Hk as [Hk|Hk]; [injection Hk as <- <-; change (len [f]) with 1; lia|]. specialize (Ks k i Hk). lia.
        + cbn [tn t_counter]. rewrite len_app, Ct. unfold add32. rewrite N.add_mod_idemp_l by (unfold two32; lia). reflexivity.
        + cbn [f_blocks]. eapply Forall_impl; [|exact F]. intros b' (b0 & I0 & F0). eapply Forall_impl; [|exact F0]. intros x Gx d c Ex. rewrite <- Er.
          cbn [at_entry In] in I0. destruct I0 as [<-|I0].
          * cbn [b_ins] in Gx. destruct (Gx d c Ex) as [C|[C|C]]; [now left| |right; exists b; split; [now left|exact C]].
            left. rewrite Ex in C. injection C as _ <-. reflexivity.
          * destruct (Gx d c Ex) as [C|C]; [now left|]. right. exists b0. split; [now right|exact C]. }
    destruct K as (K1 & K2 & K3). destruct j as [|j]; cbn [nth_error] in G, G'.
    - injection G as <-. injection G' as <-. rewrite N.add_0_r. exact K3.
    - specialize (IH (P ++ [f]) t2 r' t3 EM' E2 K2 K1 j g g' G G'). rewrite len_app in IH. change (len [f]) with 1 in IH.
      replace (len P + N.of_nat (S j)) with (len P + 1 + N.of_nat j) by lia. exact IH. }
  intros Gf Gf'. specialize (G M [] tcf_new M1 t0 eq_refl E0 eq_refl (fun k i H => match H with end) (N.to_nat i) f f' Gf Gf').
  change (len []) with 0 in G. rewrite N.add_0_l, N2Nat.id in G. exact G.
Qed.

(** Programs without calls of the runtime. *)
Lemma exec_no_calls {W} answer (M : modul W) f args w n s os : calls_none (fun _ => true) M ->
  execution answer M f args w n = Some (s, os) -> calls os = [].
Proof.
  intros C. pose (quiet_ins := Forall (fun i : instr W => match i with IRt _ _ => False | _ => True end)).
  assert (B : forall g fn b, get M g = Some fn -> In b (f_blocks fn) -> quiet_ins (b_ins b)).
  { intros g fn b G I0. unfold calls_none in C. rewrite Forall_forall in C. specialize (C fn (nth_error_In _ _ G)). rewrite Forall_forall in C. specialize (C b I0).
    eapply Forall_impl; [|exact C]. intros []; auto. discriminate. }
  assert (St : forall s s' os, Forall (fun fr => quiet_ins (fr_ins fr)) (s_stack s) -> step answer M s = Some (s', os) -> Forall (fun fr => quiet_ins (fr_ins fr)) (s_stack s') /\ calls os = []).
  { clear - B. intros s s' os Q E. unfold step in E. destruct (s_stack s) as [|fr rest]; [discriminate|]. inversion Q as [|x l Q1 Q2]; subst.
    assert (Go : forall t fr', goto M fr t = Some fr' -> quiet_ins (fr_ins fr')).
    { intros t fr' Gt. unfold goto in Gt. destruct (get M (fr_fn fr)) as [fn|] eqn:G; [|discriminate]. destruct (get (f_blocks fn) t) as [b|] eqn:Gb; [|discriminate]. injection Gt as <-. cbn [fr_ins].
      apply (B _ _ _ G). exact (nth_error_In _ _ Gb). }
    destruct (fr_ins fr) as [|i is] eqn:Ei.
    - unfold step_term in E. destruct (fr_term fr) as [t|c y n0|c w cases d|v|].
      + destruct (goto M fr t) eqn:Eg; [|discriminate]. injection E as <- <-. split; [|reflexivity]. constructor; [exact (Go _ _ Eg)|exact Q2].
      + destruct (goto M fr _) eqn:Eg; [|discriminate]. injection E as <- <-. split; [|reflexivity]. constructor; [exact (Go _ _ Eg)|exact Q2].
      + destruct (goto M fr _) eqn:Eg; [|discriminate]. injection E as <- <-. split; [|reflexivity]. constructor; [exact (Go _ _ Eg)|exact Q2].
      + destruct rest as [|c rest']; injection E as <- <-; (split; [|reflexivity]); [constructor|]. inversion Q2; subst. now constructor.
      + discriminate.
    - inversion Q1 as [|y r Q3 Q4]; subst. unfold step_instr in E. destruct i as [dst args g|dst b idxs g|dst c a b g|dst v x y|dst tg args|dst c].
      + destruct (g _ _) as [[v w']|]; [|discriminate]. injection E as <- <-. split; [|reflexivity]. now constructor.
      + injection E as <- <-. split; [|reflexivity]. now constructor.
      + injection E as <- <-. split; [|reflexivity]. now constructor.
      + injection E as <- <-. split; [|reflexivity]. now constructor.
      + unfold enter in E. destruct (get M _) as [fn|] eqn:G; [|discriminate]. destruct (f_blocks fn) as [|b bs] eqn:Eb; [discriminate|]. injection E as <- <-. split; [|reflexivity].
        constructor; [|now constructor]. cbn [fr_ins]. apply (B _ _ b G). rewrite Eb. now left.
      + destruct Q3. }
  assert (Rn : forall n s s' os, Forall (fun fr => quiet_ins (fr_ins fr)) (s_stack s) -> run answer M n s = Some (s', os) -> calls os = []).
  { clear - St. induction n as [|n IH]; intros s s' os Q E; cbn [run] in E; [injection E as <- <-; reflexivity|].
    destruct (step answer M s) as [[s1 o1]|] eqn:E1; [|discriminate]. destruct (run answer M n s1) as [[s2 o2]|] eqn:E2; [|discriminate]. injection E as <- <-.
    destruct (St _ _ _ Q E1) as [Q1 C1]. rewrite calls_app, C1. exact (IH _ _ _ Q1 E2). }
  unfold execution, start, enter. destruct (get M f) as [fn|] eqn:G; [|discriminate]. destruct (f_blocks fn) as [|b bs] eqn:Eb; [discriminate|].
  destruct (run answer M n _) as [[s2 o2]|] eqn:E2; [|discriminate]. intros E. injection E as <- <-. cbn [calls app].
  refine (Rn _ _ _ _ _ E2). cbn [s_stack]. constructor; [|constructor]. cbn [fr_ins]. apply (B _ _ b G). rewrite Eb. now left.
Qed.

(** Ordinary ignore lists. *)
Lemma split_unique (c : N) a b a' b' : ~ In c a -> ~ In c a' -> a ++ c :: b = a' ++ c :: b' -> a = a' /\ b = b'.
Proof.
  revert a'. induction a as [|x a IH]; intros [|y a'] Na Na' E; cbn [app] in E.
  - injection E as <-. auto.
  - injection E as -> _. cbn in Na'. tauto.
  - injection E as <- _. cbn in Na. tauto.
  - injection E as <- E. destruct (IH a' (fun H => Na (or_intror H)) (fun H => Na' (or_intror H)) E) as [-> ->]. auto.
Qed.
Lemma read_ignore_ordinary files n :
  (forall bs l, In (Some bs) files -> is_line l bs -> ordinary_line l) ->
  (In n (read_ignore files) <-> exists bs, In (Some bs) files /\ is_line (fun_entry n discard) bs).
Proof.
  intros Or. rewrite read_ignore_spec. split.
  - intros (bs & l & I0 & Il & Hn). exists bs. split; [exact I0|]. destruct Hn as (H1 & H2 & H3 & H4 & kind & rest & El & N1 & N2 & N3).
    destruct (Or bs l I0 Il) as [-> | [(r & ->)|(name & cat & Ef & Nn & Ne & Nm & Cd)]].
    + destruct kind; discriminate.
    + now destruct (H1 r).
    + rewrite (Cd H3) in Ef. rewrite Ef in El. unfold fun_entry in El.
      change ([102; 117; 110; 58] ++ name ++ [61] ++ discard) with ([102; 117; 110] ++ 58 :: (name ++ 61 :: discard)) in El.
      change (kind ++ [58] ++ n ++ [61] ++ rest) with (kind ++ 58 :: (n ++ 61 :: rest)) in El.
      assert (Nf : ~ In 58 [102; 117; 110]) by (cbn; intuition discriminate). destruct (split_unique 58 _ _ _ _ Nf N1 El) as [_ E2]. destruct (split_unique 61 _ _ _ _ Ne N3 E2) as [-> _]. now rewrite <- Ef.
  - intros (bs & I0 & Il). exists bs, (fun_entry n discard). split; [exact I0|]. split; [exact Il|].
    destruct (Or _ _ I0 Il) as [E|[(r & E)|(name & cat & Ef & Nn & Ne & Nm & Cd)]]; [discriminate|discriminate|].
    assert (Wd : word_in discard (fun_entry n discard)) by (exists ([102; 117; 110; 58] ++ n ++ [61]), []; unfold fun_entry; rewrite app_nil_r, <- !app_assoc; reflexivity).
    specialize (Cd Wd). subst cat. assert (name = n) as ->.
    { unfold fun_entry in Ef. apply app_inv_head in Ef. rewrite !app_assoc in Ef. apply app_inv_tail in Ef. apply app_inv_tail in Ef. now symmetry. }
    split; [intros r; discriminate|]. split; [exact Nm|]. split; [exact Wd|]. split; [exact Nn|]. exists [102; 117; 110], discard. split; [reflexivity|].
    split; [cbn; intuition discriminate|]. split; [cbn; intuition discriminate|exact Ne].
Qed.

Lemma ignored_in (beq : forall a b, bytes_eqb a b = true -> a = b) ignore n : ignored ignore n = true <-> In n ignore.
Proof.
  unfold ignored. rewrite existsb_exists. split.
  - intros (x & I0 & E). now rewrite (beq _ _ E).
  - intros I0. exists n. split; [exact I0|apply bytes_eqb_refl].
Qed.
Lemma bytes_eqb_eq a : forall b, bytes_eqb a b = true -> a = b.
Proof.
  induction a as [|x a IH]; intros [|y b] E; try discriminate; [reflexivity|]. cbn in E. apply andb_true_iff in E as [E1 E2]. apply N.eqb_eq in E1. rewrite E1, (IH b E2). reflexivity.
Qed.
Lemma excluded W ignore op (M M' : modul W) i f : get M i = Some f -> In (f_name f) ignore ->
  get (ft_pass ignore M) i = Some f /\ (tt_pass ignore op M = Ok M' -> get M' i = Some f).
Proof.
  intros G I0. apply (ignored_in bytes_eqb_eq) in I0. split.
  - unfold get, ft_pass in *. rewrite nth_error_map, G. cbn [option_map]. unfold ft_func. rewrite I0. now destruct (f_blocks f).
  - unfold get in *. revert M' G. generalize (N.to_nat i) as j. induction M as [|g M IH]; intros [|j] M' G E; try discriminate; cbn [tt_pass nth_error] in *.
    + injection G as <-. unfold tt_func in E. rewrite I0 in E. cbn [bind] in E. destruct (tt_pass ignore op M); try discriminate. injection E as <-. reflexivity.
    + destruct (tt_func ignore op g); try discriminate. cbn [bind] in E. destruct (tt_pass ignore op M) as [r| | |]; try discriminate. injection E as <-. cbn [nth_error]. now apply IH.
Qed.
Lemma tt_defined W ignore op (M : modul W) :
  (exists M', tt_pass ignore op M = Ok M') <->
  (forall f, In f M -> f_name f = [109; 97; 105; 110] -> ~ In (f_name f) ignore -> 2 <= f_params f /\ defined f = true).
Proof.
  assert (One : forall f : func W, (exists f', tt_func ignore op f = Ok f') <-> (f_name f = [109; 97; 105; 110] -> ~ In (f_name f) ignore -> 2 <= f_params f /\ defined f = true)).
  { intros f. unfold tt_func. destruct (ignored ignore (f_name f)) eqn:Ig.
    - apply (ignored_in bytes_eqb_eq) in Ig. split; [tauto|eauto].
    - assert (Ni : ~ In (f_name f) ignore) by (intros X; apply (ignored_in bytes_eqb_eq) in X; congruence).
      destruct (bytes_eqb (f_name f) name_main) eqn:Em.
      + apply bytes_eqb_eq in Em. unfold tt_argv. cbn [f_params f_blocks f_name]. unfold defined. destruct (N.ltb_spec (f_params f) 2).
        * split; [intros (f' & X); discriminate|]. intros X. destruct (X Em Ni). lia.
        * destruct (f_blocks f) as [|b bs]; cbn [tt_blocks].
          -- split; [intros (f' & X); discriminate|]. intros X. destruct (X Em Ni). discriminate.
          -- destruct (tt_instrs _ (b_ins b)) as [p k1]. destruct (tt_term k1 (b_term b)) as [q k2]. split; [auto|eauto].
      + split; [|eauto]. intros _ E. rewrite E in Em. discriminate. }
  induction M as [|f M IH]; cbn [tt_pass].
  - split; [intros _ f []|eauto].
  - split.
    + intros (M' & E). destruct (tt_func ignore op f) as [f'| | |] eqn:Ef; try discriminate. cbn [bind] in E. destruct (tt_pass ignore op M) as [r| | |]; try discriminate.
      intros g [<-|I0]; [apply One; eauto|]. apply IH; eauto.
    + intros H. destruct (proj2 (One f) (H f (or_introl eq_refl))) as (f' & ->). destruct (proj2 IH (fun g I0 => H g (or_intror I0))) as (r & ->). cbn [bind]. eauto.
Qed.
Lemma long_name : exists name, seen name (len name mod two16) <> name.
Proof.
  exists (repeat 97 (N.to_nat two16)). unfold len. rewrite repeat_length, N2Nat.id. rewrite N.mod_same by (unfold two16; lia).
  unfold seen. change (N.to_nat 0) with O. cbn [firstn]. intros E. apply (f_equal len) in E. unfold len in E. rewrite repeat_length, N2Nat.id in E. cbn in E. discriminate.
Qed.
