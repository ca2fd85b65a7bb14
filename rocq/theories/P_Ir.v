(** Simulation between a module and one with additional runtime calls. *)
From Coq Require Import NArith List Bool Lia.
From Verif Require Import M_Base M_Ir M_Passes S_Passes P_Base.
Import ListNotations.
Open Scope N_scope.

Lemma calls_app os os' : calls (os ++ os') = calls os ++ calls os'.
Proof. induction os as [|[]]; cbn; congruence. Qed.
Lemma calls_map cs : calls (map ORt cs) = cs.
Proof. induction cs; cbn; congruence. Qed.

(** ** Registers below a bound *)
Definition agree (b : N) (e e' : regs) : Prop := forall r, r < b -> e r = e' r.
Lemma agree_refl b e : agree b e e. Proof. intros r _. reflexivity. Qed.
Lemma agree_set b e e' r v : agree b e e' -> agree b (set e r v) (set e' r v).
Proof. intros A x L. unfold set. destruct (x =? r); auto. Qed.
Lemma agree_over b e e' r v : agree b e e' -> b <= r -> agree b e (set e' r v).
Proof. intros A L x Lx. unfold set. destruct (N.eqb_spec x r); [lia|auto]. Qed.
Lemma agree_eval b e e' o : agree b e e' -> o_bound o <= b -> eval e o = eval e' o.
Proof. destruct o; cbn; auto. intros A L. apply A. lia. Qed.
Lemma max_le l b : max_of l <= b -> Forall (fun x => x <= b) l.
Proof. unfold max_of. induction l as [|a l IH]; cbn [fold_right]; intros L; [constructor|]. constructor; [lia|apply IH; lia]. Qed.
Lemma agree_evals b e e' os : agree b e e' -> max_of (map o_bound os) <= b -> map (eval e) os = map (eval e') os.
Proof.
  intros A L. apply max_le in L. induction os as [|o os IH]; [reflexivity|]. inversion L; subst. cbn [map].
  rewrite (agree_eval b e e' o) by auto. rewrite IH by auto. reflexivity.
Qed.
Lemma agree_idxs b e e' idxs : agree b e e' -> max_of (map (fun x => o_bound (fst x)) idxs) <= b ->
  map (fun i => at_width (snd i) (eval e (fst i))) idxs = map (fun i => at_width (snd i) (eval e' (fst i))) idxs /\
  varying e idxs = varying e' idxs.
Proof.
  intros A L. apply max_le in L. unfold varying. induction idxs as [|[o w] idxs IH]; [auto|]. inversion L; subst. cbn [map filter fst snd] in *.
  destruct (IH) as [I1 I2]; auto. rewrite (agree_eval b e e' o) by auto. split; [now rewrite I1|].
  destruct (is_const o); cbn [negb map fst snd]; [exact I2|]. rewrite I2. now rewrite (agree_eval b e e' o) by auto.
Qed.


Section Sim.
  Context {W : Type}.
  Notation instr := (instr W).
  Notation block := (block W).
  Notation func := (func W).
  Notation modul := (modul W).
  Variable answer : list (rtcall val) -> rtcall val -> val.
  Notation run := (run answer).
  Notation step := (step answer).

  Lemma run_app M n m (s : mstate W) : run M (n + m) s =
    match run M n s with
    | Some (s1, os) => match run M m s1 with Some (s2, os') => Some (s2, os ++ os') | None => None end
    | None => None
    end.
  Proof.
    revert s. induction n as [|n IH]; intros s; cbn [Nat.add M_Ir.run].
    - destruct (run M m s) as [[]|]; reflexivity.
    - destruct (step M s) as [[s1 os]|]; [|reflexivity]. rewrite IH.
      destruct (run M n s1) as [[s2 os2]|]; [|reflexivity].
      destruct (run M m s2) as [[s3 os3]|]; [|reflexivity]. now rewrite app_assoc.
  Qed.
  Lemma run_one M (s s' : mstate W) os : step M s = Some (s', os) -> run M 1 s = Some (s', os).
  Proof. intros H. cbn [M_Ir.run]. rewrite H. now rewrite app_nil_r. Qed.

  (** The history holds the runtime calls observed. *)
  Lemma step_hist M (s s' : mstate W) os : step M s = Some (s', os) -> s_hist s' = s_hist s ++ calls os.
  Proof.
    unfold M_Ir.step. destruct s as [[|fr rest] w h res]; [discriminate|]. cbn [s_stack s_world s_hist].
    destruct (fr_ins fr) as [|i is].
    - unfold step_term. destruct (fr_term fr); try discriminate;
        try (destruct (goto M fr _); [|discriminate]; intros E; injection E as <- <-; cbn; now rewrite app_nil_r).
      destruct rest; intros E; injection E as <- <-; cbn; now rewrite app_nil_r.
    - unfold step_instr. destruct i; try (intros E; injection E as <- <-; cbn; now rewrite ?app_nil_r).
      + destruct (f _ _) as [[v w']|]; [|discriminate]. intros E; injection E as <- <-; cbn; now rewrite app_nil_r.
      + destruct (enter M _ _ _); [|discriminate]. intros E; injection E as <- <-; cbn; now rewrite app_nil_r.
  Qed.
  Lemma run_hist M n (s s' : mstate W) os : run M n s = Some (s', os) -> s_hist s' = s_hist s ++ calls os.
  Proof.
    revert s os. induction n as [|n IH]; intros s os; cbn [M_Ir.run].
    - intros E; injection E as <- <-. cbn. now rewrite app_nil_r.
    - destruct (step M s) as [[s1 o1]|] eqn:E1; [|discriminate]. destruct (run M n s1) as [[s2 o2]|] eqn:E2; [|discriminate].
      intros E; injection E as <- <-. rewrite (IH _ _ E2), (step_hist _ _ _ _ E1), calls_app. now rewrite app_assoc.
  Qed.

  (** ** Inserted code: casts and runtime calls *)
  Fixpoint pre_exec (e : regs) (h : list (rtcall val)) (p : list instr) : option (regs * list (rtcall val)) :=
    match p with
    | [] => Some (e, [])
    | ICast dst v from to :: r => pre_exec (set e dst (sext_or_trunc from to (fst (eval e v)), snd (eval e v))) h r
    | IRt dst c :: r =>
        let c' := rt_map (eval e) c in
        match pre_exec (set_opt e dst (answer h c')) (h ++ [c']) r with
        | Some (e', cs) => Some (e', c' :: cs)
        | None => None
        end
    | _ => None
    end.
  Lemma pre_app e h p q : pre_exec e h (p ++ q) =
    match pre_exec e h p with
    | Some (e1, cs) => match pre_exec e1 (h ++ cs) q with Some (e2, cs') => Some (e2, cs ++ cs') | None => None end
    | None => None
    end.
  Proof.
    revert e h. induction p as [|i p IH]; intros e h.
    - cbn. rewrite app_nil_r. now destruct (pre_exec e h q) as [[]|].
    - destruct i; cbn [app pre_exec]; try reflexivity; [apply IH|]. rewrite IH.
      destruct (pre_exec _ _ p) as [[e1 cs]|]; [|reflexivity]. rewrite <- app_assoc. cbn [app].
      now destruct (pre_exec e1 _ q) as [[]|].
  Qed.
  Lemma pre_run M p : forall fn e h e' cs rest is t d (w : W),
    pre_exec e h p = Some (e', cs) ->
    run M (length p) (mkSt (mkFrame fn (p ++ is) t e d :: rest) w h None) =
      Some (mkSt (mkFrame fn is t e' d :: rest) w (h ++ cs) None, map ORt cs).
  Proof.
    induction p as [|i p IH]; intros fn e h e' cs rest is t d w H.
    - cbn in H. injection H as <- <-. cbn. now rewrite app_nil_r.
    - destruct i; cbn [pre_exec] in H; try discriminate.
      + cbn [length M_Ir.run app]. unfold M_Ir.step. cbn [s_stack fr_ins step_instr fr_env fr_fn fr_term fr_dst s_world s_hist].
        rewrite (IH _ _ _ _ _ rest is t d w H). reflexivity.
      + destruct (pre_exec _ _ p) as [[e1 cs1]|] eqn:E; [|discriminate]. injection H as <- <-.
        cbn [length M_Ir.run app]. unfold M_Ir.step. cbn [s_stack fr_ins step_instr fr_env fr_fn fr_term fr_dst s_world s_hist].
        rewrite (IH _ _ _ _ _ rest is t d w E). rewrite <- app_assoc. reflexivity.
  Qed.

  (** ** What a pass adds *)
  Record hooks : Type := mkHooks {
    h_enter : N -> list (rtcall val);
    h_decide : N -> decision -> list (N * val) -> list (rtcall val);
    h_leave : N -> list val -> list (rtcall val) }.
  Variable H : hooks.
  (** Registers of the original function; what the instrumented one keeps about its entry. *)
  Variable bnd : N -> N.
  Variable gcond : N -> list val -> regs -> Prop.
  Hypothesis gc_set : forall i g e r v, r < bnd i -> gcond i g e -> gcond i g (set e r v).

  Fixpoint answers (h : list (rtcall val)) (cs : list (rtcall val)) : list val :=
    match cs with [] => [] | c :: r => answer h c :: answers (h ++ [c]) r end.

  Fixpoint weave (gs : list (list val)) (h : list (rtcall val)) (os : list obs) : list obs :=
    match os with
    | [] => []
    | OEnter f :: r => OEnter f :: map ORt (h_enter H f) ++ weave (answers h (h_enter H f) :: gs) (h ++ h_enter H f) r
    | ODecide f k vs :: r => map ORt (h_decide H f k vs) ++ ODecide f k vs :: weave gs (h ++ h_decide H f k vs) r
    | OLeave f :: r => map ORt (h_leave H f (hd [] gs)) ++ OLeave f :: weave (tl gs) (h ++ h_leave H f (hd [] gs)) r
    | ORt c :: r => ORt c :: weave gs (h ++ [c]) r
    end.
  (** The stack of answers afterwards. *)
  Fixpoint weave_gs (gs : list (list val)) (h : list (rtcall val)) (os : list obs) : list (list val) :=
    match os with
    | [] => gs
    | OEnter f :: r => weave_gs (answers h (h_enter H f) :: gs) (h ++ h_enter H f) r
    | ODecide f k vs :: r => weave_gs gs (h ++ h_decide H f k vs) r
    | OLeave f :: r => weave_gs (tl gs) (h ++ h_leave H f (hd [] gs)) r
    | ORt c :: r => weave_gs gs (h ++ [c]) r
    end.
  Lemma weave_app gs h os os' :
    weave gs h (os ++ os') = weave gs h os ++ weave (weave_gs gs h os) (h ++ calls (weave gs h os)) os'.
  Proof.
    revert gs h. induction os as [|o os IH]; intros gs h.
    - cbn. now rewrite app_nil_r.
    - destruct o; cbn [app weave weave_gs calls]; rewrite IH, ?calls_app, ?calls_map; cbn [calls]; rewrite ?app_assoc; cbn [app];
        rewrite <- ?app_assoc; try reflexivity.
  Qed.
  Lemma weave_gs_app gs h os os' :
    weave_gs gs h (os ++ os') = weave_gs (weave_gs gs h os) (h ++ calls (weave gs h os)) os'.
  Proof.
    revert gs h. induction os as [|o os IH]; intros gs h.
    - cbn. now rewrite app_nil_r.
    - destruct o; cbn [app weave weave_gs calls]; rewrite IH, ?calls_app, ?calls_map; cbn [calls]; rewrite ?app_assoc; try reflexivity.
      now rewrite <- app_assoc.
  Qed.

  (** ** Code with its instrumented form *)
  (** Code [p] makes the calls [cs e] and leaves registers such that [Q]. *)
  Definition pre_ok (i : N) (p : list instr) (cs : list val -> regs -> list (rtcall val)) (Q : regs -> regs -> Prop) : Prop :=
    forall g e e' h, agree (bnd i) e e' -> gcond i g e' ->
      exists e2, pre_exec e' h p = Some (e2, cs g e) /\ agree (bnd i) e e2 /\ gcond i g e2 /\ Q e e2.
  Lemma pre_none i (Q : regs -> regs -> Prop) : (forall e e', agree (bnd i) e e' -> Q e e') -> pre_ok i [] (fun _ _ => []) Q.
  Proof. intros HQ g e e' h A G. exists e'. cbn. auto. Qed.

  Inductive instr_rel (i : N) : instr -> list instr -> Prop :=
  | ir_op dst args f : i_bound (IOp dst args f) <= bnd i -> instr_rel i (IOp dst args f) [IOp dst args f]
  | ir_cast dst v a b : i_bound (ICast dst v a b : instr) <= bnd i -> instr_rel i (ICast dst v a b) [ICast dst v a b]
  | ir_call dst t args : i_bound (ICall dst t args : instr) <= bnd i -> instr_rel i (ICall dst t args) [ICall dst t args]
  | ir_rt dst c : i_bound (IRt dst c : instr) <= bnd i -> instr_rel i (IRt dst c) [IRt dst c]
  | ir_gep dst b idxs idxs' f p : i_bound (IGep dst b idxs f : instr) <= bnd i ->
      pre_ok i p (fun _ e => h_decide H i DIndex (varying e idxs)) (fun e e2 =>
        map (fun i => at_width (snd i) (eval e2 (fst i))) idxs' = map (fun i => at_width (snd i) (eval e (fst i))) idxs /\
        varying e2 idxs' = varying e idxs) ->
      instr_rel i (IGep dst b idxs f) (p ++ [IGep dst b idxs' f])
  | ir_select dst c c' a b f p : i_bound (ISelect dst c a b f : instr) <= bnd i ->
      pre_ok i p (fun _ e => h_decide H i DSelect [(1, at_width 1 (eval e c))]) (fun e e2 => at_width 1 (eval e2 c') = at_width 1 (eval e c)) ->
      instr_rel i (ISelect dst c a b f) (p ++ [ISelect dst c' a b f]).

  Inductive term_rel (i : N) : term -> list instr -> term -> Prop :=
  | tr_br t : term_rel i (TBr t) [] (TBr t)
  | tr_stop : term_rel i TStop [] TStop
  | tr_cond c c' y n p :
      pre_ok i p (fun _ e => h_decide H i DBranch [(1, at_width 1 (eval e c))]) (fun e e2 => at_width 1 (eval e2 c') = at_width 1 (eval e c)) ->
      term_rel i (TCondBr c y n) p (TCondBr c' y n)
  | tr_switch c c' w cases d p :
      pre_ok i p (fun _ e => h_decide H i DSwitch [(w, at_width w (eval e c))]) (fun e e2 => at_width w (eval e2 c') = at_width w (eval e c)) ->
      term_rel i (TSwitch c w cases d) p (TSwitch c' w cases d)
  | tr_ret v p :
      pre_ok i p (fun g _ => h_leave H i g) (fun e e2 => eval e2 v = eval e v) ->
      term_rel i (TRet v) p (TRet v).

  Definition code_rel (i : N) (is : list instr) (t : term) (is' : list instr) (t' : term) : Prop :=
    exists chunks p, is' = concat chunks ++ p /\ Forall2 (instr_rel i) is chunks /\ term_rel i t p t'.
  Definition block_rel (i : N) (b b' : block) : Prop := code_rel i (b_ins b) (b_term b) (b_ins b') (b_term b').

  (** Code for the entry block: [p] before the rest. *)
  Definition entry_ok (i : N) (p : list instr) : Prop :=
    forall e h, exists e2, pre_exec e h p = Some (e2, h_enter H i) /\ agree (bnd i) e e2 /\ gcond i (answers h (h_enter H i)) e2.
  Definition func_rel (i : N) (f f' : func) : Prop :=
    match f_blocks f, f_blocks f' with
    | [], [] => True
    | b :: bs, b' :: bs' =>
        (exists p is', b_ins b' = p ++ is' /\ entry_ok i p /\ code_rel i (b_ins b) (b_term b) is' (b_term b')) /\
        Forall2 (block_rel i) bs bs' /\ Forall (fun b => ~ In 0 (targets (b_term b))) (b :: bs)
    | _, _ => False
    end.
  Variables M M' : modul.
  Hypothesis Hlen : length M = length M'.
  Hypothesis HM : forall i f f', get M i = Some f -> get M' i = Some f' -> func_rel i f f'.
  (** Answers to the calls of the original module are not disturbed. *)
  Variable quiet : bool.
  Hypothesis Hans : fair answer.
  Hypothesis Hquiet : quiet = true -> forall i k vs g,
    filter is_entry (h_enter H i) = [] /\ filter is_entry (h_decide H i k vs) = [] /\ filter is_entry (h_leave H i g) = [].
  Hypothesis Hnone : quiet = false -> calls_none is_entry M.

  Definition hist_rel (h h' : list (rtcall val)) : Prop := quiet = true -> filter is_entry h = filter is_entry h'.

  (** Where the code of a frame comes from. *)
  Definition in_module (fr : frame W) : Prop :=
    (quiet = false -> Forall (fun i => match i with IRt _ c => is_entry c = false | _ => True end) (fr_ins fr)) /\
    ~ In 0 (targets (fr_term fr)).
  Definition frame_rel (g : list val) (fr fr' : frame W) : Prop :=
    fr_fn fr = fr_fn fr' /\ fr_dst fr = fr_dst fr' /\ agree (bnd (fr_fn fr)) (fr_env fr) (fr_env fr') /\
    gcond (fr_fn fr) g (fr_env fr') /\ code_rel (fr_fn fr) (fr_ins fr) (fr_term fr) (fr_ins fr') (fr_term fr') /\ in_module fr.
  Inductive stack_rel : list (list val) -> list (frame W) -> list (frame W) -> Prop :=
  | sr_nil : stack_rel [] [] []
  | sr_one g fr fr' : frame_rel g fr fr' -> stack_rel [g] [fr] [fr']
  | sr_cons g gs fr fr' c c' st st' : frame_rel g fr fr' -> fr_dst fr < bnd (fr_fn c) ->
      stack_rel gs (c :: st) (c' :: st') -> stack_rel (g :: gs) (fr :: c :: st) (fr' :: c' :: st').
  Definition state_rel (gs : list (list val)) (s s' : mstate W) : Prop :=
    stack_rel gs (s_stack s) (s_stack s') /\ s_world s = s_world s' /\ hist_rel (s_hist s) (s_hist s') /\ s_result s = s_result s'.

  Lemma hist_more h h' cs : hist_rel h h' -> (quiet = true -> filter is_entry cs = []) -> hist_rel h (h' ++ cs).
  Proof. intros R Q E. rewrite filter_app, Q, app_nil_r by exact E. now apply R. Qed.
  Lemma hist_both h h' c : hist_rel h h' -> hist_rel (h ++ [c]) (h' ++ [c]).
  Proof. intros R E. rewrite !filter_app. now rewrite R. Qed.

  Lemma get_both (i : N) f : get M i = Some f -> exists f', get M' i = Some f' /\ func_rel i f f'.
  Proof.
    intros G. unfold get in *. assert (nth_error M (N.to_nat i) <> None) as L by congruence. apply nth_error_Some in L. rewrite Hlen in L.
    destruct (nth_error M' (N.to_nat i)) as [f'|] eqn:E; [|apply nth_error_Some in L; contradiction].
    exists f'. split; [reflexivity|]. now apply HM.
  Qed.

  (** Frames entered or jumped to come from the module. *)
  Lemma none_block f b : In f M -> In b (f_blocks f) -> quiet = false -> Forall (fun i => match i with IRt _ c => is_entry c = false | _ => True end) (b_ins b).
  Proof.
    intros If Ib Q. specialize (Hnone Q). unfold calls_none in Hnone. rewrite Forall_forall in Hnone. specialize (Hnone f If).
    rewrite Forall_forall in Hnone. now apply Hnone.
  Qed.
  Lemma get_in {A} (l : list A) i x : get l i = Some x -> In x l.
  Proof. apply nth_error_In. Qed.

  Lemma enter_sim i args dst fr : enter M i args dst = Some fr ->
    exists fr' p, enter M' i args dst = Some fr' /\ fr_fn fr = i /\ fr_fn fr' = i /\ fr_dst fr = dst /\ fr_dst fr' = dst /\
      fr_env fr = fr_env fr' /\ entry_ok i p /\ in_module fr /\
      exists is', fr_ins fr' = p ++ is' /\ code_rel i (fr_ins fr) (fr_term fr) is' (fr_term fr').
  Proof.
    unfold enter. destruct (get M i) as [f|] eqn:G; [|discriminate]. destruct (get_both i f G) as (f' & G' & R). rewrite G'.
    unfold func_rel in R. destruct (f_blocks f) as [|b bs] eqn:Eb; [discriminate|]. destruct (f_blocks f') as [|b' bs']; [contradiction|].
    destruct R as ((p & is' & E & En & C) & _ & V). intros X. injection X as <-.
    eexists. exists p. split; [reflexivity|]. cbn [fr_fn fr_dst fr_env fr_ins fr_term]. do 5 (split; [reflexivity|]). split; [exact En|].
    split; [|exists is'; auto]. split; cbn [fr_ins fr_term].
    - intros Q. apply (none_block f); auto using (get_in M i f G). rewrite Eb. now left.
    - inversion V; auto.
  Qed.

  Lemma Forall2_get {A B} (R : A -> B -> Prop) l l' i x : Forall2 R l l' -> get l i = Some x -> exists y, get l' i = Some y /\ R x y.
  Proof.
    unfold get. intros F. generalize (N.to_nat i). induction F as [|a b l l' Rab F IH]; intros [|n] E; cbn in *; try discriminate; eauto.
    injection E as <-. eauto.
  Qed.

  Lemma goto_sim (fr fr' : frame W) e e' d t fr1 : fr_fn fr = fr_fn fr' -> t <> 0 ->
    goto M (mkFrame (fr_fn fr) [] (fr_term fr) e d) t = Some fr1 ->
    exists fr1', goto M' (mkFrame (fr_fn fr') [] (fr_term fr') e' d) t = Some fr1' /\ fr_fn fr1 = fr_fn fr /\ fr_fn fr1' = fr_fn fr /\
      fr_dst fr1 = d /\ fr_dst fr1' = d /\ fr_env fr1 = e /\ fr_env fr1' = e' /\ in_module fr1 /\
      code_rel (fr_fn fr) (fr_ins fr1) (fr_term fr1) (fr_ins fr1') (fr_term fr1').
  Proof.
    intros Ef Nt. unfold goto. cbn [fr_fn fr_env fr_dst]. rewrite <- Ef. destruct (get M (fr_fn fr)) as [f|] eqn:G; [|discriminate].
    destruct (get_both _ f G) as (f' & G' & R). rewrite G'.
    destruct (get (f_blocks f) t) as [b|] eqn:Gb; [|discriminate]. intros X. injection X as <-.
    unfold func_rel in R. destruct (f_blocks f) as [|b0 bs] eqn:Eb; [now destruct (N.to_nat t) eqn:Et; unfold get in Gb; rewrite Et in Gb|].
    destruct (f_blocks f') as [|b0' bs'] eqn:Eb'; [contradiction|]. destruct R as (_ & F & V).
    assert (exists b', get (b0' :: bs') t = Some b' /\ block_rel (fr_fn fr) b b' /\ In b bs) as (b' & Gb' & Rb & Ib).
    { unfold get in *. destruct (N.to_nat t) as [|n] eqn:Et; [lia|]. cbn in *.
      destruct (Forall2_get _ _ _ (N.of_nat n) b F) as (y & Gy & Ry); [unfold get; now rewrite Nat2N.id|]. unfold get in Gy. rewrite Nat2N.id in Gy.
      eauto using nth_error_In. }
    rewrite Gb'. eexists. split; [reflexivity|]. cbn [fr_fn fr_dst fr_env fr_ins fr_term]. do 6 (split; [reflexivity|]). split; [|exact Rb]. split; cbn [fr_ins fr_term].
    - intros Q. apply (none_block f); auto using (get_in M _ f G). rewrite Eb. now right.
    - rewrite Forall_forall in V. apply V. now right.
  Qed.

  Lemma pick_in cases d v : In (pick cases d v) (d :: map snd cases).
  Proof. induction cases as [|[c t] r IH]; cbn; [auto|]. destruct (c =? v); [auto|]. destruct IH; auto. Qed.

  Lemma stack_top g gs fr fr' st st' : stack_rel (g :: gs) (fr :: st) (fr' :: st') -> frame_rel g fr fr'.
  Proof. intros S. inversion S; auto. Qed.
  Lemma stack_new g gs fr fr' fr1 fr1' st st' : stack_rel (g :: gs) (fr :: st) (fr' :: st') -> frame_rel g fr1 fr1' ->
    fr_dst fr1 = fr_dst fr -> stack_rel (g :: gs) (fr1 :: st) (fr1' :: st').
  Proof. intros S F D. inversion S; subst; constructor; auto. now rewrite D. Qed.

  Lemma run_res M0 m st (w : W) h r r' : (1 <= m)%nat -> run M0 m (mkSt st w h r) = run M0 m (mkSt st w h r').
  Proof. destruct m; [lia|]. reflexivity. Qed.

  (** One step of the original is some steps of the instrumented module. *)
  Lemma step_sim gs s s' s1 os : state_rel gs s s' -> step M s = Some (s1, os) ->
    exists m s1', (1 <= m)%nat /\ run M' m s' = Some (s1', weave gs (s_hist s') os) /\ state_rel (weave_gs gs (s_hist s') os) s1 s1'.
  Proof.
    intros (Sr & Ew & Hr & Er) St. destruct s as [st w h res], s' as [st' w' h' res']. cbn [s_stack s_world s_hist s_result] in *. subst w' res'.
    unfold M_Ir.step in St. cbn [s_stack s_world s_hist] in St. destruct st as [|fr st]; [discriminate|].
    destruct st' as [|fr' st']; [inversion Sr|]. destruct gs as [|g gs]; [inversion Sr|].
    assert (Fr := stack_top _ _ _ _ _ _ Sr). destruct Fr as (Ef & Ed & Ag & Gc & (chunks & p & Ei & F2 & Tr) & (In1 & In2)).
    destruct fr as [fn ins t e d], fr' as [fn' ins' t' e' d']. cbn [fr_fn fr_ins fr_term fr_env fr_dst] in *. subst fn' d' ins'.
    cut (exists m s1', (1 <= m)%nat /\ run M' m (mkSt (mkFrame fn (concat chunks ++ p) t' e' d :: st') w h' None) = Some (s1', weave (g :: gs) h' os) /\
           state_rel (weave_gs (g :: gs) h' os) s1 s1').
    { intros (m & s1' & L & R & S1). exists m, s1'. split; [exact L|]. split; [|exact S1]. now rewrite (run_res M' m _ w h' res None L). }
    destruct ins as [|i is].
    - (* terminator *)
      inversion F2; subst chunks. cbn [concat app] in *. clear F2.
      unfold step_term in St. cbn [fr_fn fr_term fr_env] in St.
      assert (Jump : forall q e2 cs tgt t2 os', term_rel fn t q t2 -> pre_exec e' h' p = Some (e2, cs) -> agree (bnd fn) e e2 -> gcond fn g e2 ->
                (quiet = true -> filter is_entry cs = []) -> tgt <> 0 ->
                match goto M (mkFrame fn [] t e d) tgt with Some fr' => Some (mkSt (fr' :: st) w h None, os') | None => None end = Some (s1, os) ->
                (forall fr1', goto M' (mkFrame fn [] t' e2 d) tgt = Some fr1' ->
                   step M' (mkSt (mkFrame fn [] t' e2 d :: st') w (h' ++ cs) None) = Some (mkSt (fr1' :: st') w (h' ++ cs) None, os')) ->
                exists s1', run M' (length p + 1) (mkSt (mkFrame fn p t' e' d :: st') w h' None) = Some (s1', map ORt cs ++ os') /\
                  os = os' /\ s_hist s1' = h' ++ cs /\ state_rel (g :: gs) s1 s1').
      { intros q e2 cs tgt t2 os' _ Pe Ag2 Gc2 Qc Nt Go St2. destruct (goto M (mkFrame fn [] t e d) tgt) as [fr1|] eqn:G1; [|discriminate]. injection Go as <- <-.
        destruct (goto_sim (mkFrame fn [] t e d) (mkFrame fn p t' e' d) e e2 d tgt fr1 eq_refl Nt G1) as (fr1' & G1' & E1 & E2 & E3 & E4 & E5 & E6 & Im & Co).
        cbn [fr_fn fr_term] in *. specialize (St2 fr1' G1'). exists (mkSt (fr1' :: st') w (h' ++ cs) None). split; [|split; [reflexivity|split; [reflexivity|]]].
        - rewrite run_app. pose proof (pre_run M' p fn e' h' e2 cs st' [] t' d w Pe) as Pr. rewrite app_nil_r in Pr. rewrite Pr. now rewrite (run_one _ _ _ _ St2).
        - split; [|split; [reflexivity|split; [now apply hist_more|reflexivity]]]. cbn [s_stack]. eapply stack_new; [exact Sr| |cbn [fr_dst]; congruence].
          split; [congruence|]. split; [congruence|]. rewrite E1, E5, E6. split; [exact Ag2|]. split; [exact Gc2|]. split; [exact Co|exact Im]. }
      destruct Tr as [tgt| |c c' y n p Pk|c c' n cases def p Pk|v p Pk].
      + (* br *) destruct (Jump [] e' [] tgt (TBr tgt) []) as (s1' & R & -> & Hh & Sr'); auto using tr_br; try (intros E; apply In2; cbn; auto; fail).
        { intros fr1' G. unfold M_Ir.step. cbn [s_stack fr_ins s_world s_hist]. unfold step_term. cbn [fr_term]. rewrite G. reflexivity. }
        exists 1%nat, s1'. split; [lia|]. split; [exact R|]. exact Sr'.
      + discriminate.
      + (* conditional *)
        destruct (Pk g e e' h' Ag Gc) as (e2 & Pe & Ag2 & Gc2 & Qe).
        destruct (Jump p e2 _ (if fst (at_width 1 (eval e c)) =? 0 then n else y) (TCondBr c' y n) [ODecide fn DBranch [(1, at_width 1 (eval e c))]]
                   (tr_cond fn c c' y n p Pk) Pe Ag2 Gc2) as (s1' & R & -> & Hh & Sr'); auto.
        { intros Q. now apply (Hquiet Q). }
        { intros E. apply In2. cbn [targets]. destruct (_ =? 0) in E; subst; cbn; auto. }
        { intros fr1' G. unfold M_Ir.step. cbn [s_stack fr_ins s_world s_hist]. unfold step_term. cbn [fr_term fr_env fr_fn]. rewrite Qe, G. reflexivity. }
        exists (length p + 1)%nat, s1'. split; [lia|]. split; [exact R|]. cbn [weave_gs]. exact Sr'.
      + (* switch *)
        destruct (Pk g e e' h' Ag Gc) as (e2 & Pe & Ag2 & Gc2 & Qe).
        destruct (Jump p e2 _ (pick cases def (fst (at_width n (eval e c)))) (TSwitch c' n cases def) [ODecide fn DSwitch [(n, at_width n (eval e c))]]
                   (tr_switch fn c c' n cases def p Pk) Pe Ag2 Gc2) as (s1' & R & -> & Hh & Sr'); auto.
        { intros Q. now apply (Hquiet Q). }
        { intros E. apply In2. cbn [targets]. rewrite <- E. apply pick_in. }
        { intros fr1' G. unfold M_Ir.step. cbn [s_stack fr_ins s_world s_hist]. unfold step_term. cbn [fr_term fr_env fr_fn]. rewrite Qe, G. reflexivity. }
        exists (length p + 1)%nat, s1'. split; [lia|]. split; [exact R|]. cbn [weave_gs]. exact Sr'.
      + (* return *)
        clear Jump. destruct (Pk g e e' h' Ag Gc) as (e2 & Pe & Ag2 & Gc2 & Qe).
        pose proof (pre_run M' p fn e' h' e2 _ st' [] (TRet v) d w Pe) as Pr. rewrite app_nil_r in Pr.
        destruct st as [|c st].
        * inversion Sr; subst st'. injection St as <- <-. exists (length p + 1)%nat. eexists. split; [lia|].
          split. { rewrite run_app, Pr. cbn [weave hd tl]. erewrite run_one; [reflexivity|]. unfold M_Ir.step. cbn. rewrite Qe. reflexivity. }
          cbn [weave_gs hd tl]. split; [|split; [reflexivity|split; [|reflexivity]]]. { cbn. inversion Sr; subst. constructor. }
          cbn [s_hist]. apply hist_more; auto. intros Q. now apply (Hquiet Q fn DIndex [] g).
        * inversion Sr as [| |g0 gs0 fr0 fr0' c0 c' st0 st0' Fr Dc Sr2]; subst. injection St as <- <-.
          exists (length p + 1)%nat. eexists. split; [lia|].
          split. { rewrite run_app, Pr. cbn [weave hd tl]. erewrite run_one; [reflexivity|]. unfold M_Ir.step. cbn. rewrite Qe. reflexivity. }
          cbn [weave_gs hd tl fr_dst] in *. split; [|split; [reflexivity|split; [|reflexivity]]].
          -- cbn [s_stack]. destruct gs as [|gc gs]; [inversion Sr2|]. assert (Fc := stack_top _ _ _ _ _ _ Sr2).
             eapply stack_new; [exact Sr2| |reflexivity]. destruct Fc as (A1 & A2 & A3 & A4 & A5 & A6).
             split; [exact A1|]. split; [exact A2|]. cbn [fr_fn fr_env fr_ins fr_term]. split; [now apply agree_set|]. split; [now apply gc_set|]. split; [exact A5|exact A6].
          -- cbn [s_hist]. apply hist_more; auto. intros Q. now apply (Hquiet Q fn DIndex [] g).
    - (* instruction *)
      inversion F2 as [|i0 ch is0 chunks' Ir F3]; subst chunks i0 is0. cbn [concat] in *. rewrite <- app_assoc in *.
      assert (In1' : quiet = false -> Forall (fun i => match i with IRt _ c => is_entry c = false | _ => True end) is) by (intros Q; specialize (In1 Q); now inversion In1).
      assert (Next : forall e1 e1' h1 h1' w1, agree (bnd fn) e1 e1' -> gcond fn g e1' -> hist_rel h1 h1' ->
        state_rel (g :: gs) (mkSt (mkFrame fn is t e1 d :: st) w1 h1 None) (mkSt (mkFrame fn (concat chunks' ++ p) t' e1' d :: st') w1 h1' None)).
      { intros e1 e1' h1 h1' w1 A1 G1 H1. split; [|split; [reflexivity|split; [exact H1|reflexivity]]]. cbn [s_stack]. eapply stack_new; [exact Sr| |reflexivity].
        split; [reflexivity|]. split; [reflexivity|]. split; [exact A1|]. split; [exact G1|]. split; [|split; assumption]. exists chunks', p. auto. }
      assert (Bs : forall (r : N) v, r < bnd fn -> gcond fn g (set e' r v)) by (intros; now apply gc_set).
      unfold step_instr in St. cbn [fr_fn fr_term fr_env fr_dst] in St.
      destruct Ir as [dst args f B|dst v a b B|dst tg args B|dst c B|dst b idxs idxs' f q B Pk|dst c c' a b f q B Pk]; cbn [i_bound] in B.
      + rewrite (agree_evals (bnd fn) e e' args) in St by (auto; lia). destruct (f (map (eval e') args) w) as [[v w1]|] eqn:Ef2; [|discriminate]. injection St as <- <-.
        exists 1%nat. eexists. split; [lia|]. split. { apply run_one. unfold M_Ir.step. cbn. rewrite Ef2. reflexivity. }
        cbn [weave_gs]. apply Next; auto using agree_set. apply Bs. lia.
      + injection St as <- <-. exists 1%nat. eexists. split; [lia|]. split. { apply run_one. reflexivity. }
        cbn [weave_gs]. rewrite (agree_eval (bnd fn) e e' v) by (auto; lia). apply Next; auto using agree_set. apply Bs. lia.
      + rewrite (agree_eval (bnd fn) e e' tg) in St by (auto; lia). rewrite (agree_evals (bnd fn) e e' args) in St by (auto; lia).
        destruct (enter M (fst (eval e' tg)) (map (eval e') args) dst) as [fr1|] eqn:En; [|discriminate]. injection St as <- <-.
        destruct (enter_sim _ _ _ _ En) as (fr1' & pe & En' & E1 & E2 & E3 & E4 & E5 & Eo & Im & is1 & Ei1 & Co).
        destruct (Eo (fr_env fr1') h') as (e2 & Pe & Ag2 & Gc2). destruct fr1' as [fn1 ins1 t1 e1 d1], fr1 as [fn2 ins2 t2 e20 d2]. cbn [fr_fn fr_ins fr_term fr_env fr_dst] in *.
        subst. exists (1 + length pe)%nat. eexists. split; [lia|]. cbn [weave weave_gs app]. rewrite app_nil_r. split.
        { rewrite run_app. erewrite run_one; [|unfold M_Ir.step; cbn; rewrite En'; reflexivity]. rewrite (pre_run M' pe _ _ _ _ _ _ _ _ _ _ Pe). reflexivity. }
        split; [|split; [reflexivity|split; [|reflexivity]]].
        * cbn [s_stack]. apply sr_cons; [| cbn [fr_fn fr_dst]; lia |].
          -- split; [reflexivity|]. split; [reflexivity|]. cbn [fr_fn fr_env fr_ins fr_term]. split; [exact Ag2|]. split; [exact Gc2|]. split; [exact Co|exact Im].
          -- apply (Next e e' h h' w Ag Gc Hr).
        * cbn [s_hist]. apply hist_more; auto. intros Q. now apply (Hquiet Q (fst (eval e' tg)) DIndex [] []).
      + injection St as <- <-. assert (Ec : rt_map (eval e) c = rt_map (eval e') c).
        { destruct c; cbn [rt_map rt_bound] in *; try reflexivity; now rewrite (agree_eval (bnd fn) e e') by (auto; lia). }
        rewrite Ec. assert (Ea : answer h (rt_map (eval e') c) = answer h' (rt_map (eval e') c)).
        { destruct quiet eqn:Q; [now apply (fair_entry _ Hans), Hr|]. apply (fair_other _ Hans). specialize (In1 eq_refl). inversion In1; subst. now destruct c. }
        rewrite Ea. exists 1%nat. eexists. split; [lia|]. split. { apply run_one. reflexivity. }
        cbn [weave_gs]. apply Next; [| |now apply hist_both].
        * destruct dst; cbn [set_opt]; auto using agree_set.
        * destruct dst; cbn [set_opt]; auto. apply Bs. lia.
      + injection St as <- <-. destruct (Pk g e e' h' Ag Gc) as (e2 & Pe & Ag2 & Gc2 & Q1 & Q2). rewrite <- app_assoc. cbn [app].
        exists (length q + 1)%nat. eexists. split; [lia|]. cbn [weave weave_gs]. split.
        { rewrite run_app, (pre_run M' q _ _ _ _ _ _ _ _ _ _ Pe). erewrite run_one; [reflexivity|]. unfold M_Ir.step. cbn. rewrite Q1, Q2. reflexivity. }
        rewrite (agree_eval (bnd fn) e e2 b) by (auto; lia). apply Next; auto using agree_set; [apply gc_set; auto; lia|]. apply hist_more; auto. intros Q. now apply (Hquiet Q).
      + injection St as <- <-. destruct (Pk g e e' h' Ag Gc) as (e2 & Pe & Ag2 & Gc2 & Q1). rewrite <- app_assoc. cbn [app].
        exists (length q + 1)%nat. eexists. split; [lia|]. cbn [weave weave_gs]. split.
        { rewrite run_app, (pre_run M' q _ _ _ _ _ _ _ _ _ _ Pe). erewrite run_one; [reflexivity|]. unfold M_Ir.step. cbn. rewrite Q1. reflexivity. }
        rewrite (agree_eval (bnd fn) e e2 a), (agree_eval (bnd fn) e e2 b) by (auto; lia). apply Next; auto using agree_set; [apply gc_set; auto; lia|]. apply hist_more; auto. intros Q. now apply (Hquiet Q).
  Qed.

  Lemma run_sim n : forall gs s s' s1 os, state_rel gs s s' -> run M n s = Some (s1, os) ->
    exists m s1', (n <= m)%nat /\ run M' m s' = Some (s1', weave gs (s_hist s') os) /\ state_rel (weave_gs gs (s_hist s') os) s1 s1'.
  Proof.
    induction n as [|n IH]; intros gs s s' s1 os Sr R; cbn [M_Ir.run] in R.
    - injection R as <- <-. exists O, s'. split; [lia|]. split; [reflexivity|exact Sr].
    - destruct (step M s) as [[sm o1]|] eqn:St; [|discriminate]. destruct (run M n sm) as [[s2 o2]|] eqn:R2; [|discriminate]. injection R as <- <-.
      destruct (step_sim gs s s' sm o1 Sr St) as (m1 & sm' & L1 & R1 & Sr1).
      destruct (IH _ _ sm' _ _ Sr1 R2) as (m2 & s2' & L2 & R2' & Sr2). exists (m1 + m2)%nat, s2'. split; [lia|].
      assert (Eh := run_hist _ _ _ _ _ R1). split.
      + rewrite run_app, R1, R2', weave_app, Eh. reflexivity.
      + rewrite weave_gs_app, <- Eh. exact Sr2.
  Qed.

  Lemma state_looks gs s s' : state_rel gs s s' -> looks_same s s'.
  Proof.
    intros (Sr & Ew & _ & Er). split; [exact Er|]. split; [exact Ew|].
    induction Sr as [|g fr fr' (Ef & _)|g gs fr fr' c c' st st' (Ef & _) _ _ IH]; cbn [map] in *; congruence.
  Qed.

  Theorem exec_sim f args w n s os : execution answer M f args w n = Some (s, os) ->
    exists m s', (n <= m)%nat /\ execution answer M' f args w m = Some (s', weave [] [] os) /\ looks_same s s'.
  Proof.
    unfold execution, start. destruct (enter M f args 0) as [fr|] eqn:En; [|discriminate].
    destruct (run M n (mkSt [fr] w [] None)) as [[s1 o1]|] eqn:R; [|discriminate]. intros X. injection X as <- <-.
    destruct (enter_sim _ _ _ _ En) as (fr' & pe & En' & E1 & E2 & E3 & E4 & E5 & Eo & Im & is1 & Ei1 & Co). rewrite En'.
    destruct (Eo (fr_env fr') []) as (e2 & Pe & Ag2 & Gc2). destruct fr' as [fn1 ins1 t1 e1 d1], fr as [fn2 ins2 t2 e20 d2]. cbn [fr_fn fr_ins fr_term fr_env fr_dst] in *.
    subst. pose proof (pre_run M' pe f e1 [] e2 _ [] is1 t1 0 w Pe) as Pr.
    destruct (run_sim n [answers [] (h_enter H f)] (mkSt [mkFrame f ins2 t2 e1 0] w [] None) (mkSt [mkFrame f is1 t1 e2 0] w (h_enter H f) None) s1 o1) as (m & s1' & L & R' & Sr); [|exact R|].
    - split; [|split; [reflexivity|split; [|reflexivity]]]; cbn [s_stack s_hist].
      + apply sr_one. split; [reflexivity|]. split; [reflexivity|]. cbn [fr_fn fr_env fr_ins fr_term]. split; [exact Ag2|]. split; [exact Gc2|]. split; [exact Co|exact Im].
      + intros Q. symmetry. apply (Hquiet Q f DIndex [] []).
    - exists (length pe + m)%nat, s1'. split; [lia|]. split; [|now apply (state_looks _ _ _ Sr)].
      cbn [app] in Pr. rewrite run_app, Pr. cbn [s_hist] in R'. rewrite R'. cbn [app weave]. reflexivity.
  Qed.
End Sim.
