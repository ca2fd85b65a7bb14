(** Watching does not change the program; the control-flow log follows its calls. *)
From Coq Require Import NArith ZArith List Bool Lia.
From Verif Require Import M_Base M_Memory M_Functions M_CfLog M_PySections M_Dfsan M_Llvm M_LlvmPasses
  S_Functions S_Api S_Runtime S_CallStack S_DataFlow S_Demand S_Watch P_Base P_CfLog P_ApiMem P_Watch P_WatchStep.
Import ListNotations.
Open Scope N_scope.

(** ** Erasure *)
Definition twin (fr fr2 : frame) : Prop := exists d, fr2 = mkFrame (f_fn fr) (f_blk fr) (f_rest fr) (f_term fr) (f_regs fr) d (f_dst fr).
Definition twins (S S2 : sstate) : Prop := Forall2 twin (s_frames S) (s_frames S2) /\ s_mem S = s_mem S2.
Lemma twin_refl fr : twin fr fr.
Proof. exists (f_deps fr). now destruct fr. Qed.
Lemma twins_refl S : twins S S.
Proof. split; [|reflexivity]. induction (s_frames S); constructor; auto using twin_refl. Qed.

Lemma flow_any lossy i e d s d1 s1 d' s' : flow_exec lossy i e d s = Ok (d1, s1) -> exists d2 s2, flow_exec lossy i e d' s' = Ok (d2, s2).
Proof.
  intros E. destruct i; cbn [flow_exec] in *; repeat match type of E with (do x <- ?q; _) = _ => destruct q; cbn [bind] in *; try discriminate end; try discriminate; try (do 2 eexists; reflexivity).
  destruct lossy; do 2 eexists; reflexivity.
Qed.
Lemma enter_twin c f vals ds ds' dst fr : enter c f vals ds dst = Ok fr -> exists fr', enter c f vals ds' dst = Ok fr' /\ twin fr fr'.
Proof.
  unfold enter. destruct (fn_blocks f) as [|b bs]; [discriminate|]. destruct (len vals =? len (fn_params f)); [|discriminate]. intros E. injection E as <-. eexists. split; [reflexivity|]. eexists. reflexivity.
Qed.
Lemma result_twin fr fr2 v ds ds' dst fr1 : twin fr fr2 -> set_result fr v ds dst = Ok fr1 -> exists fr1', set_result fr2 v ds' dst = Ok fr1' /\ twin fr1 fr1'.
Proof.
  intros [d ->] E. unfold set_result in *. destruct dst as [x|]; [|injection E as <-; eexists; split; [reflexivity|now exists d]].
  destruct v as [w|]; [|discriminate]. injection E as <-. eexists. split; [reflexivity|]. eexists. reflexivity.
Qed.
Lemma step_twin lossy argv P S a S1 S2 : twins S S2 -> sstep lossy argv P S a = Ok S1 -> exists S3, sstep lossy argv P S2 a = Ok S3 /\ twins S1 S3.
Proof.
  intros [F Em] E. unfold sstep in *. destruct F as [|fr fr2 below below2 T F]; [discriminate|]. assert (T0 := T). destruct T as [d ->]. cbn [f_fn f_blk f_rest f_term f_regs f_deps f_dst]. rewrite <- Em.
  destruct (f_rest fr) as [|i rest].
  - destruct (f_term fr) as [x|c x y|c cases df|v].
    4: { destruct F as [|caller caller2 below' below2' Tc F].
      - destruct (match v with Some o => value (f_regs fr) o | None => Ok 0 end); try discriminate. cbn [bind] in *. injection E as <-. eexists. split; [reflexivity|]. split; [constructor|reflexivity].
      - destruct (match v with Some o => do x <- value (f_regs fr) o; Ok (Some x) | None => Ok None end) as [r| | |]; try discriminate. cbn [bind] in *.
        destruct (set_result caller r _ (f_dst fr)) as [caller'| | |] eqn:Sr; try discriminate. cbn [bind] in E. injection E as <-.
        destruct (result_twin caller caller2 r _ (match v with Some o => dep d o | None => [] end) (f_dst fr) caller' Tc Sr) as (c3 & -> & Tc3). cbn [bind]. eexists. split; [reflexivity|]. split; [|exact eq_refl]. cbn [s_frames]. now constructor. }
    all: match type of E with (do b <- ?q; _) = _ => destruct q as [b| | |]; try discriminate end; cbn [bind] in *; destruct (get P (f_fn fr)) as [f|]; [|discriminate]; destruct (get (fn_blocks f) b) as [blk|]; [|discriminate];
      destruct (incoming (f_blk fr) (b_phis blk)) as [inc| | |]; try discriminate; cbn [bind] in *; destruct (pairs _ inc) as [vs| | |] eqn:Ev; try discriminate; cbn [bind] in *;
      destruct (pairs (fun o => Ok (dep (f_deps fr) o)) inc) as [ds| | |] eqn:Ed; try discriminate; cbn [bind] in *; injection E as <-;
      assert (Q : exists ds2, pairs (fun o => Ok (dep d o)) inc = Ok ds2) by (clear; induction inc as [|[x o] inc [l IH]]; [eexists; reflexivity|]; cbn [pairs bind]; rewrite IH; eexists; reflexivity);
      destruct Q as [ds2 ->]; cbn [bind]; eexists; (split; [reflexivity|]); (split; [|exact eq_refl]); cbn [s_frames]; constructor; [eexists; reflexivity|exact F].
  - destruct i as [dst ops f|dst ptr size const|v ptr size atomic|dst ptr v size f|dst x|x v atomic|dst c x y|ptr v k|dst src k|dst|dst callee args|dst k args].
    11: { destruct (value (f_regs fr) callee) as [c| | |]; try discriminate. cbn [bind] in *. destruct (values (f_regs fr) args) as [vals| | |]; try discriminate. cbn [bind] in *.
      destruct (get P c) as [f|]; [|discriminate]. destruct (fn_native f); [discriminate|]. destruct (enter c f vals _ dst) as [new| | |] eqn:En; try discriminate. cbn [bind] in E. injection E as <-.
      destruct (enter_twin _ _ _ _ (arg_deps lossy (map (dep d) args)) _ _ En) as (new2 & -> & Tn). cbn [bind]. eexists. split; [reflexivity|]. split; [|exact eq_refl]. cbn [s_frames]. constructor; [exact Tn|]. constructor; [eexists; reflexivity|exact F]. }
    11: { destruct (values (f_regs fr) args) as [vals| | |]; try discriminate. cbn [bind] in *. destruct (lib_event k vals (s_mem S) a) as [v| | |]; try discriminate. cbn [bind] in *.
      match type of E with (do fr' <- set_result ?f ?v ?ds ?dst; _) = _ => destruct (set_result f v ds dst) as [fr1| | |] eqn:Sr; try discriminate end. cbn [bind] in E. injection E as <-.
      match type of Sr with set_result ?f0 _ _ _ = _ => match goal with |- exists S3, (do fr' <- set_result ?f ?v ?ds ?dst; _) = _ /\ _ => destruct (result_twin f0 f v _ ds dst fr1 (ex_intro _ d eq_refl) Sr) as (fr3 & -> & T3) end end.
      cbn [bind]. eexists. split; [reflexivity|]. split; [|exact eq_refl]. cbn [s_frames]. now constructor. }
    all: match type of E with (do em <- ?q; _) = _ => destruct q as [em| | |]; try discriminate end; cbn [bind] in *;
      match type of E with (do ds <- flow_exec ?l ?i ?e ?d ?s; _) = _ => destruct (flow_exec l i e d s) as [[d1 s1]| | |] eqn:Fe; try discriminate end; cbn [bind] in *; injection E as <-;
      destruct (flow_any _ _ _ _ _ _ _ d (s_ast S2) Fe) as (d2 & s2 & ->); cbn [bind fst snd]; eexists; (split; [reflexivity|]); (split; [|exact eq_refl]); cbn [s_frames]; constructor; [eexists; reflexivity|exact F].
Qed.
Lemma take_twin argv S n a S2 : twins S S2 -> twins (take argv S n a) S2.
Proof. unfold take. destruct (s_frames S) eqn:Ef; [auto|]. intros [F Em]. split; cbn [s_frames s_mem]; [now rewrite Ef in F|exact Em]. Qed.
(** A watched execution is one of the program. *)
Lemma watched_erase W argv P bs : forall w w1 S, twins (fst w) S -> wrun W argv P w bs = Ok w1 ->
  exists cs S1, part cs bs /\ srun true argv P S cs = Ok S1 /\ twins (fst w1) S1.
Proof.
  induction bs as [|a bs IH]; intros w w1 S T E; cbn [wrun] in E.
  - injection E as <-. exists [], S. split; [constructor|]. auto.
  - destruct (wstep W argv P w a) as [w2| | |] eqn:Es; try discriminate. cbn [bind] in E. unfold wstep in Es. destruct w as [Sw ns]. cbn [fst snd] in *. destruct ns as [|n ns].
    + destruct (sstep true argv P Sw a) as [S2| | |] eqn:E2; try discriminate. cbn [bind] in Es. injection Es as <-.
      destruct (step_twin _ _ _ _ _ _ _ T E2) as (S3 & E3 & T3). destruct (IH (S2, _) w1 S3 T3 E) as (cs & S1 & Pt & Er & T1). exists (a :: cs), S1. split; [now constructor|]. cbn [srun]. rewrite E3. auto.
    + injection Es as <-. destruct (IH (take argv Sw n a, ns) w1 S (take_twin argv Sw n a S T) E) as (cs & S1 & Pt & Er & T1). exists cs, S1. split; [now constructor|]. auto.
Qed.
Lemma part_trans {A} (a b c : list A) : part a b -> part b c -> part a c.
Proof. intros P Q. revert a P. induction Q; intros a P; inversion P; subst; try constructor; auto. Qed.

(** ** Nesting *)
(** [follows P s fl sg s']: from call stack [s] (innermost first) the log [fl] leads to [s'];
    [sg] has the call stacks. *)
Definition named (P : prog) (n : N) : Prop := exists f, get P n = Some f /\ fn_blocks f <> [].
Inductive follows (P : prog) : list N -> list flow -> list sight -> list N -> Prop :=
| fo_done s : follows P s [] [] s
| fo_enter s n fl sg s' : named P n -> follows P (n :: s) fl sg s' -> follows P s (FEnter (function_id P n) :: fl) (SEnter (rev (n :: s)) :: sg) s'
| fo_leave s n fl sg s' : follows P s fl sg s' -> follows P (n :: s) (FLeave (function_id P n) :: fl) (SLeave (rev (n :: s)) :: sg) s'
| fo_tainted s n bs fl sg s' : follows P (n :: s) fl sg s' -> follows P (n :: s) (FTainted (function_id P n) bs :: fl) (SDecides (rev (n :: s)) bs :: sg) s'.
Lemma follows_app P s fl sg s1 fl' sg' s2 : follows P s fl sg s1 -> follows P s1 fl' sg' s2 -> follows P s (fl ++ fl') (sg ++ sg') s2.
Proof. intros F. induction F; intros G; cbn [app]; auto; constructor; auto. Qed.

Section Nest.
  Variables (ftrace : bool) (ignore : list (list N)) (names : N -> list N) (P : prog) (argv : bool).
  Let W := watching true ftrace ignore names P.
  Variable Nc : no_callbacks P.

  Definition ids (S : sstate) : list N := map f_fn (s_frames S).
  Definition is_enter (n : note) : bool := match n with NEnter _ => true | _ => false end.
  Definition is_leave (n : note) : bool := match n with NLeave _ => true | _ => false end.
  Definition at_return (S : sstate) : bool := match s_frames S with fr :: _ => match f_rest fr with [] => returns (f_term fr) | _ => false end | [] => false end.
  Definition open_calls (w : wstate) : list N :=
    if existsb is_enter (snd w) then tl (ids (fst w))
    else if at_return (fst w) && negb (existsb is_leave (snd w)) then tl (ids (fst w)) else ids (fst w).
  Definition own_code (fr : frame) : Prop := named P (f_fn fr) /\ forall dst k args, In (ILib dst k args) (f_rest fr) -> M_Llvm.callback k = false.
  Definition nest_inv (w : wstate) : Prop :=
    (exists pre, on_entry W (fst w) ++ before_next W (fst w) = pre ++ snd w) /\ Forall own_code (s_frames (fst w)).

  Lemma existsb_map {A B} (f : B -> bool) (g : A -> B) l : existsb f (map g l) = existsb (fun x => f (g x)) l.
  Proof. induction l; cbn; [reflexivity|]. now rewrite IHl. Qed.
  Lemma existsb_none {A} (f : A -> bool) l : (forall x, f x = false) -> existsb f l = false.
  Proof. intros H. induction l; cbn; [reflexivity|]. now rewrite H. Qed.

  (** The notes at a position: which functions they concern, and in which order they come. *)
  Definition concerning (id : N) (n : note) : Prop := match n with NEnter f | NLeave f | NDecides f _ => f = id | _ => True end.
  Lemma position_notes n rest t : Forall (concerning (function_id P n)) (at_position W n rest t) /\ existsb is_enter (at_position W n rest t) = false /\
    existsb is_leave (at_position W n rest t) = match rest with [] => returns t | _ => false end.
  Proof.
    unfold at_position, W, watching. cbn [w_instr w_term]. set (seen := negb (listed ignore (names n))).
    assert (D : forall l, Forall (concerning (function_id P n)) (map (NDecides (function_id P n)) l)) by (intros l; induction l; cbn; constructor; cbn; auto).
    assert (Br : forall l, Forall (concerning (function_id P n)) (map NBranch l)) by (intros l; induction l; cbn; constructor; cbn; auto).
    assert (D2 : forall l, existsb is_enter (map (NDecides (function_id P n)) l) = false) by (intros l; rewrite existsb_map; now apply existsb_none).
    assert (D3 : forall l, existsb is_leave (map (NDecides (function_id P n)) l) = false) by (intros l; rewrite existsb_map; now apply existsb_none).
    assert (B2 : forall l, existsb is_enter (map NBranch l) = false) by (intros l; rewrite existsb_map; now apply existsb_none).
    assert (B3 : forall l, existsb is_leave (map NBranch l) = false) by (intros l; rewrite existsb_map; now apply existsb_none).
    destruct rest as [|i rest].
    - split; [|split].
      + apply Forall_app. split; [apply Forall_app; split; [apply D|destruct (returns t); repeat constructor]|]. apply Forall_app. split; [destruct seen; [apply Br|constructor]|]. destruct (ftrace && seen && returns t); repeat constructor.
      + rewrite !existsb_app, D2. destruct (returns t), seen, ftrace; cbn; rewrite ?B2; reflexivity.
      + rewrite !existsb_app, D3. destruct (returns t), seen, ftrace; cbn; rewrite ?B3; reflexivity.
    - split; [|split].
      + apply Forall_app. split; [apply D|]. destruct seen; [apply Br|constructor].
      + rewrite existsb_app, D2. destruct seen; [apply B2|reflexivity].
      + rewrite existsb_app, D3. destruct seen; [apply B3|reflexivity].
  Qed.
  Definition is_decision (n : note) : bool := match n with NDecides _ _ => true | _ => false end.
  (** Nothing is decided after a function was left. *)
  Lemma position_order n rest t pre f post : at_position W n rest t = pre ++ NLeave f :: post -> existsb is_decision post = false /\ existsb is_leave post = false.
  Proof.
    unfold at_position, W, watching. cbn [w_instr w_term]. set (seen := negb (listed ignore (names n))). intros E.
    destruct rest as [|i rest].
    - destruct (returns t) eqn:Rt.
      + assert (Ct : conditions t = []) by (destruct t; try discriminate; reflexivity). rewrite Ct in E. cbn [map app] in E.
        assert (Eq : exists l, post = l /\ pre = [] /\ l = (if seen then [] else []) ++ (if ftrace && seen && true then [NReturn (names n)] else [])).
        { destruct pre as [|x pre]; cbn [app] in E.
          - injection E as _ E. exists post. split; [reflexivity|]. split; [reflexivity|]. now rewrite <- E.
          - exfalso. injection E as _ E. assert (I : In (NLeave f) (pre ++ NLeave f :: post)) by (apply in_or_app; right; now left). rewrite <- E in I. destruct seen, ftrace; cbn in I; repeat destruct I as [I|I]; try discriminate; auto. }
        destruct Eq as (l & -> & _ & ->). destruct seen, ftrace; auto.
      + exfalso. assert (I : In (NLeave f) (pre ++ NLeave f :: post)) by (apply in_or_app; right; now left). rewrite <- E in I. rewrite app_nil_r in I. apply in_app_or in I as [I|I].
        * apply in_map_iff in I as (o & Q & _). discriminate.
        * apply in_app_or in I as [I|I]; [destruct seen; [|destruct I]; apply in_map_iff in I as (o & Q & _); discriminate|]. rewrite andb_false_r in I. destruct I.
    - exfalso. assert (I : In (NLeave f) (pre ++ NLeave f :: post)) by (apply in_or_app; right; now left). rewrite <- E in I. apply in_app_or in I as [I|I].
      + apply in_map_iff in I as (o & Q & _). discriminate.
      + destruct seen; [|destruct I]. apply in_map_iff in I as (o & Q & _). discriminate.
  Qed.
  Lemma position_leaves S : existsb is_enter (before_next W S) = false /\ existsb is_leave (before_next W S) = at_return S.
  Proof.
    unfold before_next, at_return. destruct (s_frames S) as [|fr below]; [auto|]. destruct (position_notes (f_fn fr) (f_rest fr) (f_term fr)) as (_ & H1 & H2). auto.
  Qed.
  Lemma entry_notes n : exists l, w_entry W n = l ++ [NEnter (function_id P n)] /\ forall x, In x l -> (exists nm, x = NCall nm) \/ x = NArgv.
  Proof.
    unfold W, watching. cbn [w_entry]. set (seen := negb (listed ignore (names n))). rewrite app_assoc. eexists. split; [reflexivity|]. intros x I. apply in_app_or in I as [I|I].
    - destruct (ftrace && seen); [|destruct I]. destruct I as [<-|[]]. left. eauto.
    - destruct (seen && _); [|destruct I]. destruct I as [<-|[]]. now right.
  Qed.

  Lemma note_step S n ns a : nest_inv (S, n :: ns) -> nest_inv (take argv S n a, ns) /\
    exists fl, s_log (take argv S n a) = s_log S ++ fl /\ follows P (open_calls (S, n :: ns)) fl (sees S n) (open_calls (take argv S n a, ns)).
  Proof.
    intros ((pre & Ep) & Ow). cbn [fst snd] in *.
    assert (Hf : s_frames (take argv S n a) = s_frames S) by (unfold take; destruct (s_frames S) eqn:Q; [exact Q|reflexivity]).
    assert (Hi : ids (take argv S n a) = ids S) by (unfold ids; now rewrite Hf).
    assert (Hr : at_return (take argv S n a) = at_return S) by (unfold at_return; now rewrite Hf).
    assert (Hb : before_next W (take argv S n a) = before_next W S) by (unfold before_next; now rewrite Hf).
    assert (He : on_entry W (take argv S n a) = on_entry W S) by (unfold on_entry; now rewrite Hf).
    split; [split|].
    - exists (pre ++ [n]). cbn [fst snd]. rewrite He, Hb, Ep, <- app_assoc. reflexivity.
    - cbn [fst]. now rewrite Hf.
    - assert (Fl : exists fl, s_log (take argv S n a) = s_log S ++ fl /\ match n with
        | NEnter f => fl = [FEnter f] /\ sees S n = [SEnter (rev (ids S))] | NLeave f => fl = [FLeave f] /\ sees S n = [SLeave (rev (ids S))]
        | NDecides f _ => fl = [] /\ sees S n = [] \/ exists bs, fl = [FTainted f bs] /\ sees S n = [SDecides (rev (ids S)) bs] | _ => fl = [] /\ sees S n = [] end).
      { unfold take. destruct (s_frames S) eqn:Q.
        - exfalso. unfold on_entry, before_next in Ep. rewrite Q in Ep. destruct pre; discriminate.
        - cbn [s_log]. destruct n; cbn [note_event flow_of]; eexists; (split; [reflexivity|]); auto. cbn [note_deps sees]. rewrite Q. assert (X : forall ds, a_mem (p_set (s_ast S) VALUE ds) VALUE = ds) by (intros ds; change ((if VALUE =? VALUE then ds else a_mem (s_ast S) VALUE) = ds); now rewrite N.eqb_refl).
          rewrite X. destruct (dep (f_deps f) o); eauto. }
      destruct Fl as (fl & Efl & Hfl). cbn [fst]. exists fl. split; [exact Efl|]. unfold open_calls. cbn [fst snd existsb]. rewrite Hi, Hr.
      assert (Hd : forall fr below, s_frames S = fr :: below -> exists bi, ids S = f_fn fr :: bi) by (intros fr below Q; unfold ids; rewrite Q; eexists; reflexivity).
      destruct (position_leaves S) as [L1 L2]. unfold on_entry in Ep. unfold before_next in Ep, L1, L2. destruct (s_frames S) as [|fr below] eqn:Q; [destruct pre; discriminate|]. specialize (Hd fr below eq_refl). destruct Hd as (bi & Hd). rewrite Hd in *. cbn [tl]. assert (Nm : named P (f_fn fr)) by (inversion Ow as [|? ? [? ?]]; assumption).
      destruct (entry_notes (f_fn fr)) as (l & El & Hl). rewrite El in Ep. set (B := at_position W (f_fn fr) (f_rest fr) (f_term fr)) in *. set (id := function_id P (f_fn fr)) in *.
      apply app_eq_app in Ep as (mid & [[E1 E2]|[E1 E2]]).
      + (* still on entry *)
        destruct mid as [|x mid].
        * cbn [app] in E2. rewrite app_nil_r in E1. (* the notes of the position begin *)
          destruct (position_notes (f_fn fr) (f_rest fr) (f_term fr)) as (Co & _ & _). fold B in Co. fold id in Co. rewrite <- E2 in *. cbn [existsb] in L1, L2. apply orb_false_iff in L1 as [L1 L3].
          inversion Co as [|x y Cn _]; subst. rewrite L1, L3. cbn [orb].
          destruct n; cbn [is_leave is_enter concerning] in *; try discriminate; try (destruct Hfl as [-> ->]; cbn [orb]; constructor).
          -- subst f. destruct Hfl as [-> ->]. cbn [orb negb]. rewrite andb_false_r. cbn [orb] in L2. destruct (position_order (f_fn fr) (f_rest fr) (f_term fr) [] id ns) as [_ Nl]; [fold B; now rewrite <- E2|]. rewrite Nl. cbn [negb]. rewrite andb_true_r, <- L2. repeat constructor.
          -- subst f. cbn [orb] in *. rewrite L2. destruct (at_return S); cbn [andb negb]; destruct Hfl as [[-> ->]|(bs & -> & ->)]; repeat constructor.
        * injection E2 as -> E2. rewrite E2 in *. apply app_eq_app in E1 as (m2 & [[E3 E4]|[E3 E4]]).
          -- destruct m2 as [|y m2].
             ++ cbn [app] in E4. injection E4 as ?H ?H; subst x mid. cbn [app is_enter orb] in *. rewrite L1. destruct Hfl as [-> ->]. rewrite L2. replace (at_return S && negb (at_return S)) with false by (now destruct (at_return S)). repeat constructor; exact Nm.
             ++ injection E4 as ?H E4; subst y. assert (X : existsb is_enter (mid ++ B) = true) by (rewrite E4, !existsb_app; cbn; now rewrite orb_true_r). rewrite X, orb_true_r.
                destruct (Hl x) as [(nm & ->)| ->]; [rewrite E3; apply in_or_app; right; now left| |]; destruct Hfl as [-> ->]; constructor.
          -- destruct m2 as [|y m2]; cbn [app] in E4; [injection E4 as ?H ?H; subst x mid|injection E4 as _ E4; destruct m2; discriminate].
             cbn [app is_enter orb] in *. rewrite L1. destruct Hfl as [-> ->]. rewrite L2. replace (at_return S && negb (at_return S)) with false by (now destruct (at_return S)). repeat constructor; exact Nm.
      + (* past the entry *)
        destruct (position_notes (f_fn fr) (f_rest fr) (f_term fr)) as (Co & _ & _). fold B in Co. fold id in Co. rewrite E2 in *. rewrite existsb_app in L1, L2. cbn [existsb] in L1, L2.
        apply orb_false_iff in L1 as [_ L1]. apply orb_false_iff in L1 as [L1 L3]. apply Forall_app in Co as [_ Co]. inversion Co as [|x y Cn _]; subst. rewrite L1, L3. cbn [orb].
        destruct n; cbn [is_leave is_enter concerning] in *; try discriminate; try (destruct Hfl as [-> ->]; cbn [orb]; constructor).
        * subst f. destruct Hfl as [-> ->]. cbn [orb negb]. rewrite andb_false_r. destruct (position_order (f_fn fr) (f_rest fr) (f_term fr) mid id ns) as [_ Nl]; [fold B; now rewrite E2|]. rewrite Nl. cbn [negb]. rewrite andb_true_r. cbn [orb] in L2. rewrite orb_true_r in L2. rewrite <- L2. repeat constructor.
        * subst f. cbn [orb] in *. assert (X : at_return S && negb (existsb is_leave ns) = false).
          { rewrite <- L2. destruct (existsb is_leave mid) eqn:Em; cbn [orb]; [|now destruct (existsb is_leave ns)]. exfalso. apply existsb_exists in Em as (x & I & Lx). destruct x; try discriminate. apply in_split in I as (q1 & q2 & ->).
            destruct (position_order (f_fn fr) (f_rest fr) (f_term fr) q1 f (q2 ++ NDecides id o :: ns)) as [Nd _]; [fold B; rewrite E2, <- app_assoc; reflexivity|]. rewrite existsb_app in Nd. cbn in Nd. rewrite orb_true_r in Nd. discriminate. }
          rewrite X. destruct Hfl as [[-> ->]|(bs & -> & ->)]; repeat constructor.
  Qed.

  Lemma own_tail fr fr' i rest : own_code fr -> f_rest fr = i :: rest -> f_fn fr' = f_fn fr -> f_rest fr' = rest -> own_code fr'.
  Proof. intros [Nm O] E En E'. split; [now rewrite En|]. intros dst k args I. rewrite E' in I. apply (O dst k args). rewrite E. now right. Qed.
  Lemma own_same fr fr' : own_code fr -> f_fn fr' = f_fn fr -> f_rest fr' = f_rest fr -> own_code fr'.
  Proof. intros [Nm O] En E. split; [now rewrite En|]. intros dst k args I. rewrite E in I. exact (O dst k args I). Qed.
  Lemma own_block f b fr : get P (f_fn fr) = Some f -> In b (fn_blocks f) -> f_rest fr = b_body b -> own_code fr.
  Proof.
    intros G I E. split; [exists f; split; [exact G|]; intros Q; rewrite Q in I; destruct I|]. intros dst k args J. rewrite E in J. apply (Nc f b dst k args); auto. unfold get in G. now apply nth_error_In in G.
  Qed.
  Lemma quiet_event k vals m a v s : lib_event k vals m a = Ok v -> M_Llvm.callback k = false -> flow_of s v = [].
  Proof.
    unfold lib_event. destruct (len vals <? arity k); [discriminate|]. intros E Q.
    destruct k; try discriminate Q; repeat match type of E with context [if ?c then _ else _] => destruct c end; try discriminate; injection E as <-; reflexivity.
  Qed.
  Lemma result_keeps fr v ds dst fr' : set_result fr v ds dst = Ok fr' -> f_fn fr' = f_fn fr /\ f_rest fr' = f_rest fr.
  Proof. unfold set_result. destruct dst; [destruct v; [|discriminate]|]; intros E; injection E as <-; auto. Qed.

  Lemma step_ids S a S1 : Forall own_code (s_frames S) -> sstep true argv P S a = Ok S1 ->
    Forall own_code (s_frames S1) /\ s_log S1 = s_log S /\
    (if calls S then tl (ids S1) = ids S /\ s_frames S1 <> [] else ids S1 = if at_return S then tl (ids S) else ids S).
  Proof.
    unfold sstep, calls, at_return, ids. intros O E. destruct (s_frames S) as [|fr below]; [discriminate|]. inversion O as [|x y O1 O2]; subst.
    destruct (f_rest fr) as [|i rest] eqn:Er.
    - destruct (f_term fr) as [x|c x y|c cases df|v] eqn:Et; cbn [returns].
      4: { destruct below as [|caller below'].
        - destruct (match v with Some o => value (f_regs fr) o | None => Ok 0 end); try discriminate. cbn [bind] in E. injection E as <-. cbn. auto.
        - destruct (match v with Some o => do x <- value (f_regs fr) o; Ok (Some x) | None => Ok None end) as [r| | |]; try discriminate. cbn [bind] in E.
          destruct (set_result caller r _ (f_dst fr)) as [caller'| | |] eqn:Sr; try discriminate. cbn [bind] in E. injection E as <-. cbn [s_frames s_log map tl]. destruct (result_keeps _ _ _ _ _ Sr) as [K1 K2].
          inversion O2 as [|x y O3 O4]; subst. rewrite K1. split; [|auto]. constructor; [now apply own_same with caller|exact O4]. }
      all: match type of E with (do b <- ?q; _) = _ => destruct q as [b| | |]; try discriminate end; cbn [bind] in *; destruct (get P (f_fn fr)) as [f|] eqn:Gf; [|discriminate]; destruct (get (fn_blocks f) b) as [blk|] eqn:Gb; [|discriminate];
        destruct (incoming (f_blk fr) (b_phis blk)) as [inc| | |]; try discriminate; cbn [bind] in *; destruct (pairs _ inc) as [vs| | |] eqn:Ev; try discriminate; cbn [bind] in *;
        destruct (pairs (fun o => Ok (dep (f_deps fr) o)) inc) as [ds| | |] eqn:Ed; try discriminate; cbn [bind] in *; injection E as <-; cbn [s_frames s_log map f_fn];
        (split; [|auto]); constructor; [|exact O2]; apply own_block with f blk; auto; unfold get in Gb; now apply nth_error_In in Gb.
    - assert (Go : forall e d, own_code (mkFrame (f_fn fr) (f_blk fr) rest (f_term fr) e d (f_dst fr))) by (intros e d; now apply own_tail with fr i rest).
      destruct i as [dst ops f|dst ptr size const|v ptr size atomic|dst ptr v size f|dst x|x v atomic|dst c x y|ptr v k|dst src k|dst|dst callee args|dst k args].
      11: { destruct (value (f_regs fr) callee) as [c| | |]; try discriminate. cbn [bind] in *. destruct (values (f_regs fr) args) as [vals| | |]; try discriminate. cbn [bind] in *.
        destruct (get P c) as [f|] eqn:Gf; [|discriminate]. destruct (fn_native f); [discriminate|]. destruct (enter c f vals _ dst) as [new| | |] eqn:En; try discriminate. cbn [bind] in E. injection E as <-.
        cbn [s_frames s_log map tl f_fn]. split; [|split; [reflexivity|split; [reflexivity|discriminate]]]. constructor; [|constructor; [apply Go|exact O2]].
        unfold enter in En. destruct (fn_blocks f) as [|b bs] eqn:Eb; [discriminate|]. destruct (len vals =? len (fn_params f)); [|discriminate]. injection En as <-. apply own_block with f b; [exact Gf|rewrite Eb; now left|reflexivity]. }
      11: { destruct (values (f_regs fr) args) as [vals| | |]; try discriminate. cbn [bind] in *. destruct (lib_event k vals (s_mem S) a) as [v| | |] eqn:Ev; try discriminate. cbn [bind] in *.
        match type of E with (do fr' <- set_result ?f ?v ?ds ?dst; _) = _ => destruct (set_result f v ds dst) as [fr1| | |] eqn:Sr; try discriminate end. cbn [bind] in E. injection E as <-.
        destruct (result_keeps _ _ _ _ _ Sr) as [K1 K2]. cbn [f_fn f_rest] in K1, K2. cbn [s_frames s_log map]. rewrite K1. split; [constructor; [|exact O2]|split; [|reflexivity]].
        - apply own_tail with fr (ILib dst k args) rest; auto.
        - rewrite (quiet_event _ _ _ _ _ _ Ev); [apply app_nil_r|]. apply (proj2 O1 dst k args). rewrite Er. now left. }
      all: match type of E with (do em <- ?q; _) = _ => destruct q as [em| | |]; try discriminate end; cbn [bind] in *;
        match type of E with (do ds <- flow_exec ?l ?i ?e ?d ?s; _) = _ => destruct (flow_exec l i e d s) as [[d1 s1]| | |] eqn:Fe; try discriminate end; cbn [bind] in *; injection E as <-;
        cbn [s_frames s_log map f_fn]; (split; [|auto]); constructor; [apply Go|exact O2].
  Qed.
  Lemma wstep_nest w a w1 : nest_inv w -> wstep W argv P w a = Ok w1 -> nest_inv w1 /\
    exists fl, s_log (fst w1) = s_log (fst w) ++ fl /\ follows P (open_calls w) fl (match snd w with n :: _ => sees (fst w) n | [] => [] end) (open_calls w1).
  Proof.
    destruct w as [S ns]. intros I E. unfold wstep in E. cbn [fst snd] in E. destruct ns as [|n ns]; [|injection E as <-; cbn [fst snd]; now apply note_step].
    destruct (sstep true argv P S a) as [S1| | |] eqn:Es; try discriminate. cbn [bind] in E. injection E as <-. destruct I as (_ & O). cbn [fst snd] in *.
    destruct (step_ids S a S1 O Es) as (O1 & El & Ei). unfold nest_inv. cbn [fst snd]. destruct (position_leaves S1) as [L1 L2]. split; [split; [|exact O1]|].
    - destruct (calls S); [now exists []|]. exists (on_entry W S1). reflexivity.
    - exists []. split; [now rewrite El, app_nil_r|]. replace (open_calls (S1, (if calls S then on_entry W S1 else []) ++ before_next W S1)) with (open_calls (S, [])); [constructor|]. unfold open_calls. cbn [fst snd existsb]. rewrite andb_true_r.
      rewrite !existsb_app. destruct (calls S) eqn:Ec.
      + destruct Ei as [Ei Nf]. rewrite Ei. assert (R : at_return S = false) by (unfold calls, at_return in *; destruct (s_frames S) as [|fr l]; [reflexivity|]; now destruct (f_rest fr)). rewrite R.
        assert (X : existsb is_enter (on_entry W S1) = true). { unfold on_entry. destruct (s_frames S1) as [|fr l]; [now elim Nf|]. destruct (entry_notes (f_fn fr)) as (q & -> & _). rewrite existsb_app. cbn. apply orb_true_r. }
        now rewrite X.
      + cbn [existsb orb]. rewrite L1, L2, Ei. replace (at_return S1 && negb (at_return S1)) with false by (now destruct (at_return S1)). now destruct (at_return S).
  Qed.
  Lemma start_nest main vals m s S : sstart P main vals m s = Ok S -> nest_inv (wstart W S) /\ s_log S = [] /\ open_calls (wstart W S) = [].
  Proof.
    unfold sstart. destruct (get P main) as [f|] eqn:G; [|discriminate]. unfold enter. destruct (fn_blocks f) as [|b bs] eqn:Eb; [discriminate|]. destruct (len vals =? len (fn_params f)); [|discriminate].
    cbn [bind]. intros E. injection E as <-. unfold wstart, nest_inv. cbn [fst snd s_frames s_log]. split; [split; [now exists []|]|split; [reflexivity|]].
    - constructor; [|constructor]. apply own_block with f b; [exact G|rewrite Eb; now left|reflexivity].
    - unfold open_calls. cbn [fst snd]. unfold on_entry at 1. cbn [s_frames f_fn]. destruct (entry_notes main) as (q & -> & _). rewrite !existsb_app. cbn [existsb is_enter]. rewrite orb_true_r. reflexivity.
  Qed.
  Lemma run_nest bs : forall w w1, nest_inv w -> wrun W argv P w bs = Ok w1 ->
    exists fl, s_log (fst w1) = s_log (fst w) ++ fl /\ follows P (open_calls w) fl (sights W argv P w bs) (open_calls w1).
  Proof.
    induction bs as [|a bs IH]; intros w w1 I E; cbn [wrun sights] in *; [injection E as <-; exists []; split; [now rewrite app_nil_r|constructor]|]. destruct (wstep W argv P w a) as [w2| | |] eqn:Es; try discriminate. cbn [bind] in E.
    destruct (wstep_nest w a w2 I Es) as (I2 & fl & El & F). destruct (IH w2 w1 I2 E) as (fl2 & El2 & F2). exists (fl ++ fl2). split; [now rewrite El2, El, app_assoc|]. now apply follows_app with (open_calls w2).
  Qed.
End Nest.

(** What the reader makes of such a log. *)
Lemma follows_run {A} d (tr : N -> option A) (name : N -> A) P s fl sg s' es : (forall n, named P n -> tr (function_id P n) = Some (name n)) ->
  follows P s fl sg s' -> Forall (named P) s -> Forall2 (says d) fl es ->
  exists rs, run_stack tr (map name (rev s)) es rs (map name (rev s')) /\ Forall2 (shows d name) sg rs.
Proof.
  intros Tn F. revert es. induction F as [s|s f fl sg s' Nm F IH|s f fl sg s' F IH|s f bs fl sg s' F IH]; intros es Ns G; inversion G as [|x y l l' H G2]; subst.
  - exists []. split; constructor.
  - destruct y as [f'|f'|l0 f']; cbn [says] in H; try contradiction. subst f'. destruct (IH _ (Forall_cons _ Nm Ns) G2) as (rs & R & M). cbn [rev] in *. rewrite map_app in *. cbn [map] in *. eexists. split; [eapply run_enter; [now apply Tn|exact R]|]. constructor; [|exact M]. cbn [shows]. now rewrite map_app.
  - destruct y as [f'|f'|l0 f']; cbn [says] in H; try contradiction. subst f'. inversion Ns as [|x y N1 N2]; subst. destruct (IH _ N2 G2) as (rs & R & M). cbn [rev]. rewrite map_app. cbn [map]. eexists. split; [eapply run_leave; [now apply Tn|exact R]|]. constructor; [|exact M]. cbn [shows]. now rewrite map_app.
  - destruct y as [f'|f'|l0 f']; cbn [says] in H; try contradiction. destruct H as [-> H]. inversion Ns as [|x y N1 N2]; subst. destruct (IH _ Ns G2) as (rs & R & M). cbn [rev] in *. rewrite map_app in *. cbn [map] in *. eexists. split; [eapply run_tainted; [now apply Tn|exact R]|]. constructor; [|exact M]. cbn [shows]. now rewrite map_app.
Qed.

(** Function ids and names. *)
Lemma names_by_id names P : forall k n, named P n -> get (function_names names k P) (len (filter (fun f => match fn_blocks f with [] => false | _ => true end) (firstn (N.to_nat n) P))) = Some (names (k + n)).
Proof.
  induction P as [|f P IH]; intros k n (g & G & B); unfold get in G; [now destruct (N.to_nat n)|].
  destruct n as [|p].
  - cbn [N.to_nat nth_error firstn filter] in *. injection G as <-. cbn [function_names]. destruct (fn_blocks f); [now elim B|]. now rewrite N.add_0_r.
  - destruct (Pos2Nat.is_succ p) as [q Eq]. cbn [N.to_nat] in *. rewrite Eq in *. cbn [nth_error firstn filter] in *.
    assert (Ep : N.pos p = N.of_nat q + 1) by lia.
    assert (Nq : named P (N.of_nat q)) by (exists g; unfold get; rewrite Nnat.Nat2N.id; auto). specialize (IH (k + 1) (N.of_nat q) Nq). rewrite Nnat.Nat2N.id in IH. unfold get in IH.
    cbn [function_names]. replace (k + N.pos p) with (k + 1 + N.of_nat q) by lia. destruct (fn_blocks f) eqn:Eb; [exact IH|]. rewrite len_cons. unfold get. replace (N.to_nat _) with (Datatypes.S (N.to_nat (len (filter (fun f => match fn_blocks f with [] => false | _ => true end) (firstn q P))))) by lia. exact IH.
Qed.
Lemma filter_short {A} (p : A -> bool) l : (length (filter p l) <= length l)%nat.
Proof. induction l as [|x l IH]; [reflexivity|]. cbn. destruct (p x); cbn; lia. Qed.
Lemma body_count P n : named P n -> len P <= 2 ^ 32 -> len (filter (fun f => match fn_blocks f with [] => false | _ => true end) (firstn (N.to_nat n) P)) < 2 ^ 32.
Proof.
  intros (f & G & _) L. assert (N.to_nat n < length P)%nat by (apply nth_error_Some; unfold get in G; now rewrite G).
  assert (X := filter_short (fun f => match fn_blocks f with [] => false | _ => true end) (firstn (N.to_nat n) P)). rewrite firstn_length in X. unfold len in *. lia.
Qed.
Lemma name_of_id names P n : len P <= 2 ^ 32 -> named P n -> get (function_names names 0 P) (function_id P n) = Some (names n).
Proof. intros L Nm. unfold function_id. rewrite N.mod_small by now apply body_count. exact (names_by_id names P 0 n Nm). Qed.
