(** Executions of programs into which calls of the runtime were put. *)
From Coq Require Import NArith ZArith List Bool Lia.
From Verif Require Import M_Base M_Memory M_Functions M_Dfsan M_Llvm M_LlvmPasses S_Functions S_Api S_Runtime S_DataFlow S_Demand S_Watch P_Base P_ApiMem P_Watch.
Import ListNotations.
Open Scope N_scope.

(** ** Names stay *)
Lemma index_app x l l' i : index_of x l = Some i -> index_of x (l ++ l') = Some i.
Proof.
  revert i. induction l as [|y l IH]; intros i; cbn [index_of app]; [discriminate|]. destruct (bytes_eqb y x); [auto|].
  destruct (index_of x l) as [j|]; cbn [option_map]; [|discriminate]. rewrite (IH j eq_refl). auto.
Qed.
Lemma estep_names argv s v name i : index_of name (a_names s) = Some i -> index_of name (a_names (estep argv s v)) = Some i.
Proof.
  intros H.
  assert (R : forall s fd addr off n, a_names (p_read s fd addr off n) = a_names s) by (intros; unfold p_read; destruct (last_with _ _); reflexivity).
  assert (Wr : forall s fd off vals, a_names (p_write s fd off vals) = a_names s) by (intros; unfold p_write; destruct (last_with _ _); reflexivity).
  assert (Ar : forall args s k, a_names (p_args s k args) = a_names s) by (induction args as [|[a n] args IH]; intros; cbn [p_args]; [|rewrite IH]; reflexivity).
  destruct v; cbn [estep]; auto.
  - destruct (0 <=? fd)%Z; auto.
  - destruct (ret =? 0)%Z; auto.
  - destruct (0 <? ret)%Z; [rewrite R|]; auto.
  - destruct (0 <? size * ret); [rewrite R|]; auto.
  - rewrite R; auto.
  - destruct (c =? -1)%Z; [|rewrite R]; auto.
  - destruct addr; [rewrite R|]; auto.
  - destruct argv; [rewrite Ar|]; auto.
  - destruct (0 <? ret)%Z; [rewrite Wr|]; auto.
  - destruct (0 <? size * ret); [rewrite Wr|]; auto.
  - destruct (ret =? ch)%Z; [rewrite Wr|]; auto.
  - cbn [astep a_names]. destruct (index_of name0 (a_names s)); [exact H|]. now apply index_app.
Qed.

Section Sim.
  Variables (P P' : prog) (W : watch) (kf : N -> option (N * list N)) (argv : bool).
  Definition bd (n : N) : N := match get P n with Some f => fresh f | None => 0 end.

  (** ** Woven functions *)
  Definition unset (n : N) : bool := match kf n with Some _ => false | None => true end.
  Record woven (n : N) (f f' : func) : Prop := {
    wv_native : fn_native f' = fn_native f;
    wv_params : fn_params f' = fn_params f;
    wv_own : forall x, In x (fn_params f) -> x < fresh f;
    wv_kf : forall k name, kf n = Some (k, name) -> fresh f <= k;
    wv_entry : match fn_blocks f, fn_blocks f' with
               | b :: _, b' :: _ => code W n (fresh f) (kf n) (unset n) [] (b_body b') (b_term b') (w_entry W n ++ at_position W n (b_body b) (b_term b)) (b_body b) (b_term b)
               | [], [] => True
               | _, _ => False
               end;
    wv_block : forall j, j <> 0 -> match get (fn_blocks f) j, get (fn_blocks f') j with
               | Some b, Some b' => b_phis b' = b_phis b /\ max_of (map p_bound (b_phis b)) <= fresh f /\
                   code W n (fresh f) (kf n) true [] (b_body b') (b_term b') (at_position W n (b_body b) (b_term b)) (b_body b) (b_term b)
               | None, None => True
               | _, _ => False
               end
  }.
  Variable Wv : forall n, match get P n, get P' n with Some f, Some f' => woven n f f' | None, None => True | _, _ => False end.
  (** No jump to the entry block. *)
  Variable Ne : forall n f b, get P n = Some f -> In b (fn_blocks f) -> ~ jumps_to (b_term b) 0.

  (** ** States *)
  Definition frame_at (s : ast) (rho : list (N * operand)) (ns : list note) (fr' fr : frame) : Prop :=
    let n := f_fn fr in
    f_fn fr' = n /\ f_blk fr' = f_blk fr /\ f_dst fr' = f_dst fr /\
    (exists f, get P n = Some f /\ exists b, In b (fn_blocks f) /\ b_term b = f_term fr) /\
    agrees (bd n) (f_regs fr') (f_deps fr') (f_regs fr) (f_deps fr) /\
    exists inn, holds (bd n) rho (f_regs fr') (f_deps fr') (f_regs fr) (f_deps fr) /\
      code W n (bd n) (kf n) inn rho (f_rest fr') (f_term fr') ns (f_rest fr) (f_term fr) /\
      (inn = true -> forall k name, kf n = Some (k, name) -> exists i, f_regs fr' k = Some i /\ index_of name (a_names s) = Some i).
  Definition frame_rel (s : ast) (ns : list note) (fr' fr : frame) : Prop := exists rho, frame_at s rho ns fr' fr.
  Definition waiting (s : ast) (fr' fr : frame) : Prop := frame_at s [] (at_position W (f_fn fr) (f_rest fr) (f_term fr)) fr' fr.
  Definition dst_below (fr : frame) (below : list frame) : Prop :=
    match below with c :: _ => forall x, f_dst fr = Some x -> x < bd (f_fn c) | [] => f_dst fr = None end.
  Fixpoint dsts (frs : list frame) : Prop := match frs with [] => True | fr :: below => dst_below fr below /\ dsts below end.
  Definition stack (s : ast) (ns : list note) (frs' frs : list frame) : Prop :=
    match frs', frs with
    | fr' :: below', fr :: below => frame_rel s ns fr' fr /\ Forall2 (waiting s) below' below
    | [], [] => ns = []
    | _, _ => False
    end.
  Definition srel (S' : sstate) (w : wstate) : Prop :=
    s_mem S' = s_mem (fst w) /\ s_ast S' = s_ast (fst w) /\ s_log S' = s_log (fst w) /\
    stack (s_ast S') (snd w) (s_frames S') (s_frames (fst w)) /\ dsts (s_frames (fst w)).

  Definition names_kept (s s1 : ast) : Prop := forall name i, index_of name (a_names s) = Some i -> index_of name (a_names s1) = Some i.
  Lemma frame_keeps s s1 rho ns fr' fr : names_kept s s1 -> frame_at s rho ns fr' fr -> frame_at s1 rho ns fr' fr.
  Proof.
    intros K (E1 & E2 & E3 & E4 & A & inn & H & C & Tr). repeat (split; [assumption|]). exists inn. repeat (split; [assumption|]).
    intros I k name Q. destruct (Tr I k name Q) as (i & R & X). eauto.
  Qed.
  Lemma waiting_keeps s s1 l' l : names_kept s s1 -> Forall2 (waiting s) l' l -> Forall2 (waiting s1) l' l.
  Proof. intros K F. induction F; constructor; auto. now apply frame_keeps with s. Qed.
  Lemma kept_refl s : names_kept s s.
  Proof. intros name i H. exact H. Qed.
  Lemma kept_step s s0 v : a_names s0 = a_names s -> names_kept s (estep argv s0 v).
  Proof. intros E name i H. apply estep_names. now rewrite E. Qed.
  Lemma kept_flow i e d s d1 s1 : flow_exec true i e d s = Ok (d1, s1) -> names_kept s s1.
  Proof.
    destruct i; cbn [flow_exec]; intros E; repeat match type of E with
      | (do x <- ?q; _) = _ => destruct q; cbn [bind] in E; try discriminate
      | (if ?q then _ else _) = _ => destruct q
      end; try discriminate; injection E as <- <-; intros name k H; exact H.
  Qed.

  (** Function-entry callbacks return the index of the name. *)
  Definition answers (S' : sstate) (a : answer) : Prop :=
    forall s v, next_event S' a = Some (s, v) -> answered (estep argv s v) v a.

  Lemma woven_get n f f' : get P n = Some f -> get P' n = Some f' -> woven n f f'.
  Proof. intros E E'. specialize (Wv n). now rewrite E, E' in Wv. Qed.
  Lemma bd_eq n f : get P n = Some f -> bd n = fresh f.
  Proof. intros E. unfold bd. now rewrite E. Qed.

  Lemma agrees_assign b l ds e' d' e d : agrees b e' d' e d -> map fst l = map fst ds ->
    agrees b (assign e' l) (assign d' ds) (assign e l) (assign d ds).
  Proof.
    revert ds e' d' e d. induction l as [|[x v] l IH]; intros [|[y bs] ds] e' d' e d A Q; try discriminate; [exact A|]. cbn [map fst] in Q. injection Q as -> Q. cbn [assign fold_left fst snd].
    apply (IH ds (put e' y v) (put d' y bs) (put e y v) (put d y bs)); [now apply agrees_put|exact Q].
  Qed.
  Lemma above_assign {A} b (l : list (N * A)) m : (forall x, In x (map fst l) -> x < b) -> forall r, b <= r -> assign m l r = m r.
  Proof.
    revert m. induction l as [|[x v] l IH]; intros m L r Lr; [reflexivity|]. cbn [assign fold_left fst snd]. change (assign (put m x v) l r = m r). rewrite IH; auto.
    - unfold put. destruct (N.eqb_spec r x) as [->|]; [|reflexivity]. assert (x < b) by (apply L; now left). lia.
    - intros y I. apply L. now right.
  Qed.

  (** ** Entering a function *)
  Lemma enter_sim s n f f' vals ds dst fr' : get P n = Some f -> get P' n = Some f' -> enter n f' vals ds dst = Ok fr' -> len ds = len vals ->
    exists fr, enter n f vals ds dst = Ok fr /\ f_fn fr = n /\ f_dst fr = dst /\
      frame_rel s (w_entry W n ++ at_position W n (f_rest fr) (f_term fr)) fr' fr.
  Proof.
    intros E E' H Ld. assert (Wf := woven_get n f f' E E'). unfold enter in *. assert (En := wv_entry _ _ _ Wf).
    destruct (fn_blocks f') as [|b' bs'] eqn:Eb'; [discriminate|]. destruct (fn_blocks f) as [|b bs] eqn:Eb; [destruct En|]. rewrite (wv_params _ _ _ Wf) in H.
    destruct (N.eqb_spec (len vals) (len (fn_params f))) as [Lv|]; [|discriminate]. injection H as <-. eexists. split; [reflexivity|]. cbn [f_fn f_dst f_rest f_term].
    repeat (split; [reflexivity|]). exists []. repeat (split; [reflexivity|]). split; [exists f; split; [exact E|]; exists b; rewrite Eb; split; [now left|reflexivity]|]. cbn [f_fn f_dst f_blk f_rest f_term f_regs f_deps]. rewrite (bd_eq n f E).
    split; [intros r L; auto|]. exists (unset n). split; [intros r o L Q; discriminate|]. split; [exact En|].
    unfold unset. intros I k name Q. rewrite Q in I. discriminate.
  Qed.

  (** ** Jumps *)
  Lemma target_alike b rho t' t e' d' e d j : alike_term b rho t' t -> agrees b e' d' e d -> holds b rho e' d' e d -> target e' t' = Ok j ->
    target e t = Ok j /\ jumps_to t j.
  Proof.
    assert (LkIn : forall cases v (y : N), lookup cases v = Some y -> In (v, y) cases).
    { induction cases as [|[x y0] cases IH]; intros v y; cbn [lookup]; [discriminate|]. destruct (N.eqb_spec x v) as [->|]; [intros Q; injection Q as ->; now left|intros Q; right; auto]. }
    assert (J : forall e t j, target e t = Ok j -> jumps_to t j).
    { intros e0 [x|c x y|c cases dd|v] j0; cbn [target jumps_to]; [congruence| | |discriminate].
      - destruct (value e0 c) as [w| | |]; try discriminate. cbn [bind]. intros Q. injection Q as <-. destruct (w =? 0); auto.
      - destruct (value e0 c) as [w| | |]; try discriminate. cbn [bind]. intros Q. injection Q as <-. destruct (lookup cases w) eqn:E; [right; exists w; now apply LkIn|now left]. }
    intros Al A H T. assert (Q : target e t = Ok j); [|split; [exact Q|exact (J e t j Q)]]. rewrite <- T. destruct Al as [t L|c' c b1 b2 Tc|c' c cases dd Tc]; cbn [target].
    - destruct t as [x|c x y|c cases dd|v]; cbn [target t_bound] in *; try reflexivity; destruct (own_value b e' d' e d c A L) as [-> _]; reflexivity.
    - destruct (tr_value b rho e' d' e d c' c A H Tc) as [-> _]. reflexivity.
    - destruct (tr_value b rho e' d' e d c' c A H Tc) as [-> _]. reflexivity.
  Qed.
  Lemma alike_ret b rho t' v : alike_term b rho t' (Ret v) -> t' = Ret v /\ t_bound (Ret v) <= b.
  Proof. intros H. inversion H; subst; auto. Qed.
  Lemma alike_ret' b rho v t : alike_term b rho (Ret v) t -> t = Ret v /\ t_bound (Ret v) <= b.
  Proof. intros H. inversion H; subst; auto. Qed.

  Lemma incoming_own from ps b inc : max_of (map p_bound ps) <= b -> incoming from ps = Ok inc ->
    forall x o, In (x, o) inc -> x < b /\ o_bound o <= b.
  Proof.
    revert inc. induction ps as [|p ps IH]; intros inc L; cbn [incoming]; [intros E; injection E as <-; intros x o []|].
    destruct (lookup (ph_in p) from) as [o|] eqn:El; [|discriminate]. destruct (incoming from ps) as [l| | |] eqn:Ei; try discriminate. cbn [bind]. intros E. injection E as <-.
    cbn [map max_of fold_right] in L. assert (Lp : p_bound p <= b) by lia. unfold p_bound in Lp. intros x o' [Q|I].
    - injection Q as <- <-. split; [lia|]. assert (Lo : os_bound (map snd (ph_in p)) <= b) by lia. rewrite os_le in Lo. apply Lo.
      clear - El. induction (ph_in p) as [|[y q] l IH]; cbn [lookup] in El; [discriminate|]. destruct (y =? from); [injection El as ->; now left|right; auto].
    - apply (IH l); auto. unfold max_of. lia.
  Qed.
  Lemma pairs_fst {A} (g : operand -> Res A) inc vs : pairs g inc = Ok vs -> map fst vs = map fst inc.
  Proof.
    revert vs. induction inc as [|[x o] inc IH]; intros vs; cbn [pairs]; [intros E; injection E as <-; reflexivity|]. destruct (g o) as [v| | |]; try discriminate. cbn [bind].
    destruct (pairs g inc) as [l| | |]; try discriminate. cbn [bind]. intros E. injection E as <-. cbn [map fst]. f_equal. now apply IH.
  Qed.
  Lemma pairs_ext {A} (g g' : operand -> Res A) inc : (forall x o, In (x, o) inc -> g o = g' o) -> pairs g inc = pairs g' inc.
  Proof.
    induction inc as [|[x o] inc IH]; intros H; [reflexivity|]. cbn [pairs]. rewrite (H x o) by now left. rewrite IH; [reflexivity|]. intros y q I. apply (H y q). now right.
  Qed.

  (** ** One step *)
  Definition simple (i : instr) : bool := match i with ICall _ _ _ | ILib _ _ _ => false | _ => true end.
  Lemma sstep_simple Q S a fr below i rest : s_frames S = fr :: below -> f_rest fr = i :: rest -> simple i = true ->
    sstep true argv Q S a =
    do em <- app_exec i (f_regs fr) (s_mem S) a;
    do ds <- flow_exec true i (f_regs fr) (f_deps fr) (s_ast S);
    Ok (mkS (mkFrame (f_fn fr) (f_blk fr) rest (f_term fr) (fst em) (fst ds) (f_dst fr) :: below) (snd em) (snd ds) (s_log S)).
  Proof. intros F R Pl. unfold sstep. rewrite F, R. destruct i; try discriminate; reflexivity. Qed.
  Lemma simple_calls S fr below i rest : s_frames S = fr :: below -> f_rest fr = i :: rest -> simple i = true -> calls S = false.
  Proof. intros F R Pl. unfold calls. rewrite F, R. destruct i; try discriminate; reflexivity. Qed.
  Ltac inserted := unfold sstep, wstep, take; cbn [s_frames f_rest fst snd].

  Lemma note_sim S' w a S1 fr' fr below' below ns nt : s_mem S' = s_mem (fst w) -> s_ast S' = s_ast (fst w) -> s_log S' = s_log (fst w) ->
    s_frames S' = fr' :: below' -> s_frames (fst w) = fr :: below -> snd w = nt :: ns ->
    Forall2 (waiting (s_ast S')) below' below -> dsts (s_frames (fst w)) ->
    (exists fr1, S1 = mkS (fr1 :: below') (s_mem S')
                   (estep argv (p_set (s_ast S') VALUE (note_deps (f_deps fr) nt)) (note_event (s_ast S') (s_mem S') nt a))
                   (s_log S' ++ flow_of (p_set (s_ast S') VALUE (note_deps (f_deps fr) nt)) (note_event (s_ast S') (s_mem S') nt a)) /\
       frame_rel (s_ast S1) ns fr1 fr) ->
    exists w1, wstep W argv P w a = Ok w1 /\ srel S1 w1.
  Proof.
    intros Em Ea El F' F N0 B D (fr1 & -> & R). unfold wstep. rewrite N0. eexists. split; [reflexivity|]. unfold take. rewrite F. cbn [fst snd s_frames s_mem s_ast s_log].
    rewrite <- Em, <- Ea, <- El. split; [reflexivity|]. split; [reflexivity|]. split; [reflexivity|]. cbn [fst snd s_frames s_mem s_ast s_log stack]. split; [|now rewrite <- F].
    split; [exact R|]. apply waiting_keeps with (s_ast S'); [|exact B]. apply kept_step. reflexivity.
  Qed.

  Lemma step_sim S' w a S1 : srel S' w -> sstep true argv P' S' a = Ok S1 -> answers S' a ->
    srel S1 w \/ exists w1, wstep W argv P w a = Ok w1 /\ srel S1 w1.
  Proof.
    intros (Em & Ea & El & St & Ds) E An. unfold sstep in E. destruct (s_frames S') as [|fr' below'] eqn:F'; [discriminate|].
    destruct (s_frames (fst w)) as [|fr below] eqn:F; [destruct St|]. cbn [stack] in St. destruct St as [R B]. destruct R as (rho & E1 & E2 & E3 & E4 & A & inn & H & C & Tr).
    remember (f_rest fr') as rest' eqn:Er'. remember (f_term fr') as t' eqn:Et'. remember (f_rest fr) as rest eqn:Er. remember (f_term fr) as t eqn:Et. remember (snd w) as ns eqn:En.
    assert (Nx := fun v => An (p_set (s_ast S') VALUE v)). unfold answers, next_event in An. rewrite F', <- Er' in An. clear Nx.
    destruct C as [inn rho k o' o rest' t' ns rest t Fk T C|inn rho k o' o fid rest' t' ns rest t Fk T C|inn rho o' o rest' t' ns rest t T C|inn rho fid rest' t' ns rest t C|inn rho fid rest' t' ns rest t C
      |inn rho o1 o2 rest' t' ns rest t C|k name rest' t' ns rest t Q C|rho k name rest' t' ns rest t Q C|inn rho i' i rest' t' rest t Al C|rho t' t Al].
    - (* a copy *)
      left. destruct (tr_value _ _ _ _ _ _ _ _ A H T) as [V D]. destruct Fk as [Lk Nk]. cbn [app_exec flow_exec values map concat] in E. rewrite V in E.
      destruct (value (f_regs fr) o) as [v| | |] eqn:Ev; try discriminate. cbn [bind keep pure c_fun fst snd] in E. rewrite app_nil_r, D in E. injection E as <-.
      split; [exact Em|]. split; [exact Ea|]. split; [exact El|]. cbn [s_frames s_ast snd]. rewrite F, <- En. split; [|exact Ds]. cbn [stack]. split; [|exact B].
      exists ((k, o) :: rho). split; [exact E1|]. split; [exact E2|]. split; [exact E3|]. try rewrite <- Et. split; [exact E4|]. cbn [f_regs f_deps f_rest f_term].
      split; [now apply agrees_new|]. exists inn. split; [now apply holds_new|]. try rewrite <- Et'; try rewrite <- Er. split; [exact C|].
      intros I k0 name0 Qk. destruct (Tr I k0 name0 Qk) as (i & R & X). exists i. split; [|exact X]. unfold put. destruct (N.eqb_spec k0 k) as [->|]; [now destruct (Nk name0)|exact R].
    - (* a decision *)
      right. destruct (tr_value _ _ _ _ _ _ _ _ A H T) as [V D]. destruct Fk as [Lk Nk]. cbn [values value] in E. rewrite V in E.
      destruct (value (f_regs fr) o) as [v| | |] eqn:Ev; try discriminate. cbn [bind] in E.
      apply (note_sim S' w a S1 fr' fr below' below ns (NDecides fid o)); auto; [now rewrite F|]. cbn in E. rewrite D in E. injection E as <-. eexists. split; [reflexivity|].
      exists ((k, o) :: rho). split; [exact E1|]. split; [exact E2|]. split; [exact E3|]. try rewrite <- Et. split; [exact E4|]. cbn [f_regs f_deps f_rest f_term].
      split; [now apply agrees_new|]. exists inn. split; [now apply holds_new|]. try rewrite <- Et'; try rewrite <- Er. split; [exact C|].
      intros I k0 name0 Qk. destruct (Tr I k0 name0 Qk) as (i & R & X). exists i. split; [|exact X]. unfold put. destruct (N.eqb_spec k0 k) as [->|]; [now destruct (Nk name0)|exact R].
    - (* a branch *)
      right. destruct (tr_value _ _ _ _ _ _ _ _ A H T) as [V D]. cbn [values value] in E. rewrite V in E.
      destruct (value (f_regs fr) o) as [v| | |] eqn:Ev; try discriminate. cbn [bind] in E.
      apply (note_sim S' w a S1 fr' fr below' below ns (NBranch o)); auto; [now rewrite F|]. cbn in E. rewrite D in E. injection E as <-. eexists. split; [reflexivity|].
      exists rho. split; [exact E1|]. split; [exact E2|]. split; [exact E3|]. try rewrite <- Et. split; [exact E4|]. cbn [f_regs f_deps f_rest f_term].
      split; [exact A|]. exists inn. split; [exact H|]. try rewrite <- Et'; try rewrite <- Er. split; [exact C|exact Tr].
    - right. apply (note_sim S' w a S1 fr' fr below' below ns (NEnter fid)); auto; [now rewrite F|]. cbn in E. injection E as <-. eexists. split; [reflexivity|].
      exists rho. split; [exact E1|]. split; [exact E2|]. split; [exact E3|]. try rewrite <- Et. split; [exact E4|]. cbn [f_regs f_deps f_rest f_term].
      split; [exact A|]. exists inn. split; [exact H|]. try rewrite <- Et'; try rewrite <- Er. split; [exact C|exact Tr].
    - right. apply (note_sim S' w a S1 fr' fr below' below ns (NLeave fid)); auto; [now rewrite F|]. cbn in E. injection E as <-. eexists. split; [reflexivity|].
      exists rho. split; [exact E1|]. split; [exact E2|]. split; [exact E3|]. try rewrite <- Et. split; [exact E4|]. cbn [f_regs f_deps f_rest f_term].
      split; [exact A|]. exists inn. split; [exact H|]. try rewrite <- Et'; try rewrite <- Er. split; [exact C|exact Tr].
    - (* arguments *)
      right. cbn [values] in E. destruct (value (f_regs fr') o1) as [v1| | |]; try discriminate. cbn [bind] in E. destruct (value (f_regs fr') o2) as [v2| | |]; try discriminate. cbn [bind] in E.
      apply (note_sim S' w a S1 fr' fr below' below ns NArgv); auto; [now rewrite F|]. cbn - [estep] in E. injection E as <-. eexists. split; [reflexivity|].
      exists rho. split; [exact E1|]. split; [exact E2|]. split; [exact E3|]. try rewrite <- Et. split; [exact E4|]. cbn [f_regs f_deps f_rest f_term].
      split; [exact A|]. exists inn. split; [exact H|]. try rewrite <- Et'; try rewrite <- Er. split; [exact C|].
      intros I k0 name0 Qk. destruct (Tr I k0 name0 Qk) as (i & R & X). exists i. split; [exact R|]. exact (kept_step (s_ast S') (p_set (s_ast S') VALUE []) (EArgv (s_mem S') (an_args a)) eq_refl name0 i X).
    - (* the function trace: entry *)
      right. apply (note_sim S' w a S1 fr' fr below' below ns (NCall name)); auto; [now rewrite F|].
      cbn - [estep] in An. specialize (An _ _ eq_refl). cbn [answered] in An. cbn - [estep] in E. injection E as <-. eexists. split; [reflexivity|].
      exists []. split; [exact E1|]. split; [exact E2|]. split; [exact E3|]. try rewrite <- Et. split; [exact E4|]. cbn [f_regs f_deps f_rest f_term s_ast].
      assert (Wf : bd (f_fn fr) <= k).
      { destruct E4 as (f & Gf & _). rewrite (bd_eq _ f Gf). specialize (Wv (f_fn fr)). rewrite Gf in Wv. destruct (get P' (f_fn fr)) as [f'|]; [|destruct Wv]. exact (wv_kf _ _ _ Wv k name Q). }
      split; [now apply agrees_new|]. exists true. split; [intros r o L Ql; discriminate|].
      try rewrite <- Et'; try rewrite <- Er. split; [exact C|].
      intros _ k0 name0 Qk. rewrite Q in Qk. injection Qk as <- <-. exists (an_val a). unfold put. rewrite N.eqb_refl. auto.
    - (* ... and exit *)
      right. destruct (Tr eq_refl k name Q) as (i & R & X). cbn [values value] in E. rewrite R in E. cbn [bind] in E.
      apply (note_sim S' w a S1 fr' fr below' below ns (NReturn name)); auto; [now rewrite F|]. cbn - [estep index_of] in *. rewrite X. injection E as <-. eexists. split; [reflexivity|].
      exists rho. split; [exact E1|]. split; [exact E2|]. split; [exact E3|]. try rewrite <- Et. split; [exact E4|]. cbn [f_regs f_deps f_rest f_term].
      split; [exact A|]. exists true. split; [exact H|]. try rewrite <- Et'; try rewrite <- Er. split; [exact C|exact Tr].
    - (* an instruction of the program *)
      right. destruct (simple i) eqn:Pl.
      + assert (Pl' : simple i' = true) by (destruct Al; auto).
        assert (E' := sstep_simple P' S' a fr' below' i' rest' F' (eq_sym Er') Pl'). unfold sstep in E'. rewrite F', <- Er', <- Et' in E'. rewrite E' in E. clear E'.
        destruct (app_exec i' (f_regs fr') (s_mem S') a) as [[e1' m1]| | |] eqn:Ex; try discriminate. cbn [bind fst snd] in E.
        destruct (flow_exec true i' (f_regs fr') (f_deps fr') (s_ast S')) as [[d1' s1]| | |] eqn:Fx; try discriminate. cbn [bind fst snd] in E. injection E as <-.
        destruct (alike_exec _ _ _ _ _ _ _ _ _ _ _ _ _ _ _ Al A H Ex Fx) as (e1 & d1 & Ex1 & Fx1 & A1 & Ab).
        unfold wstep. rewrite <- En. rewrite (sstep_simple P (fst w) a fr below i rest F (eq_sym Er) Pl), <- Em, <- Ea, Ex1. cbn [bind fst snd]. rewrite Fx1. cbn [bind fst snd].
        rewrite (simple_calls (fst w) fr below i rest F (eq_sym Er) Pl). eexists. split; [reflexivity|]. assert (Kp := kept_flow _ _ _ _ _ _ Fx).
        split; [reflexivity|]. split; [reflexivity|]. split; [exact El|]. cbn [fst snd s_frames s_mem s_ast s_log app before_next]. split.
        * cbn [stack]. split; [|now apply waiting_keeps with (s_ast S')]. cbn [f_fn f_rest f_term].
          exists []. split; [exact E1|]. split; [exact E2|]. split; [exact E3|]. try rewrite <- Et. split; [exact E4|]. cbn [f_regs f_deps f_rest f_term f_fn].
          split; [exact A1|]. exists inn. split; [intros r o L Q; discriminate|]. try rewrite <- Et'. split; [exact C|].
          intros I k0 name0 Qk. destruct (Tr I k0 name0 Qk) as (j & R & X). exists j. split; [|now apply Kp]. rewrite Ab; [exact R|].
          destruct E4 as (f & Gf & _). rewrite (bd_eq _ f Gf). specialize (Wv (f_fn fr)). rewrite Gf in Wv. destruct (get P' (f_fn fr)) as [f'|]; [|destruct Wv]. exact (wv_kf _ _ _ Wv k0 name0 Qk).
        * exact Ds.
      + assert (Ii : i' = i /\ i_bound i <= bd (f_fn fr)) by (destruct Al; try discriminate; auto). destruct Ii as [-> Lb].
        destruct i as [| | | | | | | | | |dst callee args|dst k args]; try discriminate.
        * (* a call *)
          cbn [i_bound] in Lb. assert (La : os_bound (callee :: args) <= bd (f_fn fr)) by lia. rewrite os_le in La. destruct (own_value _ _ _ _ _ callee A) as [Vc _]; [apply La; now left|].
          destruct (own_values _ _ _ _ _ args A) as [Va Da]; [apply os_le; intros o I; apply La; now right|]. rewrite Vc, Va, Da in E.
          unfold wstep. rewrite <- En. unfold sstep. rewrite F, <- Er. destruct (value (f_regs fr) callee) as [c| | |]; try discriminate. cbn [bind] in *.
          destruct (values (f_regs fr) args) as [vals| | |] eqn:Ev; try discriminate. cbn [bind] in *.
          assert (Wc := Wv c). destruct (get P' c) as [fc'|] eqn:Gc'; [|discriminate]. destruct (get P c) as [fc|] eqn:Gc; [|destruct Wc].
          rewrite (wv_native _ _ _ Wc) in E. destruct (fn_native fc); [discriminate|].
          destruct (enter c fc' vals (arg_deps true (map (dep (f_deps fr)) args)) dst) as [new'| | |] eqn:En'; try discriminate. cbn [bind] in E. injection E as <-.
          destruct (enter_sim (s_ast S') c fc fc' vals _ dst new' Gc Gc' En') as (new & Enn & F1 & F2 & Rn).
          { assert (Lv : forall os vs, values (f_regs fr) os = Ok vs -> length vs = length os).
            { induction os as [|o os IH]; intros vs; cbn [values]; [intros Q; injection Q as <-; reflexivity|]. destruct (value (f_regs fr) o) as [x| | |]; try discriminate. cbn [bind].
              destruct (values (f_regs fr) os) as [xs| | |]; try discriminate. cbn [bind]. intros Q. injection Q as <-. cbn [length]. f_equal. now apply IH. }
            unfold len, arg_deps. rewrite map_length, combine_length, nseq_length, map_length, Nat.min_id. now rewrite (Lv _ _ Ev). }
          rewrite Enn. cbn [bind]. eexists. split; [reflexivity|]. split; [exact Em|]. split; [exact Ea|]. split; [exact El|]. cbn [fst snd s_frames s_ast].
          unfold calls, on_entry, before_next. rewrite F, <- Er. cbn [s_frames]. split.
          -- cbn [stack]. rewrite F1. split; [exact Rn|]. constructor; [|exact B]. unfold waiting. cbn [f_fn f_rest f_term].
             split; [exact E1|]. split; [exact E2|]. split; [exact E3|]. try rewrite <- Et. split; [exact E4|]. cbn [f_regs f_deps f_rest f_term f_fn]. split; [exact A|].
             exists inn. split; [intros r o L Q; discriminate|]. try rewrite <- Et'. split; [exact C|exact Tr].
          -- cbn [dsts dst_below f_fn]. split; [|exact Ds]. intros x Q. rewrite F2 in Q. rewrite Q in Lb. cbn [d_bound] in Lb. cbn [f_fn]. lia.
        * (* a call of libc *)
          cbn [i_bound] in Lb. destruct (own_values _ _ _ _ _ args A) as [Va Da]; [lia|]. rewrite Va in E. unfold wstep. rewrite <- En. unfold sstep. rewrite F, <- Er.
          destruct (values (f_regs fr) args) as [vals| | |]; try discriminate. cbn [bind] in *. rewrite <- Em. destruct (lib_event k vals (s_mem S') a) as [v| | |]; try discriminate. cbn [bind] in *.
          assert (Dp : match passed k args with Some o => dep (f_deps fr') o | None => [] end = match passed k args with Some o => dep (f_deps fr) o | None => [] end).
          { destruct (passed k args) as [o|] eqn:Ep; [|reflexivity]. apply (own_value _ _ _ _ _ o A). assert (La : os_bound args <= bd (f_fn fr)) by lia. rewrite os_le in La. apply La.
            clear - Ep. destruct k; cbn [passed] in Ep; try discriminate; destruct args; try discriminate; cbn in Ep; injection Ep as ->; now left. }
          rewrite Dp in E. rewrite <- Ea. set (ds := match passed k args with Some o => dep (f_deps fr) o | None => [] end) in *. set (s1 := p_set (s_ast S') VALUE ds) in *.
          assert (Kp : names_kept (s_ast S') (estep argv s1 v)) by (apply kept_step; reflexivity).
          assert (Wf : forall k0 name0, kf (f_fn fr) = Some (k0, name0) -> bd (f_fn fr) <= k0).
          { destruct E4 as (f & Gf & _). rewrite (bd_eq _ f Gf). specialize (Wv (f_fn fr)). rewrite Gf in Wv. destruct (get P' (f_fn fr)) as [f'|]; [|destruct Wv]. exact (wv_kf _ _ _ Wv). }
          destruct dst as [x|]; cbn [set_result bind d_bound f_regs f_deps f_fn f_blk f_rest f_term f_dst] in *; injection E as <-; eexists; (split; [reflexivity|]);
            (split; [reflexivity|]); (split; [reflexivity|]); (split; [cbn [s_log fst]; now rewrite El|]); cbn [fst snd s_frames s_ast]; unfold calls, before_next; rewrite F, <- Er; cbn [s_frames app f_fn f_rest f_term]; (split; [|exact Ds]);
            cbn [stack]; (split; [|now apply waiting_keeps with (s_ast S')]); exists []; (split; [exact E1|]); (split; [exact E2|]); (split; [exact E3|]); try rewrite <- Et; (split; [exact E4|]); cbn [f_regs f_deps f_rest f_term f_fn].
          -- split; [now apply agrees_put|]. exists inn. split; [intros r o L Q; discriminate|]. try rewrite <- Et'. split; [exact C|].
             intros I k0 name0 Qk. destruct (Tr I k0 name0 Qk) as (j & R & X). exists j. split; [|now apply Kp]. unfold put. specialize (Wf k0 name0 Qk). destruct (N.eqb_spec k0 x); [lia|exact R].
          -- split; [exact A|]. exists inn. split; [intros r o L Q; discriminate|]. try rewrite <- Et'. split; [exact C|].
             intros I k0 name0 Qk. destruct (Tr I k0 name0 Qk) as (j & R & X). exists j. split; [exact R|now apply Kp].
    - (* the end of a block *)
      right. unfold wstep. rewrite <- En. unfold sstep. rewrite F, <- Er. rewrite <- Et. destruct (match t' with Ret _ => true | _ => false end) eqn:Rt.
      + destruct t' as [| | |v]; try discriminate. destruct (alike_ret' _ _ _ _ Al) as [Eq Lb]. rewrite Eq. clear Eq. try rewrite <- Et' in E.
        assert (Vo : match v with Some o => value (f_regs fr') o = value (f_regs fr) o /\ dep (f_deps fr') o = dep (f_deps fr) o | None => True end).
        { destruct v as [o|]; [|exact I]. cbn [t_bound] in Lb. now apply own_value with (bd (f_fn fr)). }
        destruct below' as [|c' below']; inversion B as [|x c y below0 Wc B0]; subst.
        * assert (Q : match v with Some o => value (f_regs fr) o | None => Ok 0 end = match v with Some o => value (f_regs fr') o | None => Ok 0 end) by (destruct v as [o|]; [symmetry; apply Vo|reflexivity]).
          rewrite Q. destruct (match v with Some o => value (f_regs fr') o | None => Ok 0 end) as [z| | |]; try discriminate. cbn [bind] in *. injection E as <-. eexists. split; [reflexivity|].
          split; [exact Em|]. split; [exact Ea|]. split; [exact El|]. cbn [fst snd s_frames]. unfold calls. rewrite F, <- Er. split; [reflexivity|exact I].
        * set (q' := match v with Some o => do x <- value (f_regs fr') o; Ok (Some x) | None => Ok None end) in *.
          set (q := match v with Some o => do x <- value (f_regs fr) o; Ok (Some x) | None => Ok None end) in *.
          assert (Q : q = q') by (unfold q, q'; destruct v as [o|]; [destruct Vo as [-> _]|]; reflexivity). rewrite Q. destruct q' as [r| | |]; try discriminate. cbn [bind] in *.
          assert (Dp : match v with Some o => dep (f_deps fr') o | None => [] end = match v with Some o => dep (f_deps fr) o | None => [] end) by (destruct v as [o|]; [apply Vo|reflexivity]). rewrite Dp in E.
          set (ds := match v with Some o => dep (f_deps fr) o | None => [] end) in *. rewrite E3 in E. destruct Ds as [Dd Ds]. cbn [dst_below] in Dd.
          destruct Wc as (G1 & G2 & G3 & G4 & Ac & inc & Hc & Cc & Tc). unfold set_result in *.
          assert (Wf : forall k0 name0, kf (f_fn c) = Some (k0, name0) -> bd (f_fn c) <= k0).
          { destruct G4 as (f & Gf & _). rewrite (bd_eq _ f Gf). specialize (Wv (f_fn c)). rewrite Gf in Wv. destruct (get P' (f_fn c)) as [f'|]; [|destruct Wv]. exact (wv_kf _ _ _ Wv). }
          destruct (f_dst fr) as [x|] eqn:Ed; [destruct r as [r|]; [|discriminate]|]; cbn [bind] in *; injection E as <-; eexists; (split; [reflexivity|]); (split; [exact Em|]); (split; [exact Ea|]); (split; [exact El|]);
            cbn [fst snd s_frames s_ast]; unfold calls, before_next; rewrite F, <- Er; cbn [s_frames app f_fn f_rest f_term].
          -- assert (Co : code W (f_fn c) (bd (f_fn c)) (kf (f_fn c)) inc [] (f_rest c') (f_term c') (at_position W (f_fn c) (f_rest c) (f_term c)) (f_rest c) (f_term c)) by exact Cc.
             split; [|exact Ds]. cbn [stack]. split; [|exact B0]. exists []. split; [exact G1|]. split; [exact G2|]. split; [exact G3|]. split; [exact G4|]. cbn [f_regs f_deps f_rest f_term f_fn].
             specialize (Dd x eq_refl). split; [now apply agrees_put|]. exists inc. split; [|split; [exact Co|]].
             ++ intros r0 o L Q0. discriminate.
             ++ intros I k0 name0 Qk. destruct (Tc I k0 name0 Qk) as (j & R & X). exists j. split; [|exact X]. unfold put. specialize (Wf k0 name0 Qk). destruct (N.eqb_spec k0 x); [lia|exact R].
          -- split; [|exact Ds]. cbn [stack]. split; [|exact B0]. exists []. split; [exact G1|]. split; [exact G2|]. split; [exact G3|]. split; [exact G4|]. split; [exact Ac|]. exists inc. auto.
      + assert (E' : (do b <- target (f_regs fr') t';
              match get P' (f_fn fr') with
              | Some f =>
                  match get (fn_blocks f) b with
                  | Some blk =>
                      do inc <- incoming (f_blk fr') (b_phis blk);
                      do vs <- pairs (fun o => do v <- value (f_regs fr') o; Ok (Some v)) inc;
                      do ds <- pairs (fun o => Ok (dep (f_deps fr') o)) inc;
                      Ok (mkS (mkFrame (f_fn fr') b (b_body blk) (b_term blk) (assign (f_regs fr') vs)
                                       (assign (f_deps fr') ds) (f_dst fr') :: below')
                              (s_mem S') (s_ast S') (s_log S'))
                  | None => UB
                  end
              | None => UB
              end) = Ok S1) by (destruct t'; try discriminate; exact E). clear E. rename E' into E.
        destruct (target (f_regs fr') t') as [j| | |] eqn:Tg; try discriminate. cbn [bind] in E.
        destruct (target_alike _ _ _ _ _ _ _ _ _ Al A H Tg) as [Tg2 Jt].
        destruct E4 as (f & Gf & bk & Ib & Eb). assert (Nj : j <> 0) by (intros ->; apply (Ne _ _ _ Gf Ib); now rewrite Eb).
        assert (Wf := Wv (f_fn fr)). rewrite Gf in Wf. rewrite E1, E2 in E. destruct (get P' (f_fn fr)) as [f'|] eqn:Gf'; [|destruct Wf].
        assert (Wb := wv_block _ _ _ Wf j Nj). destruct (get (fn_blocks f') j) as [blk'|] eqn:Gb'; [|discriminate]. destruct (get (fn_blocks f) j) as [blk|] eqn:Gb; [|destruct Wb].
        destruct Wb as (Ph & Lp & Cb). rewrite Ph in E. destruct (incoming (f_blk fr) (b_phis blk)) as [inc| | |] eqn:Ei; try discriminate. cbn [bind] in E.
        assert (Ow := incoming_own _ _ _ _ Lp Ei). rewrite (bd_eq _ _ Gf) in A, H.
        rewrite (pairs_ext (fun o => do v <- value (f_regs fr') o; Ok (Some v)) (fun o => do v <- value (f_regs fr) o; Ok (Some v)) inc) in E
          by (intros x o I; destruct (own_value _ _ _ _ _ o A) as [-> _]; [now apply (Ow x)|reflexivity]).
        rewrite (pairs_ext (fun o => Ok (dep (f_deps fr') o)) (fun o => Ok (dep (f_deps fr) o)) inc) in E
          by (intros x o I; destruct (own_value _ _ _ _ _ o A) as [_ ->]; [now apply (Ow x)|reflexivity]).
        destruct (pairs (fun o => do v <- value (f_regs fr) o; Ok (Some v)) inc) as [vs| | |] eqn:Pv; try discriminate. cbn [bind] in E.
        destruct (pairs (fun o => Ok (dep (f_deps fr) o)) inc) as [ds| | |] eqn:Pd; try discriminate. cbn [bind] in E. injection E as <-.
        assert (G : (do S1 <- (do b <- target (f_regs fr) t;
              match get P (f_fn fr) with
              | Some f =>
                  match get (fn_blocks f) b with
                  | Some blk =>
                      do inc <- incoming (f_blk fr) (b_phis blk);
                      do vs <- pairs (fun o => do v <- value (f_regs fr) o; Ok (Some v)) inc;
                      do ds <- pairs (fun o => Ok (dep (f_deps fr) o)) inc;
                      Ok (mkS (mkFrame (f_fn fr) b (b_body blk) (b_term blk) (assign (f_regs fr) vs)
                                       (assign (f_deps fr) ds) (f_dst fr) :: below)
                              (s_mem (fst w)) (s_ast (fst w)) (s_log (fst w)))
                  | None => UB
                  end
              | None => UB
              end);
              Ok (S1, (if calls (fst w) then on_entry W S1 else []) ++ before_next W S1)) =
            Ok (mkS (mkFrame (f_fn fr) j (b_body blk) (b_term blk) (assign (f_regs fr) vs) (assign (f_deps fr) ds) (f_dst fr) :: below) (s_mem (fst w)) (s_ast (fst w)) (s_log (fst w)),
                at_position W (f_fn fr) (b_body blk) (b_term blk))).
        { rewrite Tg2. cbn [bind]. rewrite Gf, Gb, Ei. cbn [bind]. rewrite Pv. cbn [bind]. rewrite Pd. cbn [bind]. unfold calls. rewrite F, <- Er. reflexivity. }
        assert (Rt2 : match t with Ret _ => true | _ => false end = false) by (destruct Al; auto).
        eexists. split; [destruct t; try discriminate; exact G|]. clear G.
        split; [exact Em|]. split; [exact Ea|]. split; [exact El|]. cbn [fst snd s_frames s_ast]. split; [|exact Ds]. cbn [stack]. split; [|exact B].
        exists []. split; [reflexivity|]. split; [reflexivity|]. split; [exact E3|]. cbn [f_fn f_term]. split; [exists f; split; [exact Gf|]; exists blk; split; [exact (nth_error_In _ _ Gb)|reflexivity]|].
        cbn [f_regs f_deps f_rest]. rewrite (bd_eq _ _ Gf). split; [apply agrees_assign; [exact A|]; rewrite (pairs_fst _ _ _ Pv), (pairs_fst _ _ _ Pd); reflexivity|].
        exists true. split; [intros r o L Q; discriminate|]. split; [exact Cb|].
        intros _ k0 name0 Qk. destruct (Tr eq_refl k0 name0 Qk) as (i & R & X). exists i. split; [|exact X].
        rewrite above_assign with (b := fresh f); [exact R| |exact (wv_kf _ _ _ Wf k0 name0 Qk)].
        intros x I. rewrite (pairs_fst _ _ _ Pv) in I. apply in_map_iff in I as ([x' o] & <- & I). now apply (Ow x' o).
  Qed.

  (** ** Runs *)
  (** Function-entry callbacks return the index of the name, throughout. *)
  Fixpoint answers_run (S' : sstate) (as_ : list answer) : Prop :=
    match as_ with
    | [] => True
    | a :: rest => answers S' a /\ forall S1, sstep true argv P' S' a = Ok S1 -> answers_run S1 rest
    end.
  Lemma run_sim as_ : forall S' w S1, srel S' w -> srun true argv P' S' as_ = Ok S1 -> answers_run S' as_ ->
    exists bs w1, part bs as_ /\ wrun W argv P w bs = Ok w1 /\ srel S1 w1.
  Proof.
    induction as_ as [|a as_ IH]; intros S' w S1 R E An; cbn [srun] in E.
    - injection E as <-. exists [], w. split; [constructor|auto].
    - destruct (sstep true argv P' S' a) as [S2| | |] eqn:Es; try discriminate. cbn [bind] in E. destruct An as [An Ar]. specialize (Ar S2 Es).
      destruct (step_sim S' w a S2 R Es An) as [R2|(w2 & Ew & R2)].
      + destruct (IH S2 w S1 R2 E Ar) as (bs & w1 & Pt & Er & R1). exists bs, w1. split; [now constructor|auto].
      + destruct (IH S2 w2 S1 R2 E Ar) as (bs & w1 & Pt & Er & R1). exists (a :: bs), w1. split; [now constructor|]. cbn [wrun]. rewrite Ew. auto.
  Qed.
  Lemma start_sim main vals m s S' : sstart P' main vals m s = Ok S' -> exists S, sstart P main vals m s = Ok S /\ srel S' (wstart W S).
  Proof.
    unfold sstart. intros E. assert (Wm := Wv main). destruct (get P' main) as [f'|] eqn:G'; [|discriminate]. destruct (get P main) as [f|] eqn:G; [|destruct Wm].
    destruct (enter main f' vals (map (fun _ => []) vals) None) as [fr'| | |] eqn:En; try discriminate. cbn [bind] in E. injection E as <-.
    destruct (enter_sim s main f f' vals _ None fr' G G' En) as (fr & -> & F1 & F2 & R); [unfold len; now rewrite map_length|]. cbn [bind]. eexists. split; [reflexivity|].
    unfold srel, wstart, on_entry, before_next. cbn [fst snd s_frames s_mem s_ast s_log stack dsts dst_below]. rewrite F1. repeat split; auto.
  Qed.
End Sim.
