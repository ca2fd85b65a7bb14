(** The passes weave: what they produce is related to the program they start from. *)
From Coq Require Import NArith ZArith List Bool Lia.
From Verif Require Import M_Base M_Memory M_Functions M_Dfsan M_Llvm M_LlvmPasses S_Functions S_Api S_Runtime S_DataFlow S_Demand S_Watch P_Base P_ApiMem P_Watch P_WatchStep.
Import ListNotations.
Open Scope N_scope.

Lemma max_cons x l : max_of (x :: l) = N.max x (max_of l).
Proof. reflexivity. Qed.
Lemma max_app l l' : max_of (l ++ l') = N.max (max_of l) (max_of l').
Proof. induction l as [|x l IH]; [cbn [app]; change (max_of []) with 0; lia|]. cbn [app]. rewrite !max_cons, IH. lia. Qed.

Section Weave.
  Variables (n b : N).
  Definition keys (k : N) (rho : list (N * operand)) : Prop := forall r o, lookup rho r = Some o -> r < k.
  Definition grows (rho rho2 : list (N * operand)) : Prop := forall o' o, tr b rho o' o -> tr b rho2 o' o.

  Lemma keys_nil k : keys k [].
  Proof. intros r o H. discriminate. Qed.
  Lemma keys_cons k k1 x rho : keys k rho -> k < k1 -> keys k1 ((k, x) :: rho).
  Proof. intros K L r o. cbn [lookup]. destruct (N.eqb_spec k r); [intros _; lia|]. intros H. apply K in H. lia. Qed.
  Lemma keys_le k k1 rho : keys k rho -> k <= k1 -> keys k1 rho.
  Proof. intros K L r o H. apply K in H. lia. Qed.
  Lemma keys_add k k1 x rho : keys k rho -> k1 < k -> keys k ((k1, x) :: rho).
  Proof. intros K L r o. cbn [lookup]. destruct (N.eqb_spec k1 r); [intros _; lia|]. apply K. Qed.
  Lemma grows_refl rho : grows rho rho.
  Proof. intros o' o H. exact H. Qed.
  Lemma grows_trans r1 r2 r3 : grows r1 r2 -> grows r2 r3 -> grows r1 r3.
  Proof. intros A B o' o H. auto. Qed.
  Lemma grows_cons k x rho : keys k rho -> grows rho ((k, x) :: rho).
  Proof.
    intros K [v|r] o; cbn [tr]; [auto|]. intros [H|[L E]]; [now left|]. right. split; [exact L|]. cbn [lookup]. destruct (N.eqb_spec k r); [|exact E]. apply K in E. lia.
  Qed.
  Lemma tr_own rho o : o_bound o <= b -> tr b rho o o.
  Proof. destruct o as [v|r]; cbn [o_bound tr]; [reflexivity|]. intros L. left. split; [lia|reflexivity]. Qed.
  Lemma tr_last k x rho : b <= k -> tr b ((k, x) :: rho) (OReg k) x.
  Proof. intros L. right. cbn [lookup]. rewrite N.eqb_refl. auto. Qed.
  Lemma free_none k : b <= k -> free b None k.
  Proof. intros L. split; [exact L|discriminate]. Qed.
  Lemma grows_all rho rho2 os' os : grows rho rho2 -> Forall2 (tr b rho) os' os -> Forall2 (tr b rho2) os' os.
  Proof. intros G F. induction F; constructor; auto. Qed.
  Lemma alike_grows rho rho2 i' i : grows rho rho2 -> alike b rho i' i -> alike b rho2 i' i.
  Proof. intros G [i0 L|dst os' os f L F Ic|dst c' c x y L T L2]; constructor; auto. now apply grows_all with rho. Qed.
  Lemma alike_term_grows rho rho2 t' t : grows rho rho2 -> alike_term b rho t' t -> alike_term b rho2 t' t.
  Proof. intros G [t0 L|c' c b1 b2 T|c' c cs d T]; constructor; auto. Qed.

  Lemma code_ext W W' kf inn rho rest' t' ns rest t : (forall rest t, at_position W n rest t = at_position W' n rest t) ->
    code W n b kf inn rho rest' t' ns rest t -> code W' n b kf inn rho rest' t' ns rest t.
  Proof.
    intros X C. induction C; try (econstructor; now eauto).
    apply co_instr; [assumption|]. now rewrite <- X.
  Qed.

  (** ** Nothing put in *)
  Lemma code_same W rest t : (forall rest t, at_position W n rest t = []) -> max_of (map i_bound rest) <= b -> t_bound t <= b ->
    code W n b None true [] rest t [] rest t.
  Proof.
    intros X. induction rest as [|i rest IH]; intros L Lt.
    - apply co_term. now constructor.
    - cbn [map] in L. rewrite max_cons in L. apply co_instr; [constructor; lia|]. rewrite X. apply IH; [lia|exact Lt].
  Qed.

  (** ** pt-tcf *)
  Definition tcf_notes (fid : N) (rest : list instr) (t : term) : list note :=
    match rest with
    | i :: _ => map (NDecides fid) (indices i ++ selected_by i)
    | [] => map (NDecides fid) (conditions t) ++ (if returns t then [NLeave fid] else [])
    end.
  Lemma route_ok W inn k fid o rho rest' t' ns rest t c o' k1 : route k fid o = (c, o', k1) -> b <= k -> keys k rho -> o_bound o <= b ->
    k <= k1 /\ is_const o' = false /\
    exists rho2, grows rho rho2 /\ keys k1 rho2 /\ tr b rho2 o' o /\
      (code W n b None inn rho2 rest' t' ns rest t -> code W n b None inn rho (c ++ rest') t' (NDecides fid o :: ns) rest t).
  Proof.
    unfold route. intros E L K Lo. injection E as <- <- <-. split; [lia|]. split; [reflexivity|].
    assert (K1 : keys (k + 1) ((k, o) :: rho)) by (apply keys_cons; [exact K|lia]).
    assert (K2 : keys (k + 2) ((k + 1, o) :: (k, o) :: rho)) by (apply keys_cons; [exact K1|lia]).
    exists ((k + 2, o) :: (k + 1, o) :: (k, o) :: rho). split.
    { eapply grows_trans; [exact (grows_cons k o rho K)|]. eapply grows_trans; [exact (grows_cons (k + 1) o _ K1)|]. exact (grows_cons (k + 2) o _ K2). }
    split; [apply keys_cons; [exact K2|lia]|]. split; [apply tr_last; lia|]. intros C. cbn [app].
    apply co_cast with o; [apply free_none; lia|now apply tr_own|]. apply co_tainted; [apply free_none; lia|apply tr_last; lia|].
    apply co_cast with o; [apply free_none; lia|apply tr_last; lia|]. exact C.
  Qed.
  Lemma tcf_idxs_ok W inn fid rest' t' ns rest t idxs : forall k rho c idxs' k1, tcf_idxs k fid idxs = (c, idxs', k1) -> b <= k -> keys k rho -> os_bound idxs <= b ->
    k <= k1 /\ map is_const idxs' = map is_const idxs /\
    exists rho2, grows rho rho2 /\ keys k1 rho2 /\ Forall2 (tr b rho2) idxs' idxs /\
      (code W n b None inn rho2 rest' t' ns rest t -> code W n b None inn rho (c ++ rest') t' (map (NDecides fid) (filter variable idxs) ++ ns) rest t).
  Proof.
    induction idxs as [|o idxs IH]; intros k rho c idxs' k1 E L K Lo; cbn [tcf_idxs] in E.
    - injection E as <- <- <-. split; [lia|]. split; [reflexivity|]. exists rho. split; [apply grows_refl|]. split; [exact K|]. split; [constructor|]. auto.
    - unfold os_bound in Lo. cbn [map] in Lo. rewrite max_cons in Lo. fold (os_bound idxs) in Lo. destruct (is_const o) eqn:Ic.
      + destruct (tcf_idxs k fid idxs) as [[c0 os] k0] eqn:E0. injection E as <- <- <-. destruct (IH k rho c0 os k0 E0 L K ltac:(lia)) as (L1 & Im & rho2 & G & K2 & F & C).
        split; [exact L1|]. split; [cbn [map]; now rewrite Im|]. exists rho2. repeat (split; [assumption|]). split; [constructor; [apply tr_own; lia|exact F]|].
        destruct o; [|discriminate]. exact C.
      + destruct (route k fid o) as [[c1 o'] k2] eqn:Er. destruct (tcf_idxs k2 fid idxs) as [[c0 os] k0] eqn:E0. injection E as <- <- <-.
        destruct (route_ok W inn k fid o rho (c0 ++ rest') t' (map (NDecides fid) (filter variable idxs) ++ ns) rest t c1 o' k2 Er L K ltac:(lia)) as (L2 & Io & rho1 & G1 & K1 & T1 & C1).
        destruct (IH k2 rho1 c0 os k0 E0 ltac:(lia) K1 ltac:(lia)) as (L3 & Im & rho2 & G & K2 & F & C). split; [lia|]. split; [cbn [map]; now rewrite Im, Ic, Io|].
        exists rho2. split; [now apply grows_trans with rho1|]. split; [exact K2|]. split; [constructor; [now apply G|exact F]|].
        intros H. destruct o; [discriminate|]. cbn [filter variable map app]. rewrite <- app_assoc. auto.
  Qed.
  Lemma tcf_code_ok W fid : (forall rest t, at_position W n rest t = tcf_notes fid rest t) -> forall rest t k c t' k', max_of (map i_bound rest) <= b -> t_bound t <= b -> b <= k ->
    tcf_code k fid rest t = (c, t', k') -> k <= k' /\ code W n b None true [] c t' (tcf_notes fid rest t) rest t.
  Proof.
    intros X. induction rest as [|i rest IH]; intros t k c t' k' L Lt Lk E; cbn [tcf_code] in E.
    - destruct t as [x|co x y|co cases d|v]; cbn [tcf_term] in E; cbn [tcf_notes conditions returns map app].
      + injection E as <- <- <-. split; [lia|]. apply co_term. now constructor.
      + destruct (route k fid co) as [[p co'] k2] eqn:Er. injection E as <- <- <-.
        destruct (route_ok W true k fid co [] [] (CondBr co' x y) [] [] (CondBr co x y) p co' k2 Er Lk (keys_nil k) Lt) as (L2 & _ & rho2 & _ & _ & T & C).
        split; [exact L2|]. rewrite app_nil_r in C. apply C. apply co_term. now constructor.
      + destruct (route k fid co) as [[p co'] k2] eqn:Er. injection E as <- <- <-.
        destruct (route_ok W true k fid co [] [] (Switch co' cases d) [] [] (Switch co cases d) p co' k2 Er Lk (keys_nil k) Lt) as (L2 & _ & rho2 & _ & _ & T & C).
        split; [exact L2|]. rewrite app_nil_r in C. apply C. apply co_term. now constructor.
      + injection E as <- <- <-. split; [lia|]. apply co_leave. apply co_term. now constructor.
    - cbn [map] in L. rewrite max_cons in L. destruct (tcf_instr k fid i) as [c1 k1] eqn:Ei. destruct (tcf_code k1 fid rest t) as [[cs t2] k2] eqn:Ec. injection E as <- <- <-.
      assert (Fin : k <= k1 -> k <= k2 /\ code W n b None true [] cs t2 (at_position W n rest t) rest t).
      { intros L1. destruct (IH t k1 cs t2 k2 ltac:(lia) Lt ltac:(lia) Ec) as [L2 C]. rewrite X. split; [lia|exact C]. }
      assert (Same : indices i ++ selected_by i = [] -> (c1, k1) = ([i], k) -> k <= k2 /\ code W n b None true [] (c1 ++ cs) t2 (tcf_notes fid (i :: rest) t) (i :: rest) t).
      { intros Q Q2. injection Q2 as -> ->. destruct (Fin ltac:(lia)) as [L1 C]. split; [exact L1|]. cbn [tcf_notes]. rewrite Q. apply co_instr; [constructor; lia|exact C]. }
      destruct i as [dst ops f|dst ptr size const|v ptr size atomic|dst ptr v size f|dst x|x v atomic|dst co x y|ptr v z|dst src z|dst|dst callee args|dst lf args]; cbn [tcf_instr] in Ei;
        try (apply Same; [reflexivity|now rewrite Ei]).
      + destruct ops as [|o idxs]; [apply Same; [reflexivity|now rewrite Ei]|]. destruct (c_gep f) eqn:Eg; [|apply Same; [cbn [indices selected_by]; now rewrite Eg|now rewrite Ei]].
        destruct (tcf_idxs k fid idxs) as [[c0 idxs'] k0] eqn:E0. injection Ei as <- <-. cbn [i_bound] in L. unfold os_bound in L. cbn [map] in L. rewrite max_cons in L. fold (os_bound idxs) in L.
        destruct (tcf_idxs_ok W true fid (IComp dst (o :: idxs') f :: cs) t2 [] (IComp dst (o :: idxs) f :: rest) t idxs k [] c0 idxs' k0 E0 Lk (keys_nil k) ltac:(lia)) as (L1 & Im & rho2 & G & K & F & C).
        destruct (Fin L1) as [L2 Cf]. split; [exact L2|]. cbn [tcf_notes indices selected_by]. rewrite Eg, !app_nil_r in *. rewrite <- app_assoc. apply C. apply co_instr; [|exact Cf].
        constructor; [lia| |cbn [map]; now rewrite Im]. constructor; [apply tr_own; lia|exact F].
      + destruct (route k fid co) as [[p co'] k0] eqn:Er. injection Ei as <- <-. cbn [i_bound] in L. assert (Lo : os_bound [co; x; y] <= b) by lia.
        assert (Lc : o_bound co <= b) by (rewrite os_le in Lo; apply Lo; cbn; auto).
        assert (Lxy : os_bound [x; y] <= b) by (rewrite os_le in *; intros q [->|[->|[]]]; apply Lo; cbn; auto).
        destruct (route_ok W true k fid co [] (ISelect dst co' x y :: cs) t2 [] (ISelect dst co x y :: rest) t p co' k0 Er Lk (keys_nil k) Lc) as (L1 & _ & rho2 & _ & _ & T & C).
        destruct (Fin L1) as [L2 Cf]. split; [exact L2|]. cbn [tcf_notes indices selected_by app map]. rewrite <- app_assoc. apply C. apply co_instr; [|exact Cf]. constructor; [lia|exact T|exact Lxy].
  Qed.

  (** ** pt-taint *)
  Definition tt_notes (rest : list instr) (t : term) : list note :=
    match rest with i :: _ => map NBranch (indices i) | [] => map NBranch (conditions t) end.
  Lemma tt_log_ok W inn k o' o rho rest' t' ns rest t : b <= k -> keys k rho -> tr b rho o' o ->
    code W n b None inn ((k, o) :: rho) rest' t' ns rest t -> code W n b None inn rho (tt_log k o' ++ rest') t' (NBranch o :: ns) rest t.
  Proof. intros L K T C. cbn [tt_log app]. apply co_cast with o; [now apply free_none|exact T|]. apply co_branch; [now apply tr_last|exact C]. Qed.
  Lemma tt_idxs_ok W inn rest' t' ns rest t os' os : map is_const os' = map is_const os -> forall k rho c k1, tt_idxs k os' = (c, k1) -> b <= k -> keys k rho -> Forall2 (tr b rho) os' os ->
    k <= k1 /\ exists rho2, grows rho rho2 /\ keys k1 rho2 /\
      (code W n b None inn rho2 rest' t' ns rest t -> code W n b None inn rho (c ++ rest') t' (map NBranch (filter variable os) ++ ns) rest t).
  Proof.
    revert os. induction os' as [|o' os' IH]; intros [|o os] Ic k rho c k1 E L K F; inversion F; subst; cbn [tt_idxs] in E.
    - injection E as <- <-. split; [lia|]. exists rho. split; [apply grows_refl|]. auto.
    - cbn [map] in Ic. injection Ic as Io Ic. destruct (is_const o') eqn:Eo.
      + destruct (IH os Ic k rho c k1 E L K) as (L1 & rho2 & G & K2 & C); [assumption|]. split; [exact L1|]. exists rho2. repeat (split; [assumption|]). destruct o; [exact C|discriminate].
      + destruct (tt_idxs (k + 1) os') as [c0 k0] eqn:E0. injection E as <- <-. destruct (IH os Ic (k + 1) ((k, o) :: rho) c0 k0 E0) as (L1 & rho2 & G & K2 & C).
        * lia.
        * apply keys_cons; [exact K|lia].
        * apply grows_all with rho; [now apply grows_cons|assumption].
        * split; [lia|]. exists rho2. split; [apply grows_trans with ((k, o) :: rho); [now apply grows_cons|exact G]|]. split; [exact K2|]. intros H. destruct o; [discriminate|]. cbn [filter variable map app].
          change (code W n b None inn rho (tt_log k o' ++ (c0 ++ rest')) t' (NBranch (OReg r) :: map NBranch (filter variable os) ++ ns) rest t). apply tt_log_ok; auto.
  Qed.
  Lemma tt_instr_indices rho k i' i c k1 : alike b rho i' i -> tt_instr k i' = (c, k1) ->
    exists os' os, tt_idxs k os' = (c, k1) /\ Forall2 (tr b rho) os' os /\ map is_const os' = map is_const os /\ indices i = filter variable os.
  Proof.
    intros [i0 L|dst ops' ops f L F Ic|dst c' co x y L T L2] E.
    - destruct i0; try (exists [], []; cbn in *; now auto). cbn [tt_instr indices] in *. destruct ops as [|o idxs]; [exists [], []; cbn; now auto|]. destruct (c_gep f); [|exists [], []; cbn; now auto].
      exists idxs, idxs. repeat (split; auto). cbn [i_bound] in L. unfold os_bound in L. cbn [map] in L. rewrite max_cons in L. fold (os_bound idxs) in L. assert (Lo : os_bound idxs <= b) by lia. rewrite os_le in Lo.
      clear -Lo. induction idxs as [|o l IH]; constructor; [apply tr_own; apply Lo; now left|]. apply IH. intros x I. apply Lo. now right.
    - inversion F; subst; cbn [tt_instr indices] in *; [exists [], []; cbn; now auto|]. destruct (c_gep f); [|exists [], []; cbn; now auto].
      cbn [map] in Ic. injection Ic as _ Ic. do 2 eexists. repeat (split; eauto).
    - exists [], []. cbn in *. auto.
  Qed.
  Lemma tt_code_ok W1 W2 inn rho rest' t' ns rest t : (forall rest t, at_position W2 n rest t = at_position W1 n rest t ++ tt_notes rest t) ->
    code W1 n b None inn rho rest' t' ns rest t -> forall k c k', keys k rho -> b <= k -> max_of (map i_bound rest') <= k -> tt_code k rest' t' = (c, k') ->
    k <= k' /\ code W2 n b None inn rho c t' (ns ++ tt_notes rest t) rest t.
  Proof.
    intros X C. induction C; intros kk cc kk' K Lk L E; try (cbn [tt_code tt_instr keep pure c_gep] in E;
      match type of E with context[tt_code kk ?r ?t] => destruct (tt_code kk r t) as [cs k2] eqn:Ec end; cbn [map] in L; rewrite max_cons in L; cbn [i_bound d_bound] in L).
    - injection E as <- <-. destruct (IHC kk cs k2) as [L2 C2]; auto; [apply keys_add; [exact K|lia]|lia|]. split; [exact L2|]. cbn [app]. now apply co_cast with o.
    - injection E as <- <-. destruct (IHC kk cs k2) as [L2 C2]; auto; [apply keys_add; [exact K|lia]|lia|]. split; [exact L2|]. cbn [app]. now apply co_tainted.
    - injection E as <- <-. destruct (IHC kk cs k2) as [L2 C2]; auto; [lia|]. split; [exact L2|]. cbn [app]. now apply co_branch.
    - injection E as <- <-. destruct (IHC kk cs k2) as [L2 C2]; auto; [lia|]. split; [exact L2|]. cbn [app]. now apply co_enter.
    - injection E as <- <-. destruct (IHC kk cs k2) as [L2 C2]; auto; [lia|]. split; [exact L2|]. cbn [app]. now apply co_leave.
    - injection E as <- <-. destruct (IHC kk cs k2) as [L2 C2]; auto; [lia|]. split; [exact L2|]. cbn [app]. now apply co_argv.
    - discriminate.
    - discriminate.
    - cbn [tt_code] in E. destruct (tt_instr kk i') as [c1 k1] eqn:Ei. destruct (tt_code k1 rest' t') as [cs k2] eqn:Ec. injection E as <- <-. cbn [map] in L. rewrite max_cons in L.
      destruct (tt_instr_indices rho kk i' i c1 k1 H Ei) as (os' & os & E1 & F & Ic & Qi).
      destruct (tt_idxs_ok W2 inn (i' :: cs) t' [] (i :: rest) t os' os Ic kk rho c1 k1 E1 Lk K F) as (L1 & rho2 & G & K2 & C2).
      destruct (IHC k1 cs k2) as [L2 C3]; [apply keys_nil|lia|lia|exact Ec|]. split; [lia|]. cbn [app tt_notes]. rewrite Qi. rewrite app_nil_r in C2. apply C2.
      apply co_instr; [now apply alike_grows with rho|]. now rewrite X.
    - cbn [tt_code] in E. cbn [app tt_notes]. destruct H as [t0 Lt|c' co b1 b2 T|c' co cs d T].
      + destruct t0 as [x|co x y|co cases d|v]; cbn [tt_term] in E; injection E as <- <-; cbn [conditions map].
        * split; [lia|]. apply co_term. now constructor.
        * split; [lia|]. rewrite <- (app_nil_r (tt_log kk co)). apply tt_log_ok; auto; [now apply tr_own|]. apply co_term. now constructor.
        * split; [lia|]. rewrite <- (app_nil_r (tt_log kk co)). apply tt_log_ok; auto; [now apply tr_own|]. apply co_term. now constructor.
        * split; [lia|]. apply co_term. now constructor.
      + cbn [tt_term] in E; injection E as <- <-; cbn [conditions map]. split; [lia|]. rewrite <- (app_nil_r (tt_log kk c')). apply tt_log_ok; auto. apply co_term. apply alike_term_grows with rho; [now apply grows_cons|now constructor].
      + cbn [tt_term] in E; injection E as <- <-; cbn [conditions map]. split; [lia|]. rewrite <- (app_nil_r (tt_log kk c')). apply tt_log_ok; auto. apply co_term. apply alike_term_grows with rho; [now apply grows_cons|now constructor].
  Qed.

  (** ** pt-ftrace *)
  Definition ft_notes (name : list N) (rest : list instr) (t : term) : list note :=
    match rest with [] => if returns t then [NReturn name] else [] | _ => [] end.
  Definition ft_exit (k : N) (t : term) : list instr := if returns t then [ILib None LExit [OReg k]] else [].
  Lemma alike_returns rho t' t : alike_term b rho t' t -> returns t' = returns t.
  Proof. now intros [t0 L|c' c b1 b2 T|c' c cs d T]. Qed.
  Lemma ft_code_ok W2 W3 kk name inn rho rest' t' ns rest t : (forall rest t, at_position W3 n rest t = at_position W2 n rest t ++ ft_notes name rest t) ->
    code W2 n b None inn rho rest' t' ns rest t -> max_of (map i_bound rest') <= kk ->
    code W3 n b (Some (kk, name)) true rho (rest' ++ ft_exit kk t') t' (ns ++ ft_notes name rest t) rest t.
  Proof.
    intros X C. induction C; intros L; cbn [map] in L; try (rewrite max_cons in L; cbn [i_bound d_bound] in L); cbn [app].
    - apply co_cast with o; [|assumption|apply IHC; lia]. destruct H as [H _]. split; [exact H|]. intros nm Q. injection Q as Q _. lia.
    - apply co_tainted; [|assumption|apply IHC; lia]. destruct H as [H _]. split; [exact H|]. intros nm Q. injection Q as Q _. lia.
    - apply co_branch; [assumption|apply IHC; lia].
    - apply co_enter; apply IHC; lia.
    - apply co_leave; apply IHC; lia.
    - apply co_argv; apply IHC; lia.
    - discriminate.
    - discriminate.
    - cbn [ft_notes]. apply co_instr; [assumption|]. rewrite X. apply IHC. lia.
    - unfold ft_exit, ft_notes. rewrite (alike_returns _ _ _ H). destruct (returns t) eqn:Er.
      + apply co_return with (k := kk) (name := name); [reflexivity|]. now apply co_term.
      + now apply co_term.
  Qed.

  (** ** Registers of the program itself stay below *)
  Definition small (B : N) (rho : list (N * operand)) : Prop := forall r o, lookup rho r = Some o -> o_bound o <= B.
  Lemma small_tr B rho o' o : small B rho -> tr b rho o' o -> o_bound o' <= B -> o_bound o <= B.
  Proof. intros Sm T L. destruct o' as [v|r]; cbn [tr] in T; [subst; cbn; lia|]. destruct T as [[_ ->]|[_ T]]; [exact L|]. exact (Sm r o T). Qed.
  Lemma small_add B rho k o : small B rho -> o_bound o <= B -> small B ((k, o) :: rho).
  Proof. intros Sm L r o2. cbn [lookup]. destruct (k =? r); [intros E; injection E as <-; exact L|apply Sm]. Qed.
  Lemma os_cons o os : os_bound (o :: os) = N.max (o_bound o) (os_bound os).
  Proof. reflexivity. Qed.
  Lemma code_bound W kf inn rho rest' t' ns rest t B : code W n b kf inn rho rest' t' ns rest t -> small B rho -> max_of (map i_bound rest') <= B -> t_bound t' <= B ->
    max_of (map i_bound rest) <= B /\ t_bound t <= B.
  Proof.
    intros C. induction C; intros Sm L Lt; cbn [map] in L; try (rewrite max_cons in L; cbn [i_bound d_bound] in L; rewrite ?os_cons in L).
    - apply IHC; [|lia|exact Lt]. apply small_add; [exact Sm|]. apply small_tr with rho o'; auto. lia.
    - apply IHC; [|lia|exact Lt]. apply small_add; [exact Sm|]. apply small_tr with rho o'; auto. lia.
    - apply IHC; auto. lia.
    - apply IHC; auto. lia.
    - apply IHC; auto. lia.
    - apply IHC; auto. lia.
    - apply IHC; auto. lia.
    - apply IHC; auto. lia.
    - destruct IHC as [L1 L2]; [intros r o Q; discriminate|lia|exact Lt|]. split; [|exact L2]. cbn [map]. rewrite max_cons. apply N.max_lub; [|exact L1].
      destruct H as [i0 Li|dst os' os f Ld F Ic|dst c' c x y Ld T L0]; cbn [i_bound] in *; rewrite ?os_cons in *; [lia| |].
      + apply N.max_lub; [lia|]. assert (Lo : os_bound os' <= B) by lia. clear -F Lo Sm. induction F as [|o' o os' os T F IH]; [exact Lo|]. rewrite os_cons in *. apply N.max_lub; [apply small_tr with rho o'; auto; lia|apply IH; lia].
      + apply N.max_lub; [lia|]. apply N.max_lub; [apply small_tr with rho c'; auto; lia|lia].
    - split; [cbn; lia|]. destruct H as [t0 Li|c' c b1 b2 T|c' c cs d T]; cbn [t_bound] in *; [exact Lt| |]; now apply small_tr with rho c'.
  Qed.
End Weave.

(** ** Functions *)
Definition tail_ok (W : watch) (kf : option (N * list N)) (n B : N) (b b' : block) : Prop :=
  b_phis b' = b_phis b /\ code W n B kf true [] (b_body b') (b_term b') (at_position W n (b_body b) (b_term b)) (b_body b) (b_term b).
Definition head_ok (W : watch) (kf : option (N * list N)) (n B : N) (b b' : block) : Prop :=
  b_phis b' = b_phis b /\
  code W n B kf (match kf with Some _ => false | None => true end) [] (b_body b') (b_term b')
    (w_entry W n ++ at_position W n (b_body b) (b_term b)) (b_body b) (b_term b).
Record wfun (W : watch) (kf : option (N * list N)) (n : N) (f f' : func) : Prop := {
  wf_native : fn_native f' = fn_native f;
  wf_params : fn_params f' = fn_params f;
  wf_blocks : match fn_blocks f, fn_blocks f' with
              | [], [] => True
              | b :: r, b' :: r' => head_ok W kf n (fresh f) b b' /\ Forall2 (tail_ok W kf n (fresh f)) r r'
              | _, _ => False
              end
}.
Lemma block_fresh f b : In b (fn_blocks f) -> max_of (map p_bound (b_phis b)) <= fresh f /\ max_of (map i_bound (b_body b)) <= fresh f /\ t_bound (b_term b) <= fresh f.
Proof.
  intros I. assert (L : b_bound b <= fresh f). { unfold fresh. assert (H := max_of_in (map b_bound (fn_blocks f)) (b_bound b) (in_map _ _ _ I)). lia. }
  unfold b_bound in L. lia.
Qed.
Lemma param_fresh f x : In x (fn_params f) -> x < fresh f.
Proof. intros I. assert (H := max_of_in (map (fun r => r + 1) (fn_params f)) (x + 1) (in_map (fun r => r + 1) _ _ I)). unfold fresh. lia. Qed.
Lemma forall2_nth {A B} (R : A -> B -> Prop) l l' : Forall2 R l l' -> forall i, match nth_error l i, nth_error l' i with Some x, Some y => R x y | None, None => True | _, _ => False end.
Proof. intros F. induction F as [|x y l l' H F IH]; intros [|i]; cbn [nth_error]; auto. apply IH. Qed.

Lemma wfun_woven W kf n f f' : wfun W (kf n) n f f' -> (forall k name, kf n = Some (k, name) -> fresh f <= k) -> woven W kf n f f'.
Proof.
  intros [Nt Pr Bl] Kf. constructor; auto.
  - apply param_fresh.
  - destruct (fn_blocks f), (fn_blocks f'); try contradiction; auto. destruct Bl as [[_ H] _]. unfold unset. exact H.
  - intros j Nj. assert (Bf := block_fresh f). destruct (fn_blocks f) as [|b r], (fn_blocks f') as [|b' r']; try contradiction; [now rewrite !get_nil|]. destruct Bl as [_ F].
    unfold get. destruct (N.to_nat j) as [|i] eqn:Ei; [lia|]. cbn [nth_error]. assert (H := forall2_nth _ _ _ F i). destruct (nth_error r i) as [x|] eqn:Ex, (nth_error r' i) as [x'|] eqn:Ex'; auto.
    destruct H as [Hp Hc]. repeat (split; auto). apply Bf. right. now apply nth_error_In with i.
Qed.

Lemma fresh_le W kf n f f' : wfun W kf n f f' -> fresh f <= fresh f'.
Proof.
  intros [_ Pr Bl]. assert (Bf := block_fresh f'). unfold fresh at 1. rewrite <- Pr. apply N.max_lub; [unfold fresh; lia|]. apply max_of_le. intros x I. apply in_map_iff in I as (b & <- & I).
  assert (Q : exists b', In b' (fn_blocks f') /\ b_phis b' = b_phis b /\ exists inn ns, code W n (fresh f) kf inn [] (b_body b') (b_term b') ns (b_body b) (b_term b)).
  { destruct (fn_blocks f) as [|b0 r]; [destruct I|]. destruct (fn_blocks f') as [|b0' r']; [destruct Bl|]. destruct Bl as [[H1 H2] F]. destruct I as [<-|I].
    - exists b0'. split; [now left|]. eauto.
    - apply In_nth_error in I as [i I]. assert (H := forall2_nth _ _ _ F i). rewrite I in H. destruct (nth_error r' i) as [x'|] eqn:Ex; [|destruct H]. destruct H as [H3 H4].
      exists x'. split; [right; now apply nth_error_In with i|]. eauto. }
  destruct Q as (b' & I' & Qp & inn & ns & C). destruct (Bf b' I') as (L1 & L2 & L3). destruct (code_bound _ _ _ _ _ _ _ _ _ _ _ (fresh f') C) as [M1 M2]; auto; [intros r o Q; discriminate|].
  unfold b_bound. rewrite <- Qp. lia.
Qed.

(** Nothing put in. *)
Lemma wfun_same W n f : (forall rest t, at_position W n rest t = []) -> (fn_blocks f <> [] -> w_entry W n = []) -> wfun W None n f f.
Proof.
  intros X Y. constructor; auto. assert (Bf := block_fresh f). destruct (fn_blocks f) as [|b r]; [exact I|].
  assert (C : forall x, In x (b :: r) -> code W n (fresh f) None true [] (b_body x) (b_term x) [] (b_body x) (b_term x)) by (intros x I; destruct (Bf x I) as (_ & L1 & L2); now apply code_same).
  split.
  - split; [reflexivity|]. rewrite X, Y by discriminate. apply C. now left.
  - assert (C2 : forall x, In x r -> code W n (fresh f) None true [] (b_body x) (b_term x) [] (b_body x) (b_term x)) by (intros x I; apply C; now right).
    clear -C2 X. induction r as [|x r IH]; constructor; [|apply IH; intros y I; apply C2; now right]. split; [reflexivity|]. rewrite X. apply C2. now left.
Qed.
(** pt-tcf. *)
Lemma wfun_tcf W n fid f : (forall rest t, at_position W n rest t = tcf_notes fid rest t) -> w_entry W n = [NEnter fid] -> fn_blocks f <> [] -> wfun W None n f (tcf_func fid f).
Proof.
  intros X Y Nb. constructor; auto. assert (Bf := block_fresh f). cbn [tcf_func fn_blocks]. destruct (fn_blocks f) as [|b r]; [now elim Nb|]. cbn [at_entry tcf_blocks b_body b_term b_phis].
  destruct (tcf_code (fresh f) fid (ILib None LCfEnter [OConst fid] :: b_body b) (b_term b)) as [[cs t'] k'] eqn:E. cbn [tcf_code tcf_instr] in E.
  destruct (tcf_code (fresh f) fid (b_body b) (b_term b)) as [[cs0 t0] k0] eqn:E0. injection E as <- <- <-. destruct (Bf b) as (_ & L1 & L2); [now left|].
  destruct (tcf_code_ok n (fresh f) W fid X (b_body b) (b_term b) (fresh f) cs0 t0 k0 L1 L2 ltac:(lia) E0) as [Lk C]. split.
  - split; [reflexivity|]. cbn [b_body b_term]. rewrite Y, X. cbn [app]. apply co_enter. exact C.
  - assert (B2 : forall x, In x r -> max_of (map i_bound (b_body x)) <= fresh f /\ t_bound (b_term x) <= fresh f) by (intros x I; apply Bf; now right). clear -B2 Lk X. revert k0 Lk.
    induction r as [|x r IH]; intros k Lk; cbn [tcf_blocks]; [constructor|]. destruct (tcf_code k fid (b_body x) (b_term x)) as [[cs t'] k'] eqn:E. destruct (B2 x) as [L1 L2]; [now left|].
    destruct (tcf_code_ok n (fresh f) W fid X (b_body x) (b_term x) k cs t' k' L1 L2 Lk E) as [Lk2 C]. constructor; [|apply IH; [intros y I; apply B2; now right|lia]]. split; [reflexivity|]. rewrite X. exact C.
Qed.
(** pt-taint. *)
Lemma wfun_tt W1 W2 n f f1 k : (forall rest t, at_position W2 n rest t = at_position W1 n rest t ++ tt_notes rest t) -> w_entry W2 n = w_entry W1 n -> wfun W1 None n f f1 -> k = fresh f1 ->
  wfun W2 None n f (mkFunc (fn_native f1) (fn_params f1) (tt_blocks k (fn_blocks f1))).
Proof.
  intros X Y Wf ->. assert (Lf := fresh_le _ _ _ _ _ Wf). destruct Wf as [Nt Pr Bl]. constructor; auto. cbn [fn_blocks]. assert (Bf := block_fresh f1). destruct (fn_blocks f) as [|b r], (fn_blocks f1) as [|b1 r1]; cbn [tt_blocks]; try contradiction; auto.
  destruct Bl as [[Hp Hc] F]. destruct (tt_code (fresh f1) (b_body b1) (b_term b1)) as [cs k'] eqn:E. destruct (Bf b1) as (_ & L1 & _); [now left|].
  destruct (tt_code_ok n (fresh f) W1 W2 _ _ _ _ _ _ _ X Hc (fresh f1) cs k' (keys_nil _) Lf L1 E) as [Lk C]. split.
  - split; [exact Hp|]. cbn [b_body b_term]. rewrite X, Y, app_assoc. exact C.
  - assert (B2 : forall x, In x r1 -> max_of (map i_bound (b_body x)) <= fresh f1) by (intros x I; apply Bf; now right). clear -F X Lf B2 Lk. revert k' Lk. induction F as [|x x1 r r1 [Hp Hc] F IH]; intros k Lk; cbn [tt_blocks]; [constructor|].
    destruct (tt_code k (b_body x1) (b_term x1)) as [cs k'] eqn:E. assert (L1 := B2 x1 (or_introl eq_refl)).
    destruct (tt_code_ok n (fresh f) W1 W2 _ _ _ _ _ _ _ X Hc k cs k' (keys_nil _) ltac:(lia) ltac:(lia) E) as [Lk2 C]. constructor; [|apply IH; [intros y I; apply B2; now right|lia]]. split; [exact Hp|]. rewrite X. exact C.
Qed.
Lemma wfun_argv W1 W2 n f f1 o1 o2 : (forall rest t, at_position W2 n rest t = at_position W1 n rest t) -> w_entry W2 n = NArgv :: w_entry W1 n -> wfun W1 None n f f1 ->
  wfun W2 None n f (mkFunc (fn_native f1) (fn_params f1) (at_entry (ILib None LArgv [o1; o2]) (fn_blocks f1))).
Proof.
  intros X Y [Nt Pr Bl]. constructor; auto. cbn [fn_blocks]. destruct (fn_blocks f) as [|b r], (fn_blocks f1) as [|b1 r1]; cbn [at_entry]; try contradiction; auto. destruct Bl as [[Hp Hc] F]. split.
  - split; [exact Hp|]. cbn [b_body b_term]. rewrite X, Y. cbn [app]. apply co_argv. apply code_ext with W1; auto.
  - clear -F X. induction F as [|x x1 r r1 [Hp Hc] F IH]; constructor; auto. split; [exact Hp|]. rewrite X. apply code_ext with W1; auto.
Qed.
(** pt-ftrace. *)
Lemma ft_block_eq k b : b_phis (ft_block k b) = b_phis b /\ b_term (ft_block k b) = b_term b /\ b_body (ft_block k b) = b_body b ++ ft_exit k (b_term b).
Proof. unfold ft_block, ft_exit. destruct (b_term b) eqn:E; cbn [b_phis b_term b_body returns]; rewrite ?E, ?app_nil_r; auto. Qed.
Lemma wfun_ft W2 W3 n f f2 name k : (forall rest t, at_position W3 n rest t = at_position W2 n rest t ++ ft_notes name rest t) -> w_entry W3 n = NCall name :: w_entry W2 n -> wfun W2 None n f f2 -> k = fresh f2 ->
  wfun W3 (Some (k, name)) n f (mkFunc (fn_native f2) (fn_params f2) (at_entry (ILib (Some k) (LEnter name) []) (map (ft_block k) (fn_blocks f2)))).
Proof.
  intros X Y [Nt Pr Bl] ->. constructor; auto. cbn [fn_blocks]. assert (Bf := block_fresh f2). destruct (fn_blocks f) as [|b r], (fn_blocks f2) as [|b2 r2]; cbn [at_entry map]; try contradiction; auto. destruct Bl as [[Hp Hc] F].
  destruct (Bf b2) as (_ & L1 & _); [now left|]. destruct (ft_block_eq (fresh f2) b2) as (Q1 & Q2 & Q3). split.
  - split; [cbn [b_phis]; now rewrite Q1|]. cbn [b_body b_term]. rewrite X, Y, Q2, Q3. cbn [app]. apply co_call; [reflexivity|]. rewrite app_assoc. apply ft_code_ok with W2 true; auto.
  - assert (B2 : forall x, In x r2 -> max_of (map i_bound (b_body x)) <= fresh f2) by (intros x I; apply Bf; now right). clear -F X B2. induction F as [|x x1 r r1 [Hp Hc] F IH]; cbn [map]; constructor; [|apply IH; intros y I; apply B2; now right].
    destruct (ft_block_eq (fresh f2) x1) as (Q1 & Q2 & Q3). split; [now rewrite Q1|]. rewrite X, Q2, Q3. apply ft_code_ok with W2 true; auto. apply B2. now left.
Qed.
Lemma wfun_ext W W' n f f1 : (forall rest t, at_position W n rest t = at_position W' n rest t) -> (fn_blocks f <> [] -> w_entry W n = w_entry W' n) -> wfun W None n f f1 -> wfun W' None n f f1.
Proof.
  intros X Y [Nt Pr Bl]. constructor; auto. destruct (fn_blocks f) as [|b r], (fn_blocks f1) as [|b1 r1]; auto. destruct Bl as [[Hp Hc] F]. split.
  - split; [exact Hp|]. rewrite <- X, <- Y by discriminate. now apply code_ext with W.
  - clear -F X. induction F as [|x x1 r r1 [Hp Hc] F IH]; constructor; auto. split; [exact Hp|]. rewrite <- X. now apply code_ext with W.
Qed.

(** ** Programs *)
Definition fid_of (fid : N) (P : prog) (i : nat) : N := (fid + len (filter has_body (firstn i P))) mod 2 ^ 32.
Lemma tcf_prog_nth P : forall fid i, fid < 2 ^ 32 ->
  nth_error (tcf_prog fid P) i = option_map (fun f => if has_body f then tcf_func (fid_of fid P i) f else f) (nth_error P i).
Proof.
  induction P as [|f P IH]; intros fid [|i] L; cbn [tcf_prog nth_error option_map]; auto.
  - unfold fid_of. cbn [firstn filter len length]. change (len []) with 0. rewrite N.add_0_r, N.mod_small by exact L. now destruct (has_body f).
  - assert (La : add32 fid 1 < 2 ^ 32) by (unfold add32; apply N.mod_lt; discriminate).
    unfold fid_of. cbn [firstn filter]. destruct (has_body f); cbn [nth_error]; rewrite IH by assumption; [|reflexivity]. destruct (nth_error P i) as [g|]; [|reflexivity]. cbn [option_map].
    replace (fid_of (add32 fid 1) P i) with ((fid + len (f :: filter has_body (firstn i P))) mod 2 ^ 32); [reflexivity|].
    unfold fid_of, add32. change two32 with (2 ^ 32). rewrite N.add_mod_idemp_l by discriminate. f_equal. unfold len. cbn [length]. lia.
Qed.
Lemma tt_prog_nth ignore names P : forall n P', tt_prog ignore names n P = Ok P' -> forall i, match nth_error P i, nth_error P' i with
  | Some f, Some f' => tt_func ignore (names (n + N.of_nat i)) f = Ok f' | None, None => True | _, _ => False end.
Proof.
  induction P as [|f P IH]; intros n P' E i; cbn [tt_prog] in E; [injection E as <-; now destruct i|].
  destruct (tt_func ignore (names n) f) as [f'| | |] eqn:Ef; try discriminate. cbn [bind] in E. destruct (tt_prog ignore names (n + 1) P) as [r'| | |] eqn:Er; try discriminate. cbn [bind] in E. injection E as <-.
  destruct i as [|i]; cbn [nth_error]; [now rewrite N.add_0_r|]. specialize (IH _ _ Er i). replace (n + N.of_nat (S i)) with (n + 1 + N.of_nat i) by lia. exact IH.
Qed.
Lemma ft_prog_nth ignore names P : forall n i, nth_error (ft_prog ignore names n P) i = option_map (ft_func ignore (names (n + N.of_nat i))) (nth_error P i).
Proof.
  induction P as [|f P IH]; intros n [|i]; cbn [ft_prog nth_error option_map]; auto; [now rewrite N.add_0_r|]. rewrite IH. now replace (n + N.of_nat (S i)) with (n + 1 + N.of_nat i) by lia.
Qed.
Lemma wfun_nobody W kf n f : fn_blocks f = [] -> wfun W kf n f f.
Proof. intros E. constructor; auto. now rewrite E. Qed.

Section Passes.
  Variables (cflog ftrace : bool) (ignore : list (list N)) (names : N -> list N) (P : prog).
  Let W3 := watching cflog ftrace ignore names P.
  Let W2 := watching cflog false ignore names P.
  Let W1 := mkWatch (fun n => if cflog then [NEnter (function_id P n)] else [])
                    (fun n i => if cflog then map (NDecides (function_id P n)) (indices i ++ selected_by i) else [])
                    (fun n t => if cflog then map (NDecides (function_id P n)) (conditions t) ++ (if returns t then [NLeave (function_id P n)] else []) else []).
  Let seen n := negb (listed ignore (names n)).

  Lemma pos1 n rest t : at_position W1 n rest t = if cflog then tcf_notes (function_id P n) rest t else [].
  Proof. unfold at_position, W1. cbn [w_instr w_term]. destruct rest; now destruct cflog. Qed.
  Lemma pos2 n rest t : at_position W2 n rest t = at_position W1 n rest t ++ (if seen n then tt_notes rest t else []).
  Proof. unfold at_position, W1, W2, watching, seen. cbn [w_instr w_term]. destruct rest; [|now destruct (listed ignore (names n))]. cbn [andb negb app]. rewrite app_nil_r. now destruct (listed ignore (names n)). Qed.
  Lemma pos3 n rest t : at_position W3 n rest t = at_position W2 n rest t ++ (if ftrace && seen n then ft_notes (names n) rest t else []).
  Proof.
    unfold at_position, W3, W2, watching, seen. cbn [w_instr w_term]. destruct rest as [|i rest]; destruct ftrace, (listed ignore (names n)); cbn [ft_notes andb negb app]; rewrite ?app_nil_r; try reflexivity.
    rewrite <- app_assoc. f_equal.
  Qed.
  Lemma entry2 n : w_entry W2 n = (if seen n && bytes_eqb (names n) name_main then [NArgv] else []) ++ w_entry W1 n.
  Proof. reflexivity. Qed.
  Lemma entry3 n : w_entry W3 n = (if ftrace && seen n then [NCall (names n)] else []) ++ w_entry W2 n.
  Proof. reflexivity. Qed.

  Lemma passes_fun n f f2 f3 : let f1 := if cflog then if has_body f then tcf_func (function_id P n) f else f else f in
    tt_func ignore (names n) f1 = Ok f2 -> f3 = (if ftrace then ft_func ignore (names n) f2 else f2) ->
    wfun W3 (if ftrace && has_body f2 && seen n then Some (fresh f2, names n) else None) n f f3 /\ fresh f <= fresh f2.
  Proof.
    intros f1 E2 E3.
    assert (H1 : wfun W1 None n f f1).
    { subst f1. assert (X1 := pos1 n). destruct cflog.
      - destruct (has_body f) eqn:Hb.
        + apply wfun_tcf; [exact X1|reflexivity|]. unfold has_body in Hb. intros Q. now rewrite Q in Hb.
        + apply wfun_nobody. unfold has_body in Hb. destruct (fn_blocks f); [reflexivity|discriminate].
      - apply wfun_same; [exact X1|reflexivity]. }
    assert (H2 : wfun W2 None n f f2).
    { unfold tt_func in E2. assert (X2 := pos2 n). assert (Y2 := entry2 n). unfold seen in X2, Y2. change (ignored ignore (names n)) with (listed ignore (names n)) in E2. destruct (listed ignore (names n)).
      - injection E2 as <-. apply wfun_ext with W1; [intros rest t; now rewrite X2, app_nil_r|intros _; now rewrite Y2|exact H1].
      - cbn [negb andb] in *. set (Wm := mkWatch (w_entry W1) (w_instr W2) (w_term W2)).
        assert (Hm : wfun Wm None n f (mkFunc (fn_native f1) (fn_params f1) (tt_blocks (fresh f1) (fn_blocks f1)))) by (apply wfun_tt with W1; [exact X2|reflexivity|exact H1|reflexivity]).
        destruct (bytes_eqb (names n) name_main).
        + destruct (fn_params f1) as [|argc [|argv ps]] eqn:Ep; try discriminate. destruct (tt_blocks (fresh f1) (fn_blocks f1)) as [|x r] eqn:Et; [discriminate|]. rewrite <- Et, <- Ep in *. injection E2 as <-.
          exact (wfun_argv Wm W2 n f _ (OReg argc) (OReg argv) (fun rest t => eq_refl) Y2 Hm).
        + injection E2 as <-. apply wfun_ext with Wm; [reflexivity|intros _; now rewrite Y2|exact Hm]. }
    split; [|exact (fresh_le _ _ _ _ _ H2)]. assert (X3 := pos3 n). assert (Y3 := entry3 n). subst f3.
    assert (Nob : has_body f2 = false -> fn_blocks f = []). { intros Q. assert (B := wf_blocks _ _ _ _ _ H2). unfold has_body in Q. destruct (fn_blocks f2); [|discriminate]. now destruct (fn_blocks f). }
    destruct ftrace; cbn [andb] in *.
    - unfold ft_func. change (ignored ignore (names n)) with (listed ignore (names n)). unfold seen in *. destruct (has_body f2) eqn:Hb; cbn [negb orb andb] in *.
      + destruct (listed ignore (names n)); cbn [negb] in *.
        * apply wfun_ext with W2; [intros rest t; now rewrite X3, app_nil_r|intros _; now rewrite Y3|exact H2].
        * apply wfun_ft with W2; auto.
      + specialize (Nob eq_refl). assert (Q : fn_blocks f2 = []) by (unfold has_body in Hb; now destruct (fn_blocks f2)). destruct H2 as [Q1 Q2 _]. constructor; auto. now rewrite Nob, Q.
    - apply wfun_ext with W2; [intros rest t; now rewrite X3, app_nil_r|intros _; now rewrite Y3|exact H2].
  Qed.

  Theorem passes_woven P' : passes cflog ftrace ignore names P = Ok P' ->
    exists kf, forall n, match get P n, get P' n with Some f, Some f' => woven W3 kf n f f' | None, None => True | _, _ => False end.
  Proof.
    unfold passes. intros E. set (P1 := if cflog then tcf_prog 0 P else P) in *. destruct (tt_prog ignore names 0 P1) as [P2| | |] eqn:E2; try discriminate. cbn [bind] in E. injection E as E.
    exists (fun n => match get P2 n with Some f2 => if ftrace && has_body f2 && seen n then Some (fresh f2, names n) else None | None => None end). intros n.
    assert (G1 : get P1 n = option_map (fun f => if cflog then if has_body f then tcf_func (function_id P n) f else f else f) (get P n)).
    { unfold P1, get. destruct cflog; [|now destruct (nth_error P (N.to_nat n))]. rewrite tcf_prog_nth by lia. reflexivity. }
    assert (G2 := tt_prog_nth _ _ _ _ _ E2 (N.to_nat n)). rewrite N.add_0_l, N2Nat.id in G2. fold (get P1 n) in G2. fold (get P2 n) in G2.
    assert (G3 : get P' n = option_map (fun f2 => if ftrace then ft_func ignore (names n) f2 else f2) (get P2 n)).
    { rewrite <- E. unfold get. destruct ftrace; [|now destruct (nth_error P2 (N.to_nat n))]. rewrite ft_prog_nth, N.add_0_l, N2Nat.id. reflexivity. }
    rewrite G3. rewrite G1 in G2. destruct (get P n) as [f|]; cbn [option_map] in G2; [|now destruct (get P2 n)]. destruct (get P2 n) as [f2|] eqn:Ef2; [|exact G2]. cbn [option_map].
    destruct (passes_fun n f f2 _ G2 eq_refl) as [Wf Lf]. apply wfun_woven; rewrite Ef2; [exact Wf|]. intros k name Q. destruct (ftrace && has_body f2 && seen n); [|discriminate]. injection Q as <- _. exact Lf.
  Qed.
End Passes.
