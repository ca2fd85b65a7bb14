(** Programs into which calls of the runtime were put, against watched programs. *)
From Coq Require Import NArith ZArith List Bool Lia.
From Verif Require Import M_Base M_Memory M_Functions M_Dfsan M_Llvm M_LlvmPasses S_Functions S_Api S_Runtime S_DataFlow S_Demand S_Watch P_Base P_ApiMem.
Import ListNotations.
Open Scope N_scope.

(** ** Bounds *)
Lemma max_of_in l x : In x l -> x <= max_of l.
Proof. induction l as [|y l IH]; [intros []|]. cbn [max_of fold_right]. intros [->|I]; [lia|]. specialize (IH I). unfold max_of in IH. lia. Qed.
Lemma max_of_le l b : max_of l <= b <-> forall x, In x l -> x <= b.
Proof.
  split; [intros H x I; apply max_of_in in I; lia|]. intros H. induction l as [|y l IH]; [cbn; lia|].
  cbn [max_of fold_right]. assert (y <= b) by (apply H; now left). assert (max_of l <= b) by (apply IH; intros x I; apply H; now right). unfold max_of in *. lia.
Qed.
Lemma os_le os b : os_bound os <= b <-> forall o, In o os -> o_bound o <= b.
Proof.
  unfold os_bound. rewrite max_of_le. split; [intros H o I; apply H; now apply in_map|]. intros H x I. apply in_map_iff in I as (o & <- & I). auto.
Qed.

(** ** Code *)
Section Code.
  Variables (W : watch) (n b : N) (kf : option (N * list N)).

  (** Operand [o'] of the new program holds what operand [o] holds. *)
  Definition tr (rho : list (N * operand)) (o' o : operand) : Prop :=
    match o' with
    | OConst v => o = OConst v
    | OReg r => (r < b /\ o = OReg r) \/ (b <= r /\ lookup rho r = Some o)
    end.
  Definition free (k : N) : Prop := b <= k /\ forall name, kf <> Some (k, name).

  Inductive alike (rho : list (N * operand)) : instr -> instr -> Prop :=
  | al_same i : i_bound i <= b -> alike rho i i
  | al_comp dst ops' ops f : dst < b -> Forall2 (tr rho) ops' ops -> map is_const ops' = map is_const ops -> alike rho (IComp dst ops' f) (IComp dst ops f)
  | al_select dst c' c x y : dst < b -> tr rho c' c -> os_bound [x; y] <= b -> alike rho (ISelect dst c' x y) (ISelect dst c x y).
  Inductive alike_term (rho : list (N * operand)) : term -> term -> Prop :=
  | at_same t : t_bound t <= b -> alike_term rho t t
  | at_br c' c b1 b2 : tr rho c' c -> alike_term rho (CondBr c' b1 b2) (CondBr c b1 b2)
  | at_switch c' c cases d : tr rho c' c -> alike_term rho (Switch c' cases d) (Switch c cases d).

  (** [code inn rho rest' t' ns rest t]: the new instructions [rest'], [t'] first take the notes [ns]
      and then do what [rest], [t] do, with further notes.  [inn]: the register of the function
      trace, if there is one, is set. *)
  Inductive code : bool -> list (N * operand) -> list instr -> term -> list note -> list instr -> term -> Prop :=
  | co_cast inn rho k o' o rest' t' ns rest t : free k -> tr rho o' o ->
      code inn ((k, o) :: rho) rest' t' ns rest t -> code inn rho (IComp k [o'] keep :: rest') t' ns rest t
  | co_tainted inn rho k o' o fid rest' t' ns rest t : free k -> tr rho o' o -> 
      code inn ((k, o) :: rho) rest' t' ns rest t ->
      code inn rho (ILib (Some k) LTainted [o'; OConst fid] :: rest') t' (NDecides fid o :: ns) rest t
  | co_branch inn rho o' o rest' t' ns rest t : tr rho o' o -> code inn rho rest' t' ns rest t ->
      code inn rho (ILib None LBranch [o'] :: rest') t' (NBranch o :: ns) rest t
  | co_enter inn rho fid rest' t' ns rest t : code inn rho rest' t' ns rest t ->
      code inn rho (ILib None LCfEnter [OConst fid] :: rest') t' (NEnter fid :: ns) rest t
  | co_leave inn rho fid rest' t' ns rest t : code inn rho rest' t' ns rest t ->
      code inn rho (ILib None LCfLeave [OConst fid] :: rest') t' (NLeave fid :: ns) rest t
  | co_argv inn rho o1 o2 rest' t' ns rest t : code inn rho rest' t' ns rest t ->
      code inn rho (ILib None LArgv [o1; o2] :: rest') t' (NArgv :: ns) rest t
  | co_call k name rest' t' ns rest t : kf = Some (k, name) -> code true [] rest' t' ns rest t ->
      code false [] (ILib (Some k) (LEnter name) [] :: rest') t' (NCall name :: ns) rest t
  | co_return rho k name rest' t' ns rest t : kf = Some (k, name) -> code true rho rest' t' ns rest t ->
      code true rho (ILib None LExit [OReg k] :: rest') t' (NReturn name :: ns) rest t
  | co_instr inn rho i' i rest' t' rest t : alike rho i' i -> code inn [] rest' t' (at_position W n rest t) rest t ->
      code inn rho (i' :: rest') t' [] (i :: rest) t
  | co_term rho t' t : alike_term rho t' t -> code true rho [] t' [] [] t.

  (** ** Registers *)
  Definition agrees (e' : regs) (d' : N -> list byte_id) (e : regs) (d : N -> list byte_id) : Prop :=
    forall r, r < b -> e' r = e r /\ d' r = d r.
  Definition holds (rho : list (N * operand)) (e' : regs) (d' : N -> list byte_id) (e : regs) (d : N -> list byte_id) : Prop :=
    forall r o, b <= r -> lookup rho r = Some o -> value e' (OReg r) = value e o /\ d' r = dep d o.

  Lemma tr_value rho e' d' e d o' o : agrees e' d' e d -> holds rho e' d' e d -> tr rho o' o -> value e' o' = value e o /\ dep d' o' = dep d o.
  Proof.
    intros A H T. destruct o' as [v|r]; cbn [tr] in T; [now subst|]. destruct T as [[L ->]|[L E]]; [|exact (H r o L E)].
    cbn [value dep]. destruct (A r L) as [-> ->]. auto.
  Qed.
  Lemma own_value e' d' e d o : agrees e' d' e d -> o_bound o <= b -> value e' o = value e o /\ dep d' o = dep d o.
  Proof. intros A L. destruct o as [v|r]; [auto|]. cbn [o_bound] in L. cbn [value dep]. destruct (A r) as [-> ->]; [lia|auto]. Qed.
  Lemma own_values e' d' e d os : agrees e' d' e d -> os_bound os <= b -> values e' os = values e os /\ map (dep d') os = map (dep d) os.
  Proof.
    intros A L. rewrite os_le in L. induction os as [|o os IH]; [auto|]. destruct (own_value e' d' e d o A) as [V D]; [apply L; now left|].
    destruct IH as [Vs Ds]; [intros x I; apply L; now right|]. cbn [values map]. now rewrite V, Vs, D, Ds.
  Qed.
  Lemma tr_values rho e' d' e d os' os : agrees e' d' e d -> holds rho e' d' e d -> Forall2 (tr rho) os' os -> values e' os' = values e os /\ map (dep d') os' = map (dep d) os.
  Proof.
    intros A H F. induction F as [|o' o os' os T F [IH1 IH2]]; [auto|]. destruct (tr_value rho e' d' e d o' o A H T) as [V D]. cbn [values map]. now rewrite V, D, IH1, IH2.
  Qed.
  Lemma agrees_put e' d' e d x v bs : agrees e' d' e d -> agrees (put e' x v) (put d' x bs) (put e x v) (put d x bs).
  Proof. intros A r L. unfold put. destruct (r =? x); auto. Qed.
  Lemma agrees_new e' d' e d x v bs : b <= x -> agrees e' d' e d -> agrees (put e' x v) (put d' x bs) e d.
  Proof. intros Lx A r L. unfold put. destruct (N.eqb_spec r x); [lia|auto]. Qed.
  Lemma holds_new rho e' d' e d x v o : b <= x -> holds rho e' d' e d -> value e o = Ok v -> holds ((x, o) :: rho) (put e' x (Some v)) (put d' x (dep d o)) e d.
  Proof.
    intros Lx H E r o' L Q. cbn [lookup] in Q. unfold put. cbn [value]. rewrite (N.eqb_sym x r) in Q. destruct (N.eqb_spec r x) as [->|Ne].
    - injection Q as <-. auto.
    - exact (H r o' L Q).
  Qed.
  Definition above (e1 e2 : regs) : Prop := forall r, b <= r -> e1 r = e2 r.

  Lemma alike_exec rho i' i e' d' e d m a e1' m1 d1' s s1 : alike rho i' i -> agrees e' d' e d -> holds rho e' d' e d ->
    app_exec i' e' m a = Ok (e1', m1) -> flow_exec true i' e' d' s = Ok (d1', s1) ->
    exists e1 d1, app_exec i e m a = Ok (e1, m1) /\ flow_exec true i e d s = Ok (d1, s1) /\ agrees e1' d1' e1 d1 /\ above e1' e'.
  Proof.
    intros Al A H E F.
    assert (Op : forall o, o_bound o <= b -> value e' o = value e o) by (intros o L; now destruct (own_value e' d' e d o A L)).
    assert (Od : forall o, o_bound o <= b -> dep d' o = dep d o) by (intros o L; now destruct (own_value e' d' e d o A L)).
    assert (Ab : forall x v, x < b -> above (put e' x v) e') by (intros x v L r Lr; unfold put; destruct (N.eqb_spec r x); [lia|reflexivity]).
    destruct Al as [i L|dst ops' ops f L T Ic|dst c' c x y L T L2].
    - destruct i as [dst ops f|dst ptr size const|v ptr size atomic|dst ptr v size f|dst x|x v atomic|dst c x y|ptr v k|dst src k|dst|dst callee args|dst k args];
        cbn [app_exec flow_exec i_bound] in *; try discriminate.
      + destruct (own_values e' d' e d ops A) as [V D]; [lia|]. rewrite <- V, <- D.
        destruct (values e' ops) as [vs| | |]; try discriminate. cbn [bind] in *. destruct (f vs) as [v|]; [|discriminate].
        injection E as <- <-. injection F as <- <-. do 2 eexists. repeat (split; [reflexivity|]). split; [now apply agrees_put|apply Ab; lia].
      + assert (L1 : o_bound ptr <= b) by lia. rewrite <- (Op ptr L1), <- (Od ptr L1). destruct (value e' ptr) as [p| | |]; try discriminate. cbn [bind] in *. destruct (span p size) as [u| | |]; try discriminate. cbn [bind] in *.
        injection E as <- <-. injection F as <- <-. do 2 eexists. repeat (split; [reflexivity|]). split; [now apply agrees_put|apply Ab; lia].
      + rewrite os_le in L. assert (L1 : o_bound v <= b) by (apply L; cbn; auto). assert (L2 : o_bound ptr <= b) by (apply L; cbn; auto).
        rewrite <- (Op ptr L2), <- (Op v L1), <- (Od v L1). destruct (value e' v) as [w| | |]; try discriminate. cbn [bind] in *. destruct (value e' ptr) as [p| | |]; try discriminate. cbn [bind] in *. destruct (span p size) as [u| | |]; try discriminate. cbn [bind] in *.
        injection E as <- <-. injection F as <- <-. do 2 eexists. repeat (split; [reflexivity|]). split; [exact A|intros r _; reflexivity].
      + assert (L0 : os_bound [ptr; v] <= b) by lia. rewrite os_le in L0. assert (L1 : o_bound v <= b) by (apply L0; cbn; auto). assert (L2 : o_bound ptr <= b) by (apply L0; cbn; auto).
        rewrite <- (Op ptr L2), <- (Op v L1). destruct (value e' v) as [w| | |]; try discriminate. cbn [bind] in *. destruct (value e' ptr) as [p| | |]; try discriminate. cbn [bind] in *. destruct (span p size) as [u| | |]; try discriminate. cbn [bind] in *.
        injection E as <- <-. injection F as <- <-. do 2 eexists. repeat (split; [reflexivity|]). split; [now apply agrees_put|apply Ab; lia].
      + cbn [value] in *. destruct (A x) as [<- <-]; [lia|]. destruct (e' x) as [v|]; [|discriminate]. cbn [bind] in *.
        injection E as <- <-. injection F as <- <-. do 2 eexists. repeat (split; [reflexivity|]). split; [now apply agrees_put|apply Ab; lia].
      + assert (L1 : o_bound v <= b) by lia. rewrite <- (Op v L1), <- (Od v L1). destruct (value e' v) as [w| | |]; try discriminate. cbn [bind] in *.
        injection E as <- <-. injection F as <- <-. do 2 eexists. repeat (split; [reflexivity|]). split; [now apply agrees_put|apply Ab; lia].
      + assert (L0 : os_bound [c; x; y] <= b) by lia. rewrite os_le in L0. assert (L1 : o_bound c <= b) by (apply L0; cbn; auto).
        rewrite <- (Op c L1), <- (Od c L1). destruct (value e' c) as [w| | |]; try discriminate. cbn [bind] in *.
        assert (L2 : o_bound (if w =? 0 then y else x) <= b) by (apply L0; destruct (w =? 0); cbn; auto).
        rewrite <- (Op _ L2), <- (Od _ L2). destruct (value e' (if w =? 0 then y else x)) as [w2| | |]; try discriminate. cbn [bind] in *.
        injection E as <- <-. injection F as <- <-. do 2 eexists. repeat (split; [reflexivity|]). split; [now apply agrees_put|apply Ab; lia].
      + rewrite os_le in L. rewrite <- (Op ptr), <- (Op v), <- (Op k), <- (Od v) by (apply L; cbn; auto).
        destruct (value e' ptr) as [p| | |]; try discriminate. cbn [bind] in *. destruct (value e' v) as [w| | |]; try discriminate. cbn [bind] in *. destruct (value e' k) as [w2| | |]; try discriminate. cbn [bind] in *. destruct (span p w2) as [u| | |]; try discriminate. cbn [bind] in *.
        injection E as <- <-. injection F as <- <-. do 2 eexists. repeat (split; [reflexivity|]). split; [exact A|intros r _; reflexivity].
      + rewrite os_le in L. rewrite <- (Op dst), <- (Op src), <- (Op k) by (apply L; cbn; auto).
        destruct (value e' dst) as [p| | |]; try discriminate. cbn [bind] in *. destruct (value e' src) as [w| | |]; try discriminate. cbn [bind] in *. destruct (value e' k) as [w2| | |]; try discriminate. cbn [bind] in *.
        destruct (span p w2) as [u| | |]; try discriminate. cbn [bind] in *. destruct (span w w2) as [u2| | |]; try discriminate. cbn [bind] in *.
        injection E as <- <-. injection F as <- <-. do 2 eexists. repeat (split; [reflexivity|]). split; [exact A|intros r _; reflexivity].
      + injection E as <- <-. injection F as <- <-. do 2 eexists. repeat (split; [reflexivity|]). destruct dst as [x|]; cbn [d_bound] in L.
        * split; [now apply agrees_put|apply Ab; lia].
        * split; [exact A|intros r _; reflexivity].
    - cbn [app_exec flow_exec] in *. destruct (tr_values rho e' d' e d ops' ops A H T) as [V D]. rewrite <- V, <- D.
      destruct (values e' ops') as [vs| | |]; try discriminate. cbn [bind] in *. destruct (f vs) as [v|]; [|discriminate].
      injection E as <- <-. injection F as <- <-. do 2 eexists. repeat (split; [reflexivity|]). split; [now apply agrees_put|now apply Ab].
    - cbn [app_exec flow_exec] in *. destruct (tr_value rho e' d' e d c' c A H T) as [V D]. rewrite <- V, <- D. rewrite os_le in L2.
      destruct (value e' c') as [w| | |]; try discriminate. cbn [bind] in *.
      assert (L3 : o_bound (if w =? 0 then y else x) <= b) by (apply L2; destruct (w =? 0); cbn; auto).
      rewrite <- (Op _ L3), <- (Od _ L3). destruct (value e' (if w =? 0 then y else x)) as [w2| | |]; try discriminate. cbn [bind] in *.
      injection E as <- <-. injection F as <- <-. do 2 eexists. repeat (split; [reflexivity|]). split; [now apply agrees_put|now apply Ab].
  Qed.
  Lemma alike_plain rho i' i : alike rho i' i -> match i with ICall _ _ _ | ILib _ _ _ => i' = i /\ i_bound i <= b | _ => match i' with ICall _ _ _ | ILib _ _ _ => False | _ => True end end.
  Proof. intros [i0 L| |]; [|exact I|exact I]. destruct i0; auto. Qed.
End Code.
