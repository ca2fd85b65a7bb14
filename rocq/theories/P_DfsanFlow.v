(** Dependence: shadow code against the meaning of instructions. *)
From Coq Require Import NArith ZArith List Bool Lia FinFun.
From Verif Require Import M_Base M_Memory M_Dfsan M_Api M_Runtime M_Llvm M_DfsanPass M_DfsanRun
  S_Api S_History S_Runtime S_DataFlow
  P_Base P_Api P_Runtime P_Argv P_ProcRun P_DfsanCode.
Import ListNotations.
Open Scope N_scope.

Lemma same_sym {A} (x y : list A) : same x y -> same y x.
Proof. intros H b. symmetry. apply H. Qed.
Lemma same_trans {A} (x y z : list A) : same x y -> same y z -> same x z.
Proof. intros H1 H2 b. rewrite (H1 b). apply H2. Qed.
Lemma same_app {A} (x x' y y' : list A) : same x x' -> same y y' -> same (x ++ y) (x' ++ y').
Proof. intros H1 H2 b. rewrite !in_app_iff, (H1 b), (H2 b). tauto. Qed.
Lemma same_comm {A} (x y : list A) : same (x ++ y) (y ++ x).
Proof. intros b. rewrite !in_app_iff. tauto. Qed.
Lemma same_concat {A} (l l' : list (list A)) : Forall2 same l l' -> same (concat l) (concat l').
Proof. induction 1; cbn [concat]; [apply same_refl|]. now apply same_app. Qed.

(** ** States that agree where the application can look *)
Record near (D : N -> Prop) (s t : ast) : Prop := {
  nr_regs : a_regs s = a_regs t; nr_open : a_open s = a_open t;
  nr_rd : forall i, a_rd s i = a_rd t i; nr_wr : forall i, a_wr s i = a_wr t i;
  nr_mem : forall a, D a -> same (a_mem s a) (a_mem t a);
  nr_out : Forall2 (fun x y => fst x = fst y /\ same (snd x) (snd y)) (a_out s) (a_out t);
  nr_cf : same (a_cf s) (a_cf t); nr_names : a_names s = a_names t; nr_events : a_events s = a_events t }.
Definition low (a : N) : Prop := a < two64.

Lemma near_mem D s t m m' : near D s t -> (forall a, D a -> same (m a) (m' a)) -> near D (with_mem s m) (with_mem t m').
Proof. intros [] H. constructor; flds; auto. Qed.
Lemma near_impl (D D' : N -> Prop) s t : (forall a, D' a -> D a) -> near D s t -> near D' s t.
Proof. intros H []. constructor; auto. Qed.

(** The same state with the memory of another. *)
Lemma near_alike s t : near low s t -> alike s (with_mem t (a_mem s)).
Proof. intros []. constructor; flds; auto using same_refl. Qed.
Lemma near_limits s t : near low s t -> within_limits s -> within_limits t.
Proof. intros H L. exact (limits_alike _ _ (near_alike _ _ H) L). Qed.
Lemma near_event s t v : near low s t -> S_Runtime.event_ok s v -> S_Runtime.event_ok t v.
Proof.
  intros H. assert (Al := near_alike _ _ H). assert (F := fun fd => fd_alike _ _ fd Al).
  assert (R := fun fd off n => rd_alike _ _ fd off n Al). assert (W := fun fd off n => wr_alike _ _ fd off n Al).
  intros K. destruct v; cbn [S_Runtime.event_ok] in *; try exact K.
  all: destruct K as (K1 & K2); split; [exact (F _ K1)|].
  all: try exact (R _ _ _ K2); try exact (W _ _ _ K2).
  all: destruct K2 as (K2 & K3); (split; [|exact K3]).
  all: first [exact (R _ _ _ K2)|exact (W _ _ _ K2)].
Qed.

(** Memory whose dependence an event looks at. *)
Definition reads (v : event) (a : N) : Prop :=
  match v with
  | ECopy _ x | EBranch x | EPutc _ _ _ _ x => a = x
  | ECompute _ x y => a = x \/ a = y
  | EWrite _ buff _ ret => buff <= a < buff + Z.to_N ret
  | EFwrite _ buff size _ ret => buff <= a < buff + size * ret
  | ECfTainted _ x => a = x
  | _ => False
  end.

Lemma near_read D s t fd addr off n : near D s t -> near D (p_read s fd addr off n) (p_read t fd addr off n).
Proof.
  intros H. assert (H0 := H). destruct H. unfold p_read. rewrite nr_regs0. destruct (last_with (a_regs t) fd) as [i|]; [|exact H0].
  cbv zeta. rewrite (position_alike _ _ i off nr_rd0). constructor; flds; auto.
  - intros k. now apply advance_alike.
  - intros a Da. unfold add_bytes. destruct (_ && _); auto using same_refl.
Qed.
Lemma near_set D s t dst bs bs' : near D s t -> same bs bs' -> near D (p_set s dst bs) (p_set t dst bs').
Proof. intros H E. apply near_mem; [exact H|]. intros a Da. destruct (a =? dst); [exact E|]. now apply (nr_mem _ _ _ H). Qed.
Lemma near_write D s t fd off vals vals' : near D s t -> Forall2 same vals vals' -> near D (p_write s fd off vals) (p_write t fd off vals').
Proof.
  intros H F. assert (H0 := H). destruct H. unfold p_write. rewrite nr_regs0. destruct (last_with (a_regs t) fd) as [i|]; [|exact H0].
  assert (El : len vals = len vals') by (unfold len; f_equal; exact (Forall2_len _ _ _ F)).
  rewrite El, (position_alike _ _ i off nr_wr0). constructor; flds; auto.
  - intros k. now apply advance_alike.
  - apply Forall2_app; [exact nr_out0|]. now apply outputs_alike.
Qed.
Lemma near_args D args : forall s t i, near D s t -> near D (p_args s i args) (p_args t i args).
Proof.
  induction args as [|[a n] args IH]; intros s t i H; cbn [p_args]; [exact H|]. cbv zeta. apply IH. destruct H.
  constructor; flds; auto; try congruence. intros x Dx. unfold add_bytes. rewrite nr_regs0. destruct (_ && _); auto using same_refl.
Qed.
Lemma bytes_same s t addr n : (forall a, addr <= a < addr + n -> same (a_mem s a) (a_mem t a)) -> Forall2 same (bytes_at s addr n) (bytes_at t addr n).
Proof.
  intros H. unfold bytes_at. assert (G : forall a, In a (nseq addr (N.to_nat n)) -> same (a_mem s a) (a_mem t a)).
  { intros a I. apply in_nseq in I. apply H. lia. }
  clear H. induction (nseq addr (N.to_nat n)) as [|a l IH]; cbn [map]; constructor; [apply G; now left|]. apply IH. intros b I. apply G. now right.
Qed.

Lemma near_step D argv v s t : near D s t -> (forall a, reads v a -> same (a_mem s a) (a_mem t a)) ->
  near D (estep argv s v) (estep argv t v).
Proof.
  intros H Rd. assert (H0 := H). destruct H. destruct v; cbn [estep]; cbn [reads] in Rd; auto.
  - destruct (0 <=? fd)%Z; [|exact H0]. constructor; flds; auto; congruence.
  - destruct (ret =? 0)%Z; [|exact H0]. cbn [astep]. constructor; flds; auto; congruence.
  - destruct (0 <? ret)%Z; [|exact H0]. now apply near_read.
  - destruct (0 <? size * ret); [|exact H0]. now apply near_read.
  - now apply near_read.
  - destruct (c =? -1)%Z; [|apply near_read]; apply near_set; auto using same_refl.
  - destruct addr; [|exact H0]. apply near_read. apply near_mem; [exact H0|]. intros a Da. destruct (_ && _); auto using same_refl.
  - apply near_mem; [exact H0|]. intros a Da. destruct (_ && _); auto using same_refl.
  - destruct argv; [|exact H0]. now apply near_args.
  - apply near_set; [exact H0|]. now apply Rd.
  - apply near_set; [exact H0|]. apply same_app; apply Rd; auto.
  - apply near_set; auto using same_refl.
  - constructor; flds; auto. apply same_app; [exact nr_cf0|now apply Rd].
  - destruct (0 <? ret)%Z; [|exact H0]. apply near_write; [exact H0|]. apply bytes_same. exact Rd.
  - destruct (0 <? size * ret); [|exact H0]. apply near_write; [exact H0|]. apply bytes_same. exact Rd.
  - destruct (ret =? ch)%Z; [|exact H0]. apply near_write; [exact H0|]. apply bytes_same. intros a Ha. apply Rd. lia.
  - cbn [astep]. cbv zeta. rewrite nr_names0, nr_events0. constructor; cbn [a_regs a_open a_rd a_wr a_mem a_out a_cf a_names a_events]; auto.
  - cbn [astep]. constructor; cbn [a_regs a_open a_rd a_wr a_mem a_out a_cf a_names a_events]; auto; congruence.
Qed.

(** What an event does not write. *)
Definition spares (v : event) (x : N) : Prop :=
  match v with
  | ECopy d _ | ECompute d _ _ | EConst d | EGetc _ _ _ d => x <> d
  | _ => True
  end.
Lemma read_spares s fd addr off n x : addr + n <= x -> a_mem (p_read s fd addr off n) x = a_mem s x.
Proof.
  intros L. unfold p_read. destruct (last_with _ _); [|reflexivity]. cbv zeta. flds. unfold add_bytes.
  destruct (N.leb_spec addr x), (N.ltb_spec x (addr + n)); cbn [andb]; try reflexivity. lia.
Qed.
Lemma fresh_spares s addr n x : addr + n <= x -> a_mem (p_fresh s addr n) x = a_mem s x.
Proof. intros L. unfold p_fresh. flds. destruct (N.leb_spec addr x), (N.ltb_spec x (addr + n)); cbn [andb]; try reflexivity. lia. Qed.
Lemma args_spares args x : Forall (fun an => fst an + snd an <= x) args -> forall s i, a_mem (p_args s i args) x = a_mem s x.
Proof.
  induction 1 as [|[a n] args L F IH]; intros s i; cbn [p_args]; [reflexivity|]. cbv zeta. rewrite IH. flds. unfold add_bytes. cbn [fst snd] in L.
  destruct (N.leb_spec a x), (N.ltb_spec x (a + n)); cbn [andb]; try reflexivity. lia.
Qed.
Lemma step_spares argv v s x : two64 <= x -> in_space v -> spares v x -> a_mem (estep argv s v) x = a_mem s x.
Proof.
  intros X I Sp. destruct v; cbn [in_space] in I; cbn [spares] in Sp; cbn [estep].
  - now destruct (0 <=? fd)%Z.
  - now destruct (ret =? 0)%Z.
  - destruct (0 <? ret)%Z; [|reflexivity]. apply read_spares. lia.
  - destruct (0 <? size * ret); [|reflexivity]. apply read_spares. lia.
  - apply read_spares. lia.
  - assert (Q : a_mem (p_set s dst []) x = a_mem s x) by (unfold p_set; flds; destruct (N.eqb_spec x dst); [contradiction|reflexivity]).
    destruct (c =? -1)%Z; [exact Q|]. unfold p_read. destruct (last_with _ _); [|exact Q]. cbv zeta. flds. unfold add_bytes.
    destruct (N.leb_spec dst x), (N.ltb_spec x (dst + 1)); cbn [andb]; try exact Q. lia.
  - destruct addr as [a|]; [|reflexivity]. assert (L := pages_le len). rewrite read_spares by lia. apply fresh_spares. lia.
  - apply fresh_spares. lia.
  - destruct argv; [|reflexivity]. apply args_spares. eapply Forall_impl; [|exact I]. cbv beta. intros. lia.
  - unfold p_set. flds. destruct (N.eqb_spec x dst); [contradiction|reflexivity].
  - unfold p_set. flds. destruct (N.eqb_spec x dst); [contradiction|reflexivity].
  - unfold p_set. flds. destruct (N.eqb_spec x dst); [contradiction|reflexivity].
  - reflexivity.
  - destruct (0 <? ret)%Z; [|reflexivity]. unfold p_write. destruct (last_with _ _); reflexivity.
  - destruct (0 <? size * ret); [|reflexivity]. unfold p_write. destruct (last_with _ _); reflexivity.
  - destruct (ret =? ch)%Z; [|reflexivity]. unfold p_write. destruct (last_with _ _); reflexivity.
  - reflexivity.
  - reflexivity.
  - reflexivity.
  - reflexivity.
  - reflexivity.
Qed.

(** ** Updates of memory *)
(** [t'] is [t] except for the memory at [A]. *)
Definition framed (A : N -> Prop) (t t' : ast) : Prop :=
  exists m, t' = with_mem t m /\ forall a, ~ A a -> m a = a_mem t a.

Lemma framed_refl A t : framed A t t.
Proof. exists (a_mem t). split; [now destruct t|reflexivity]. Qed.
Lemma framed_trans A t t1 t2 : framed A t t1 -> framed A t1 t2 -> framed A t t2.
Proof. intros (m1 & -> & H1) (m2 & -> & H2). exists m2. split; [reflexivity|]. intros a Na. rewrite (H2 a Na). flds. now apply H1. Qed.
Lemma framed_impl (A B : N -> Prop) t t' : (forall a, A a -> B a) -> framed A t t' -> framed B t t'.
Proof. intros H (m & -> & E). exists m. split; [reflexivity|]. intros a Na. apply E. auto. Qed.
Lemma framed_mem A t t' a : framed A t t' -> ~ A a -> a_mem t' a = a_mem t a.
Proof. intros (m & -> & E) Na. flds. now apply E. Qed.
Lemma framed_set t dst bs : framed (eq dst) t (p_set t dst bs).
Proof. eexists. split; [reflexivity|]. intros a Na. cbv beta. destruct (N.eqb_spec a dst); [congruence|reflexivity]. Qed.
Lemma set_mem t dst bs a : a_mem (p_set t dst bs) a = if a =? dst then bs else a_mem t a.
Proof. reflexivity. Qed.

Lemma near_framed s t t' : near low s t -> framed (fun a => two64 <= a) t t' -> near low s t'.
Proof.
  intros [] (m & -> & E). constructor; flds; auto. intros a L. rewrite E; [now apply nr_mem0|]. unfold low in L. lia.
Qed.
(** Memory of the application was changed on both sides. *)
Lemma near_update s t t' m : near low s t -> framed (fun _ => True) t t' -> (forall a, a < two64 -> same (m a) (a_mem t' a)) -> near low (with_mem s m) t'.
Proof. intros [] (m' & -> & _) H. constructor; flds; auto. Qed.

Lemma p_sets_mem bs addrs : forall t, (forall a, In a addrs -> a_mem (p_sets t bs addrs) a = bs) /\ framed (fun a => In a addrs) t (p_sets t bs addrs).
Proof.
  induction addrs as [|x addrs IH]; intros t.
  - split; [intros a []|apply framed_refl].
  - unfold p_sets in *. cbn [fold_left]. destruct (IH (p_set t x bs)) as [I1 I2]. split.
    + intros a Ia. destruct (in_dec N.eq_dec a addrs) as [J|J]; [now apply I1|]. rewrite (framed_mem _ _ _ _ I2 J). rewrite set_mem.
      destruct Ia as [->|Ia]; [|contradiction]. now rewrite N.eqb_refl.
    + apply framed_trans with (p_set t x bs).
      * eapply framed_impl; [|apply framed_set]. intros a <-. now left.
      * eapply framed_impl; [|exact I2]. intros a Ia. now right.
Qed.

Lemma assign_out {A} (l : list (N * A)) : forall m x, ~ In x (map fst l) -> assign m l x = m x.
Proof.
  induction l as [|[y v] l IH]; intros m x H; [reflexivity|]. unfold assign in *. cbn [fold_left map fst snd In] in *. rewrite IH by tauto.
  unfold put. destruct (N.eqb_spec x y); [exfalso; apply H; now left|reflexivity].
Qed.
Lemma assign_ext {A} (l : list (N * A)) : forall m m', (forall x, m x = m' x) -> forall x, assign m l x = assign m' l x.
Proof.
  induction l as [|[y v] l IH]; intros m m' H x; [apply H|]. unfold assign in *. cbn [fold_left fst snd]. apply IH. intros z. unfold put. now rewrite H.
Qed.
Lemma assign_nodup {A} (l : list (N * A)) x v : NoDup (map fst l) -> In (x, v) l -> forall m, assign m l x = v.
Proof.
  induction l as [|[y w] l IH]; intros Nd I m; [destruct I|]. cbn [map fst] in Nd. apply NoDup_cons_iff in Nd as [N1 N2].
  unfold assign in *. cbn [fold_left fst snd]. destruct I as [E|I].
  - injection E as -> ->. change (assign (put m x v) l x = v). rewrite assign_out by exact N1. unfold put. now rewrite N.eqb_refl.
  - now apply IH.
Qed.

Lemma p_copies_mem ps : forall t, (forall x, In x (map fst ps) -> ~ In x (map snd ps)) ->
  (forall a, a_mem (p_copies t ps) a = assign (a_mem t) (map (fun p => (fst p, a_mem t (snd p))) ps) a) /\
  framed (fun a => In a (map fst ps)) t (p_copies t ps).
Proof.
  induction ps as [|[x y] ps IH]; intros t Dj.
  - split; [reflexivity|apply framed_refl].
  - unfold p_copies, assign in *. cbn [fold_left map fst snd] in *.
    assert (Dj' : forall z, In z (map fst ps) -> ~ In z (map snd ps)).
    { intros z I J. apply (Dj z); right; assumption. }
    destruct (IH (p_set t x (a_mem t y)) Dj') as [I1 I2]. split.
    + intros a. rewrite I1. clear I1 I2 IH.
      assert (Em : map (fun p => (fst p, a_mem (p_set t x (a_mem t y)) (snd p))) ps = map (fun p => (fst p, a_mem t (snd p))) ps).
      { apply map_ext_in. intros [u v] I. cbn [fst snd]. rewrite set_mem. destruct (N.eqb_spec v x) as [->|]; [|reflexivity].
        exfalso. apply (Dj x); [now left|]. right. change x with (snd (u, x)). now apply in_map. }
      rewrite Em. apply assign_ext. intros z. rewrite set_mem. reflexivity.
    + apply framed_trans with (p_set t x (a_mem t y)).
      * eapply framed_impl; [|apply framed_set]. intros a <-. now left.
      * eapply framed_impl; [|exact I2]. intros a Ia. now right.
Qed.

(** ** Shadows of registers *)
Lemma cell_ne k j k' j' : k <> k' -> cell k j <> cell k' j'.
Proof. intros H E. now apply cell_inj in E as [E _]. Qed.
Lemma REG_inj d x d' x' : REG d x = REG d' x' -> d = d' /\ x = x'.
Proof. unfold REG. intros E. apply cell_inj in E. lia. Qed.
Lemma REG_TMP d x : REG d x <> TMP.
Proof. apply cell_ne. lia. Qed.
Lemma REG_RET d x : REG d x <> RET.
Proof. apply cell_ne. lia. Qed.
Lemma REG_ARG d x i : REG d x <> ARG i.
Proof. apply cell_ne. lia. Qed.
Lemma REG_SCRATCH d x i : REG d x <> SCRATCH i.
Proof. apply cell_ne. lia. Qed.
Lemma REG_VALUE d x : REG d x <> VALUE.
Proof. unfold REG, VALUE. assert (H := cell_above (3 + d) x). lia. Qed.
Lemma REG_high d x : two64 < REG d x.
Proof. apply cell_above. Qed.

Definition agree (d : N) (e : regs) (deps : N -> list byte_id) (t : ast) : Prop :=
  forall x v, e x = Some v -> same (deps x) (a_mem t (REG d x)).

Lemma agree_op d e deps t o v : agree d e deps t -> value e o = Ok v -> same (dep deps o) (pdep d t (sh o)).
Proof.
  intros Ag E. destruct o as [c|r]; cbn [dep sh pdep]; [apply same_refl|]. cbn [value] in E. destruct (e r) as [w|] eqn:Er; [|discriminate]. exact (Ag r w Er).
Qed.

(** What the code in front of an instruction may change. *)
Definition local (d : N) (a : N) : Prop :=
  a < two64 \/ a = TMP \/ (exists i, a = SCRATCH i) \/ exists x, a = REG d x.

Lemma sval_eqb_eq a b : sval_eqb a b = true -> a = b.
Proof. destruct a, b; cbn [sval_eqb]; try discriminate; auto. intros E. apply N.eqb_eq in E. now subst. Qed.
Lemma pdep_framed d t t' v : framed (eq TMP) t t' -> v <> STmp -> pdep d t' v = pdep d t v.
Proof. intros F Nv. destruct v; cbn [pdep]; [reflexivity| |contradiction]. apply (framed_mem _ _ _ _ F). intros E. now apply (REG_TMP d r). Qed.
Lemma sh_tmp o : sh o <> STmp.
Proof. destruct o; discriminate. Qed.

Lemma combine_flow d e avoid a b t c v : combine_shadows avoid a b = (c, v) ->
  framed (eq TMP) t (pcode d e t c) /\ same (pdep d (pcode d e t c) v) (pdep d t a ++ pdep d t b).
Proof.
  unfold combine_shadows. destruct (sval_eqb a SZero) eqn:E1.
  { intros E. injection E as <- <-. apply sval_eqb_eq in E1 as ->. split; [apply framed_refl|apply same_refl]. }
  destruct (sval_eqb b SZero) eqn:E2.
  { intros E. injection E as <- <-. apply sval_eqb_eq in E2 as ->. cbn [pcode fold_left pdep]. rewrite app_nil_r. split; [apply framed_refl|apply same_refl]. }
  destruct (sval_eqb a b) eqn:E3.
  { intros E. injection E as <- <-. apply sval_eqb_eq in E3 as ->. split; [apply framed_refl|]. intros x. rewrite in_app_iff. cbn [pcode fold_left]. tauto. }
  intros E. injection E as <- <-. cbn [pcode fold_left psx]. split; [apply framed_set|]. cbn [pdep]. rewrite set_mem, N.eqb_refl. apply same_refl.
Qed.

Lemma pcode_app d e t c c' : pcode d e t (c ++ c') = pcode d e (pcode d e t c) c'.
Proof. apply fold_left_app. Qed.

Lemma combine_rest_flow d e avoid ops : forall acc t c v, combine_rest avoid acc ops = (c, v) ->
  framed (eq TMP) t (pcode d e t c) /\
  same (pdep d (pcode d e t c) v) (pdep d t acc ++ concat (map (fun o => pdep d t (sh o)) ops)).
Proof.
  induction ops as [|o ops IH]; intros acc t c v E; cbn [combine_rest] in E.
  - injection E as <- <-. cbn [pcode fold_left map concat]. rewrite app_nil_r. split; [apply framed_refl|apply same_refl].
  - destruct (combine_shadows avoid acc (sh o)) as [c1 v1] eqn:E1. destruct (combine_rest avoid v1 ops) as [c2 v2] eqn:E2.
    injection E as <- <-. rewrite pcode_app. destruct (combine_flow d e _ _ _ t _ _ E1) as [F1 S1].
    destruct (IH v1 (pcode d e t c1) c2 v2 E2) as [F2 S2]. split; [exact (framed_trans _ _ _ _ F1 F2)|].
    apply (same_trans _ _ _ S2). cbn [map concat]. rewrite app_assoc.
    apply same_app; [exact S1|]. replace (map (fun o => pdep d (pcode d e t c1) (sh o)) ops) with (map (fun o => pdep d t (sh o)) ops); [apply same_refl|].
    apply map_ext. intros o'. symmetry. apply pdep_framed; [exact F1|apply sh_tmp].
Qed.
Lemma combine_ops_flow d e avoid ops t c v : combine_ops avoid ops = (c, v) ->
  framed (eq TMP) t (pcode d e t c) /\ same (pdep d (pcode d e t c) v) (concat (map (fun o => pdep d t (sh o)) ops)).
Proof.
  destruct ops as [|o ops]; cbn [combine_ops]; intros E.
  - injection E as <- <-. split; [apply framed_refl|apply same_refl].
  - exact (combine_rest_flow d e avoid ops (sh o) t c v E).
Qed.

(** The code ends by setting the shadow of register [dst]. *)
Lemma set_agree d e deps t t1 dst v y bs : agree d e deps t -> framed (eq TMP) t t1 -> same bs (pdep d t1 v) ->
  agree d (put e dst (Some y)) (put deps dst bs) (p_set t1 (REG d dst) (pdep d t1 v)) /\
  framed (fun a => a = TMP \/ a = REG d dst) t (p_set t1 (REG d dst) (pdep d t1 v)).
Proof.
  intros Ag F Sm. split.
  - intros x w. unfold put. rewrite set_mem. destruct (N.eqb_spec x dst) as [->|Nx].
    + intros _. rewrite N.eqb_refl. exact Sm.
    + intros Ex. destruct (N.eqb_spec (REG d x) (REG d dst)) as [E|_]; [now apply REG_inj in E|].
      rewrite (framed_mem _ _ _ _ F); [exact (Ag x w Ex)|]. intros E. now apply (REG_TMP d x).
  - apply framed_trans with t1; [eapply framed_impl; [|exact F]; auto|]. eapply framed_impl; [|apply framed_set]. intros a <-. now right.
Qed.

Lemma tmp_local d a : TMP = a -> local d a.
Proof. intros <-. right. now left. Qed.
Lemma dst_local d dst a : a = TMP \/ a = REG d dst -> local d a.
Proof. intros [-> | ->]; [right; now left|]. right. right. right. now exists dst. Qed.
Lemma dst_high d dst a : a = TMP \/ a = REG d dst -> two64 <= a.
Proof. intros [-> | ->]; apply N.lt_le_incl; apply cell_above. Qed.

Lemma deps_same d e deps t ops vs : agree d e deps t -> values e ops = Ok vs ->
  Forall2 same (map (dep deps) ops) (map (fun o => pdep d t (sh o)) ops).
Proof.
  intros Ag. revert vs. induction ops as [|o ops IH]; intros vs E; cbn [map]; [constructor|]. cbn [values] in E.
  destruct (value e o) as [v| | |] eqn:Ev; try discriminate. cbn [bind] in E. destruct (values e ops) as [ws| | |]; try discriminate.
  constructor; [exact (agree_op _ _ _ _ _ _ Ag Ev)|]. exact (IH ws eq_refl).
Qed.

Lemma in_store_addrs a n x : In x (store_addrs a n) <-> a <= x < a + n.
Proof.
  unfold store_addrs. rewrite in_app_iff, in_flat_map. assert (Dn := N.div_mod n 8 ltac:(lia)). assert (Ln := N.mod_lt n 8 ltac:(lia)).
  rewrite in_nseq. split.
  - intros [(k & I & J)|I]; [|lia]. apply in_nseq in I, J. change (N.of_nat 8) with 8 in J. lia.
  - intros L. destruct (N.lt_ge_cases x (a + 8 * (n / 8))) as [Q|Q]; [left|right; lia].
    exists ((x - a) / 8). assert (Dx := N.div_mod (x - a) 8 ltac:(lia)). assert (Lx := N.mod_lt (x - a) 8 ltac:(lia)).
    split; apply in_nseq; [|change (N.of_nat 8) with 8; lia].
    assert ((x - a) / 8 < n / 8) by (apply N.div_lt_upper_bound; lia). lia.
Qed.

Lemma span_ok a n u : span a n = Ok u -> a + n <= two64.
Proof. unfold span. destruct (N.leb_spec (a + n) two64); [auto|discriminate]. Qed.

(** A store of [bs] to the [n] bytes at [a]. *)
Lemma store_flow s t a n bs bs' addrs : near low s t -> same bs bs' -> (forall x, In x addrs <-> a <= x < a + n) ->
  near low (dep_store s a n bs) (p_sets t bs' addrs).
Proof.
  intros H Sm Ia. destruct (p_sets_mem bs' addrs t) as [P1 P2]. unfold dep_store. apply near_update with t; [exact H|eapply framed_impl; [|exact P2]; auto|].
  intros x Lx. destruct (N.leb_spec a x), (N.ltb_spec x (a + n)); cbn [andb].
  1: { rewrite P1 by (apply Ia; lia). exact Sm. }
  all: rewrite (framed_mem _ _ _ _ P2) by (rewrite Ia; lia); now apply (nr_mem _ _ _ H).
Qed.
Lemma in_seqN a n x : In x (nseq a (N.to_nat n)) <-> a <= x < a + n.
Proof. rewrite in_nseq. lia. Qed.
Lemma sets_low t bs addrs a n : (forall x, In x addrs <-> a <= x < a + n) -> a + n <= two64 -> framed (fun x => x < two64) t (p_sets t bs addrs).
Proof. intros Ia L. eapply framed_impl; [|apply p_sets_mem]. intros x I. apply Ia in I. lia. Qed.

Lemma agree_low d e deps t t' : agree d e deps t -> framed (fun x => x < two64) t t' -> agree d e deps t'.
Proof. intros Ag F x v Ex. rewrite (framed_mem _ _ _ _ F); [exact (Ag x v Ex)|]. assert (H := REG_high d x). lia. Qed.

(** memcpy and memmove of shadows. *)
Lemma move_flow d e t dst src n : value e dst = Ok (val e dst) -> val e dst + val e n <= two64 -> val e src + val e n <= two64 ->
  let t' := psx d e t (TMove dst src n) in
  (forall x, x < two64 -> a_mem t' x = if (val e dst <=? x) && (x <? val e dst + val e n) then a_mem t (val e src + (x - val e dst)) else a_mem t x) /\
  framed (fun x => x < two64 \/ exists i, x = SCRATCH i) t t'.
Proof.
  intros _ L1 L2. cbv zeta. cbn [psx]. cbv zeta. set (q := val e dst) in *. set (p := val e src) in *. set (k := val e n) in *.
  set (ks := nseq 0 (N.to_nat k)). set (c1 := map (fun i => (SCRATCH i, p + i)) ks). set (c2 := map (fun i => (q + i, SCRATCH i)) ks).
  assert (F1 : map fst c1 = map SCRATCH ks) by (unfold c1; rewrite map_map; reflexivity).
  assert (G1 : map snd c1 = map (fun i => p + i) ks) by (unfold c1; rewrite map_map; reflexivity).
  assert (F2 : map fst c2 = map (fun i => q + i) ks) by (unfold c2; rewrite map_map; reflexivity).
  assert (G2 : map snd c2 = map SCRATCH ks) by (unfold c2; rewrite map_map; reflexivity).
  assert (Lk : forall i, In i ks <-> i < k) by (intros i; unfold ks; rewrite in_seqN; lia).
  assert (D1 : forall x, In x (map fst c1) -> ~ In x (map snd c1)).
  { rewrite F1, G1. intros x I J. apply in_map_iff in I as (i & <- & I). apply in_map_iff in J as (j & J1 & J2). apply Lk in J2.
    assert (H := cell_above 2 i). unfold SCRATCH in J1. lia. }
  assert (D2 : forall x, In x (map fst c2) -> ~ In x (map snd c2)).
  { rewrite F2, G2. intros x I J. apply in_map_iff in I as (i & <- & I). apply in_map_iff in J as (j & J1 & J2). apply Lk in I.
    assert (H := cell_above 2 j). unfold SCRATCH in J1. lia. }
  assert (N1 : NoDup (map fst c1)).
  { rewrite F1. apply Injective_map_NoDup; [|apply NoDup_nseq]. intros i j E. now apply cell_inj in E. }
  assert (N2 : NoDup (map fst c2)).
  { rewrite F2. apply Injective_map_NoDup; [|apply NoDup_nseq]. intros i j E. lia. }
  destruct (p_copies_mem c1 t D1) as [A1 R1]. destruct (p_copies_mem c2 (p_copies t c1) D2) as [A2 R2].
  split.
  - intros x Lx. rewrite A2.
    destruct (N.leb_spec q x), (N.ltb_spec x (q + k)); cbn [andb].
    { rewrite (assign_nodup _ x (a_mem (p_copies t c1) (SCRATCH (x - q)))).
      - rewrite A1. apply (assign_nodup _ (SCRATCH (x - q)) (a_mem t (p + (x - q)))).
        + rewrite map_map. cbn [fst]. exact N1.
        + apply in_map_iff. exists (SCRATCH (x - q), p + (x - q)). split; [reflexivity|]. unfold c1. apply in_map_iff. exists (x - q). split; [reflexivity|]. apply Lk. lia.
      - rewrite map_map. cbn [fst]. exact N2.
      - apply in_map_iff. exists (q + (x - q), SCRATCH (x - q)). cbn [fst snd]. split; [f_equal; lia|]. unfold c2. apply in_map_iff. exists (x - q). split; [reflexivity|]. apply Lk. lia. }
    all: rewrite assign_out; [|rewrite map_map; cbn [fst]; change (fun x : N * N => fst x) with (@fst N N); rewrite F2; intros I; apply in_map_iff in I as (i & I1 & I2); apply Lk in I2; lia].
    all: apply (framed_mem _ _ _ _ R1); rewrite F1; intros I; apply in_map_iff in I as (i & I1 & I2); assert (H' := cell_above 2 i); unfold SCRATCH in I1; lia.
  - apply framed_trans with (p_copies t c1).
    + eapply framed_impl; [|exact R1]. intros x I. cbv beta in I. rewrite F1 in I. apply in_map_iff in I as (i & <- & I). right. now exists i.
    + eapply framed_impl; [|exact R2]. intros x I. cbv beta in I. rewrite F2 in I. apply in_map_iff in I as (i & <- & I). apply Lk in I. left. lia.
Qed.

(** ** Instructions *)
Lemma plain_flow avoid d i e m a e' m' deps s t :
  plain i = true -> app_exec i e m a = Ok (e', m') -> near low s t -> agree d e deps t ->
  let t' := pcode d e t (g_pre (visit avoid i)) in
  exists deps' s', flow_exec true i e deps s = Ok (deps', s') /\ near low s' t' /\ agree d e' deps' t' /\ framed (local d) t t'.
Proof.
  intros Pl E Nr Ag. cbv zeta.
  assert (Set1 : forall c v dst y bs t1, pcode d e t c = t1 -> framed (eq TMP) t t1 -> same bs (pdep d t1 v) ->
    near low s (pcode d e t (c ++ [TSet dst v])) /\ agree d (put e dst (Some y)) (put deps dst bs) (pcode d e t (c ++ [TSet dst v])) /\
    framed (local d) t (pcode d e t (c ++ [TSet dst v]))).
  { intros c v dst y bs t1 <- F Sm. rewrite pcode_app. cbn [pcode fold_left psx].
    destruct (set_agree d e deps t (pcode d e t c) dst v y bs Ag F Sm) as [A1 F1].
    split; [apply near_framed with t; [exact Nr|]; eapply framed_impl; [apply (dst_high d dst)|exact F1]|].
    split; [exact A1|]. eapply framed_impl; [apply (dst_local d dst)|exact F1]. }
  destruct i; cbn [plain] in Pl; try discriminate; cbn [app_exec] in E; cbn [visit flow_exec].
  - (* compute *) destruct (values e ops) as [vs| | |] eqn:Ev; try discriminate. cbn [bind] in E. destruct (f vs) as [y|]; [|discriminate].
    assert (e' = put e dst (Some y)) as -> by congruence. eexists _, s. split; [reflexivity|].
    destruct (combine_ops avoid ops) as [c v] eqn:Ec. cbn [g_pre]. destruct (combine_ops_flow d e avoid ops t c v Ec) as [F1 S1].
    apply (Set1 c v dst y _ _ eq_refl F1). apply same_trans with (concat (map (fun o => pdep d t (sh o)) ops)); [|now apply same_sym].
    apply same_concat. exact (deps_same d e deps t ops vs Ag Ev).
  - (* load *) destruct (value e ptr) as [p| | |] eqn:Ep; try discriminate. cbn [bind] in E. destruct (span p size) as [u| | |] eqn:Es; try discriminate. cbn [bind] in E.
    apply span_ok in Es. match type of E with Ok (put e dst (Some ?y), _) = _ => assert (e' = put e dst (Some y)) as -> by congruence end.
    cbn [bind]. eexists _, s. split; [reflexivity|]. cbn [g_pre]. unfold load_code. destruct (N.eqb_spec size 0) as [->|Nz].
    { apply (Set1 [] SZero dst _ [] t eq_refl); [apply framed_refl|apply same_refl]. }
    assert (Dp := agree_op d e deps t ptr p Ag Ep).
    destruct const.
    + destruct (combine_shadows avoid SZero (sh ptr)) as [c2 v2] eqn:Ec. cbn [app].
      destruct (combine_flow d e _ _ _ t _ _ Ec) as [F2 S2]. apply (Set1 c2 v2 dst _ _ _ eq_refl F2).
      apply same_sym. apply (same_trans _ _ _ S2). cbn [pdep app]. now apply same_sym.
    + destruct (combine_shadows avoid STmp (sh ptr)) as [c2 v2] eqn:Ec. rewrite app_assoc.
      set (t1 := psx d e t (TLoad avoid ptr size)).
      assert (F1 : framed (eq TMP) t t1) by apply framed_set.
      destruct (combine_flow d e _ _ _ t1 _ _ Ec) as [F2 S2].
      apply (Set1 ([TLoad avoid ptr size] ++ c2) v2 dst _ _ (pcode d e t1 c2)); [reflexivity|exact (framed_trans _ _ _ _ F1 F2)|].
      apply same_sym. apply (same_trans _ _ _ S2). apply same_sym. apply same_app.
      * cbn [pdep]. unfold t1. cbn [psx]. rewrite set_mem, N.eqb_refl, (val_ok _ _ _ Ep). apply same_concat. apply bytes_same.
        intros x Lx. apply (nr_mem _ _ _ Nr). unfold low. lia.
      * rewrite (pdep_framed d t t1 (sh ptr) F1 (sh_tmp ptr)). exact Dp.
  - (* store *) destruct (value e v) as [x| | |] eqn:Ex; try discriminate. cbn [bind] in E. destruct (value e ptr) as [p| | |] eqn:Ep; try discriminate. cbn [bind] in E.
    destruct (span p size) as [u| | |] eqn:Es; try discriminate. cbn [bind] in E. apply span_ok in Es. assert (e' = e) as -> by congruence.
    cbn [bind]. eexists deps, _. split; [reflexivity|]. cbn [g_pre]. unfold store_code. destruct (N.eqb_spec size 0) as [->|Nz].
    { cbn [pcode fold_left]. split; [|split; [exact Ag|apply framed_refl]].
      unfold dep_store. apply near_update with t; [exact Nr|apply framed_refl|]. intros y Ly.
      destruct (N.leb_spec p y), (N.ltb_spec y (p + 0)); cbn [andb]; try lia; now apply (nr_mem _ _ _ Nr). }
    cbn [andb]. set (w := if atomic then SZero else sh v). cbn [pcode fold_left psx]. rewrite (val_ok _ _ _ Ep).
    assert (Sm : same (if atomic then [] else dep deps v) (pdep d t w)).
    { unfold w. destruct atomic; [apply same_refl|]. exact (agree_op d e deps t v x Ag Ex). }
    set (addrs := if sval_eqb w SZero then nseq p (N.to_nat size) else store_addrs p size).
    assert (Ia : forall y, In y addrs <-> p <= y < p + size).
    { intros y. unfold addrs. destruct (sval_eqb w SZero); [apply in_seqN|apply in_store_addrs]. }
    assert (Fr := sets_low t (pdep d t w) addrs p size Ia Es).
    split; [now apply store_flow|]. split; [exact (agree_low _ _ _ _ _ Ag Fr)|]. eapply framed_impl; [|exact Fr]. intros y Ly. now left.
  - (* atomic update *) destruct (value e v) as [x| | |] eqn:Ex; try discriminate. cbn [bind] in E. destruct (value e ptr) as [p| | |] eqn:Ep; try discriminate. cbn [bind] in E.
    destruct (span p size) as [u| | |] eqn:Es; try discriminate. cbn [bind] in E. apply span_ok in Es. cbv zeta in E.
    match type of E with Ok (put e dst (Some ?y), _) = _ => assert (e' = put e dst (Some y)) as -> by congruence end.
    cbn [bind]. eexists _, _. split; [reflexivity|]. cbn [g_pre]. unfold rmw_code. destruct (N.eqb_spec size 0) as [->|Nz].
    { destruct (Set1 [] SZero dst (load_int m p (N.to_nat 0)) [] t eq_refl (framed_refl _ _) (same_refl _)) as (A1 & A2 & A3).
      split; [|split; [exact A2|exact A3]].
      unfold dep_store. apply near_update with t; [exact Nr|eapply framed_impl; [|exact A3]; auto|]. intros y Ly.
      destruct (N.leb_spec p y), (N.ltb_spec y (p + 0)); cbn [andb]; try lia; now apply (nr_mem _ _ _ A1). }
    cbn [pcode fold_left]. set (t1 := psx d e t (TStore ptr size SZero)).
    assert (Et : t1 = p_sets t [] (nseq p (N.to_nat size))) by (unfold t1; cbn [psx sval_eqb pdep]; rewrite (val_ok _ _ _ Ep); reflexivity).
    assert (Fr : framed (fun y => y < two64) t t1) by (rewrite Et; apply sets_low with p size; [apply in_seqN|exact Es]).
    assert (Nr1 : near low (dep_store s p size []) t1) by (rewrite Et; apply store_flow; [exact Nr|apply same_refl|apply in_seqN]).
    cbn [psx]. destruct (set_agree d e deps t1 t1 dst SZero (load_int m p (N.to_nat size)) [] (agree_low _ _ _ _ _ Ag Fr) (framed_refl _ _) (same_refl _)) as [A1 F1].
    split; [apply near_framed with t1; [exact Nr1|]; eapply framed_impl; [apply (dst_high d dst)|exact F1]|].
    split; [exact A1|]. apply framed_trans with t1; [eapply framed_impl; [|exact Fr]; intros y Ly; now left|].
    eapply framed_impl; [apply (dst_local d dst)|exact F1].
  - (* get *) destruct (value e (OReg x)) as [y| | |] eqn:Ex; try discriminate. cbn [bind] in E. assert (e' = put e dst (Some y)) as -> by congruence.
    eexists _, s. split; [reflexivity|]. cbn [g_pre]. apply (Set1 [] (SReg x) dst y (deps x) t eq_refl (framed_refl _ _)).
    exact (agree_op d e deps t (OReg x) y Ag Ex).
  - (* set *) destruct (value e v) as [y| | |] eqn:Ex; try discriminate. cbn [bind] in E. assert (e' = put e x (Some y)) as -> by congruence.
    eexists _, s. split; [reflexivity|]. cbn [g_pre andb]. apply (Set1 [] (if atomic then SZero else sh v) x y _ t eq_refl (framed_refl _ _)).
    destruct atomic; [apply same_refl|]. exact (agree_op d e deps t v y Ag Ex).
  - (* select *) destruct (value e c) as [k| | |] eqn:Ek; try discriminate. cbn [bind] in E.
    destruct (value e (if k =? 0 then b else a0)) as [y| | |] eqn:Ey; try discriminate. cbn [bind] in E. assert (e' = put e dst (Some y)) as -> by congruence.
    cbn [bind]. eexists _, s. split; [reflexivity|]. cbn [g_pre]. unfold select_code.
    assert (Dc := agree_op d e deps t c k Ag Ek). assert (Dy := agree_op d e deps t _ y Ag Ey).
    destruct (sval_eqb (sh a0) (sh b)) eqn:Eq.
    + apply sval_eqb_eq in Eq. destruct (combine_shadows avoid (sh c) (sh a0)) as [c2 v2] eqn:Ec. cbn [app].
      destruct (combine_flow d e _ _ _ t _ _ Ec) as [F2 S2]. apply (Set1 c2 v2 dst y _ _ eq_refl F2).
      apply same_sym. apply (same_trans _ _ _ S2). apply same_sym. apply same_app; [exact Dc|]. destruct (k =? 0); [rewrite Eq|]; exact Dy.
    + destruct (combine_shadows avoid (sh c) STmp) as [c2 v2] eqn:Ec. rewrite app_assoc.
      set (t1 := psx d e t (TSelect c (sh a0) (sh b))).
      assert (F1 : framed (eq TMP) t t1) by apply framed_set.
      destruct (combine_flow d e _ _ _ t1 _ _ Ec) as [F2 S2].
      apply (Set1 ([TSelect c (sh a0) (sh b)] ++ c2) v2 dst y _ (pcode d e t1 c2)); [reflexivity|exact (framed_trans _ _ _ _ F1 F2)|].
      apply same_sym. apply (same_trans _ _ _ S2). apply same_sym. apply same_app.
      * rewrite (pdep_framed d t t1 (sh c) F1 (sh_tmp c)). exact Dc.
      * cbn [pdep]. unfold t1. cbn [psx]. rewrite set_mem, N.eqb_refl, (val_ok _ _ _ Ek). destruct (k =? 0); exact Dy.
  - (* memset *) destruct (value e ptr) as [p| | |] eqn:Ep; try discriminate. cbn [bind] in E. destruct (value e v) as [x| | |] eqn:Ex; try discriminate. cbn [bind] in E.
    destruct (value e n) as [k| | |] eqn:Ek; try discriminate. cbn [bind] in E. destruct (span p k) as [u| | |] eqn:Es; try discriminate. cbn [bind] in E.
    apply span_ok in Es. assert (e' = e) as -> by congruence. cbn [bind]. eexists deps, _. split; [reflexivity|]. cbn [g_pre pcode fold_left psx].
    rewrite (val_ok _ _ _ Ep), (val_ok _ _ _ Ek).
    assert (Fr := sets_low t (pdep d t (sh v)) _ p k (in_seqN p k) Es).
    split; [apply store_flow; [exact Nr|exact (agree_op d e deps t v x Ag Ex)|apply in_seqN]|]. split; [exact (agree_low _ _ _ _ _ Ag Fr)|].
    eapply framed_impl; [|exact Fr]. intros y Ly. now left.
  - (* memmove *) destruct (value e dst) as [q| | |] eqn:Eq; try discriminate. cbn [bind] in E. destruct (value e src) as [p| | |] eqn:Ep; try discriminate. cbn [bind] in E.
    destruct (value e n) as [k| | |] eqn:Ek; try discriminate. cbn [bind] in E. destruct (span q k) as [u| | |] eqn:Es1; try discriminate. cbn [bind] in E.
    destruct (span p k) as [u'| | |] eqn:Es2; try discriminate. cbn [bind] in E. apply span_ok in Es1, Es2. assert (e' = e) as -> by congruence.
    cbn [bind]. eexists deps, _. split; [reflexivity|]. cbn [g_pre]. change (pcode d e t [TMove dst src n]) with (psx d e t (TMove dst src n)).
    destruct (move_flow d e t dst src n) as [M1 M2]; rewrite ?(val_ok _ _ _ Eq), ?(val_ok _ _ _ Ep), ?(val_ok _ _ _ Ek); auto.
    rewrite ?(val_ok _ _ _ Eq), ?(val_ok _ _ _ Ep), ?(val_ok _ _ _ Ek) in M1.
    split; [|split].
    + unfold dep_move. apply near_update with t; [exact Nr|eapply framed_impl; [|exact M2]; auto|]. intros x Lx. rewrite (M1 x Lx).
      destruct (N.leb_spec q x), (N.ltb_spec x (q + k)); cbn [andb]; apply (nr_mem _ _ _ Nr); unfold low; lia.
    + intros x w Ex. rewrite (framed_mem _ _ _ _ M2); [exact (Ag x w Ex)|]. intros [L|[j Ej]]; [assert (H := REG_high d x); lia|]. now apply (REG_SCRATCH d x j).
    + eapply framed_impl; [|exact M2]. intros x [L|L]; [now left|]. right. right. now left.
  - (* opaque *) eexists _, s. split; [reflexivity|]. destruct dst as [x|]; cbn [g_pre].
    + assert (e' = put e x (Some (an_val a))) as -> by congruence. apply (Set1 [] SZero x _ [] t eq_refl (framed_refl _ _) (same_refl _)).
    + assert (e' = e) as -> by congruence. cbn [pcode fold_left]. split; [exact Nr|]. split; [exact Ag|apply framed_refl].
Qed.
