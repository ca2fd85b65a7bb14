(** Reusing combined shadows does not change what they mean. *)
From Coq Require Import NArith List Bool Lia.
From Verif Require Import M_Base P_Base M_DfsanCache S_Shadow.
Import ListNotations.
Open Scope N_scope.

Lemma sv_eqb_spec : forall a b, reflect (a = b) (sv_eqb a b).
Proof.
  intros [|x|x] [|y|y]; cbn; try (constructor; congruence).
  - destruct (N.eqb_spec x y); constructor; congruence.
  - destruct (N.eqb_spec x y); constructor; congruence.
Qed.
Lemma sv_eqb_refl : forall a, sv_eqb a a = true.
Proof. intros a. destruct (sv_eqb_spec a a); congruence. Qed.
Lemma in_elems_iff : forall v l, in_elems v l = true <-> In v l.
Proof.
  intros v l. unfold in_elems. rewrite existsb_exists. split.
  - intros (w & I & E). destruct (sv_eqb_spec v w); congruence.
  - intros I. exists v. split; [exact I|apply sv_eqb_refl].
Qed.
Lemma includes_iff : forall a b, includes a b = true <-> incl b a.
Proof.
  intros a b. unfold includes. rewrite forallb_forall. unfold incl.
  split; intros H v I; apply in_elems_iff; auto.
Qed.

Section Paths.
Variable F : xfunc.

Lemma path_cut : forall p q, path F (p ++ q) -> q <> [] -> path F q.
Proof.
  induction p as [|x p IH]; intros q P Q; [exact P|]. cbn in P. apply IH; [|exact Q].
  inversion P as [E|a b p' P' B E]; subst; [|exact P'].
  destruct p; [destruct q; [contradiction|discriminate]|discriminate].
Qed.

Lemma dom_trans : forall a b c, dominates F a b -> dominates F b c -> dominates F a c.
Proof.
  intros a b c A B p P. destruct (in_split _ _ (B p P)) as (l1 & l2 & E). rewrite E.
  apply in_or_app. right. apply A. rewrite E in P. apply (path_cut l1); [exact P|discriminate].
Qed.
Lemma dom_refl : forall a, dominates F a a.
Proof. intros a p _. now left. Qed.

Lemma dom_antisym : forall n a b p, (length p <= n)%nat -> path F (b :: p) ->
  dominates F a b -> dominates F b a -> a = b.
Proof.
  induction n as [|n IH]; intros a b p L P A B; destruct (N.eq_dec a b) as [|Ne]; auto.
  - destruct p; [|cbn in L; lia]. destruct (A [] P) as [|[]]; congruence.
  - destruct (A p P) as [|I]; [congruence|]. destruct (in_split _ _ I) as (l1 & l2 & ->).
    assert (P2 : path F (a :: l2)) by (apply (path_cut (b :: l1)); [exact P|discriminate]).
    destruct (B l2 P2) as [|I2]; [congruence|]. destruct (in_split _ _ I2) as (l3 & l4 & ->).
    apply (IH a b l4).
    + rewrite !app_length in L. cbn in L. rewrite app_length in L. cbn in L. lia.
    + apply (path_cut (a :: l3)); [exact P2|discriminate].
    + exact A.
    + exact B.
Qed.

Lemma dom_pred : forall d a b p, path F (a :: p) -> In b (x_succ (xblock_at F a)) ->
  dominates F d b -> d <> b -> dominates F d a.
Proof.
  intros d a b p P E D Ne q Q. destruct (D (a :: q)) as [|I]; [now apply path_next|congruence|exact I].
Qed.

(** ** The order of the blocks *)
Lemma depth_first_ok : forall fuel seen stack out,
  depth_first fuel F seen stack = Ok out ->
  NoDup seen -> seen <> [] ->
  (forall pre b post, seen = pre ++ b :: post -> post <> [] -> exists a, In a post /\ In b (x_succ (xblock_at F a))) ->
  (forall l, In l stack -> exists a, In a seen /\ incl l (x_succ (xblock_at F a))) ->
  (forall a c, In a seen -> In c (x_succ (xblock_at F a)) -> In c seen \/ exists l, In l stack /\ In c l) ->
  (exists pre, out = pre ++ seen) /\ NoDup out /\
  (forall pre b post, out = pre ++ b :: post -> post <> [] -> exists a, In a post /\ In b (x_succ (xblock_at F a))) /\
  (forall a c, In a out -> In c (x_succ (xblock_at F a)) -> In c out).
Proof.
  induction fuel as [|f IH]; intros seen stack out E ND NE Pr St Cl; cbn in E; [discriminate|].
  destruct stack as [|[|c cs] st].
  - injection E as <-. split; [now exists []|]. split; [exact ND|]. split; [exact Pr|].
    intros a c A C. destruct (Cl a c A C) as [|(l & [] & _)]; auto.
  - apply (IH _ _ _ E ND NE Pr).
    + intros l I. apply St. now right.
    + intros a c A C. destruct (Cl a c A C) as [|(l & [<-|I] & Il)]; auto; [contradiction|]. right. eauto.
  - destruct (existsb (N.eqb c) seen) eqn:X.
    + apply existsb_exists in X. destruct X as (y & Y & Ey). apply N.eqb_eq in Ey. subst y.
      apply (IH _ _ _ E ND NE Pr).
      * intros l [<-|I].
        -- destruct (St (c :: cs)) as (a & A & I); [now left|]. exists a. split; [exact A|].
           intros z Z. apply I. now right.
        -- apply St. now right.
      * intros a d A D. destruct (Cl a d A D) as [|(l & [<-|I] & Il)]; auto.
        -- destruct Il as [<-|Il]; [auto|]. right. exists cs. split; [now left|exact Il].
        -- right. exists l. split; [now right|exact Il].
    + assert (NI : ~ In c seen).
      { intros I. assert (T : existsb (N.eqb c) seen = true); [|congruence].
        apply existsb_exists. exists c. split; [exact I|apply N.eqb_refl]. }
      destruct (St (c :: cs)) as (a0 & A0 & I0); [now left|].
      destruct (IH _ _ _ E) as ((pre & ->) & R).
      * now constructor.
      * discriminate.
      * intros pre b post Eq Ne. destruct pre as [|z pre]; cbn in Eq; injection Eq as -> Eq.
        -- subst post. exists a0. split; [exact A0|]. apply I0. now left.
        -- apply (Pr pre b post Eq Ne).
      * intros l [<-|[<-|I]].
        -- exists c. split; [now left|apply incl_refl].
        -- exists a0. split; [now right|]. intros z Z. apply I0. now right.
        -- destruct (St l) as (a & A & Il); [now right|]. exists a. split; [now right|exact Il].
      * intros a d [<-|A] D.
        -- right. eexists. split; [now left|exact D].
        -- destruct (Cl a d A D) as [|(l & [<-|I] & Il)].
           ++ left. now right.
           ++ destruct Il as [<-|Il]; [left; now left|]. right. exists cs. split; [right; now left|exact Il].
           ++ right. exists l. split; [right; now right|exact Il].
      * split; [|exact R]. exists (pre ++ [c]). now rewrite <- app_assoc.
Qed.

(** An order of visits: the entry first, every other block after one of its predecessors, and
    all successors. *)
Definition visits (order : list N) : Prop :=
  NoDup order /\ (exists r, order = 0 :: r) /\
  (forall pre b post, order = pre ++ b :: post -> pre <> [] -> exists a, In a pre /\ In b (x_succ (xblock_at F a))) /\
  (forall a c, In a order -> In c (x_succ (xblock_at F a)) -> In c order).

Lemma depth_first_visits : forall fuel out,
  depth_first fuel F [0] [x_succ (xblock_at F 0)] = Ok out -> visits (rev out).
Proof.
  intros fuel out E. destruct (depth_first_ok _ _ _ _ E) as ((pre & Eo) & ND & Pr & Cl).
  - constructor; [easy|constructor].
  - discriminate.
  - intros pre b post Eq Ne. destruct pre as [|z [|]]; cbn in Eq; try discriminate. injection Eq as _ <-. contradiction.
  - intros l [<-|[]]. exists 0. split; [now left|apply incl_refl].
  - intros a c [<-|[]] C. right. eexists. split; [now left|exact C].
  - split; [now apply NoDup_rev|]. split; [|split].
    + subst out. rewrite rev_app_distr. cbn. eauto.
    + intros p b q Eq Ne. apply (f_equal (@rev N)) in Eq. rewrite rev_involutive, rev_app_distr in Eq. cbn in Eq.
      rewrite <- app_assoc in Eq. cbn in Eq. destruct (Pr _ _ _ Eq) as (a & A & B).
      { intros Z. apply Ne. rewrite <- (rev_involutive p), Z. reflexivity. }
      exists a. split; [now apply in_rev|exact B].
    + intros a c A C. apply in_rev in A. apply -> in_rev. eapply Cl; eauto.
Qed.

Lemma visited_path : forall order, visits order -> forall n pre b post, (length pre <= n)%nat ->
  order = pre ++ b :: post -> exists p, path F (b :: p) /\ incl p pre.
Proof.
  intros order (ND & (r & E0) & Pr & _). induction n as [|n IH]; intros pre b post L E.
  - destruct pre; [|cbn in L; lia]. cbn in E. rewrite E0 in E. injection E as <- _. exists []. split; [constructor|easy].
  - destruct pre as [|z pre].
    { cbn in E. rewrite E0 in E. injection E as <- _. exists []. split; [constructor|easy]. }
    destruct (Pr (z :: pre) b post E) as (a & A & B); [discriminate|].
    destruct (in_split _ _ A) as (l1 & l2 & S). rewrite S in E, L |- *.
    destruct (IH l1 a (l2 ++ b :: post)) as (p & P & I).
    { rewrite app_length in L. cbn in L. lia. }
    { rewrite E, <- app_assoc. reflexivity. }
    exists (a :: p). split; [now apply path_next|].
    intros y [<-|Y]; apply in_or_app; [right; now left|left; now apply I].
Qed.

Lemma dominators_first : forall order, visits order -> forall pre b post d,
  order = pre ++ b :: post -> dominates F d b -> d <> b -> In d pre.
Proof.
  intros order V pre b post d E D Ne. destruct (visited_path order V _ pre b post (le_n _) E) as (p & P & I).
  destruct (D p P) as [|X]; [congruence|]. now apply I.
Qed.
Lemma visited_all : forall order, visits order -> forall p b, path F (b :: p) -> In b order.
Proof.
  intros order (ND & (r & E0) & Pr & Cl) p. induction p as [|a p IH]; intros b P; inversion P; subst.
  - now left.
  - eapply Cl; [apply IH; eassumption|eassumption].
Qed.
End Paths.

(** ** What the pass knows *)
Section Pass.
Variables (F : xfunc) (dom : N -> N -> bool).
Hypothesis SSA : ssa F.
Hypothesis D : forall a b, (exists p, path F (b :: p)) -> dom a b = true -> dominates F a b.

Definition avail (st : pstate) (regs : list N) (b : N) (v : sv) : Prop :=
  match v with
  | VZero => False
  | VBase r => In r regs /\ exists d, defines F d r /\ dominates F d b
  | VUnion k => k < ps_next st /\ exists d x y, In (d, OUnion k x y) (ps_code st) /\ dominates F d b
  end.
Definition below (k : N) (v : sv) : Prop := match v with VUnion j => j < k | _ => True end.

Record known (regs blks : list N) (st : pstate) : Prop := mkKnown {
  k_code : forall b i, In (b, i) (ps_code st) -> In b blks;
  k_fresh : forall b r, In (b, OFresh r) (ps_code st) -> In r regs /\ defines F b r;
  k_union : forall b k x y, In (b, OUnion k x y) (ps_code st) ->
    k < ps_next st /\ avail st regs b x /\ below k x /\ avail st regs b y /\ below k y;
  k_once : forall b k x y b' x' y', In (b, OUnion k x y) (ps_code st) -> In (b', OUnion k x' y') (ps_code st) ->
    b = b' /\ x = x' /\ y = y';
  k_shadow : forall r v, ps_shadow st r = Some v -> In r regs /\ exists d, defines F d r /\ In d blks /\ (v = VZero \/ avail st regs d v);
  k_regs : forall r, In r regs -> exists v, ps_shadow st r = Some v;
  k_elems : forall v, match v with
    | VUnion k => k < ps_next st -> exists b x y, In (b, OUnion k x y) (ps_code st) /\ ps_elems st v = Some (elems_of st x ++ elems_of st y)
    | _ => ps_elems st v = None
    end;
  k_cached : forall x y b v, ps_cached st x y = Some (b, v) ->
    exists k, v = VUnion k /\ (In (b, OUnion k x y) (ps_code st) \/ In (b, OUnion k y x) (ps_code st)) }.

Lemma avail_mono : forall st st' regs regs' b v, avail st regs b v -> ps_next st <= ps_next st' ->
  incl (ps_code st) (ps_code st') -> incl regs regs' -> avail st' regs' b v.
Proof.
  intros st st' regs regs' b [|r|k] A Nx C R; cbn in *; [easy| |].
  - destruct A as (I & d & X). split; [now apply R|eauto].
  - destruct A as (L & d & x & y & I & X). split; [lia|]. exists d, x, y. split; [now apply C|exact X].
Qed.
Lemma avail_dom : forall st regs d b v, avail st regs d v -> dominates F d b -> avail st regs b v.
Proof.
  intros st regs d b [|r|k] A X; cbn in *; [easy| |].
  - destruct A as (I & d' & H & Y). split; [exact I|]. exists d'. split; [exact H|]. eapply dom_trans; eauto.
  - destruct A as (L & d' & x & y & I & Y). split; [exact L|]. exists d', x, y. split; [exact I|]. eapply dom_trans; eauto.
Qed.

Lemma new_union_known : forall regs blks st b x y v st', known regs blks st -> In b blks ->
  avail st regs b x -> avail st regs b y ->
  new_union st b x y = (v, st') ->
  known regs blks st' /\ ps_shadow st' = ps_shadow st /\ v = VUnion (ps_next st) /\ ps_next st' = ps_next st + 1 /\
  ps_code st' = ps_code st ++ [(b, OUnion (ps_next st) x y)] /\ avail st' regs b v.
Proof.
  intros regs blks st b x y v st' K B X Y E. unfold new_union in E. injection E as <- <-.
  assert (Bx : forall z, avail st regs b z -> below (ps_next st) z).
  { intros [|r|k]; cbn; tauto. }
  assert (Mo : forall d z (st2 : pstate), ps_next st2 = ps_next st + 1 ->
             ps_code st2 = ps_code st ++ [(b, OUnion (ps_next st) x y)] -> avail st regs d z -> avail st2 regs d z).
  { intros d z st2 Hn Hc A. apply (avail_mono st _ regs regs _ _ A); [lia|rewrite Hc; apply incl_appl, incl_refl|apply incl_refl]. }
  split; [|split; [reflexivity|split; [reflexivity|split; [reflexivity|split; [reflexivity|]]]]].
  - assert (El : forall z, below (ps_next st) z ->
      elems_of (mkPstate (ps_next st + 1) (ps_code st ++ [(b, OUnion (ps_next st) x y)]) (ps_shadow st)
        (fun w => if sv_eqb w (VUnion (ps_next st)) then Some (elems_of st x ++ elems_of st y) else ps_elems st w)
        (fun w z0 => if (sv_eqb w x && sv_eqb z0 y) || (sv_eqb w y && sv_eqb z0 x) then Some (b, VUnion (ps_next st)) else ps_cached st w z0)) z
      = elems_of st z).
    { intros z Z. unfold elems_of. cbn [ps_elems]. destruct (sv_eqb_spec z (VUnion (ps_next st))) as [->|]; [cbn in Z; lia|reflexivity]. }
    constructor; cbn [ps_code ps_next ps_shadow ps_cached].
    + intros b' i I. apply in_app_iff in I. destruct I as [I|[I|[]]]; [eapply k_code; eauto|]. injection I as <- <-. exact B.
    + intros b' r I. apply in_app_iff in I. destruct I as [I|[I|[]]]; [eapply k_fresh; eauto|discriminate].
    + intros b' k x' y' I. apply in_app_iff in I. destruct I as [I|[I|[]]].
      * destruct (k_union _ _ _ K _ _ _ _ I) as (L & A1 & L1 & A2 & L2).
        split; [lia|]. split; [now apply Mo|]. split; [exact L1|]. split; [now apply Mo|exact L2].
      * injection I as <- <- <- <-. split; [lia|]. split; [now apply Mo|]. split; [now apply Bx|]. split; [now apply Mo|now apply Bx].
    + intros b1 k x1 y1 b2 x2 y2 I1 I2. apply in_app_iff in I1, I2.
      destruct I1 as [I1|[I1|[]]], I2 as [I2|[I2|[]]].
      * eapply k_once; eauto.
      * injection I2 as <- <- <- <-. apply (k_union _ _ _ K) in I1. lia.
      * injection I1 as <- <- <- <-. apply (k_union _ _ _ K) in I2. lia.
      * injection I1 as <- <- <- <-. injection I2 as <- <- <-. auto.
    + intros r v' E. destruct (k_shadow _ _ _ K _ _ E) as (I & d & H & Hb & H2). split; [exact I|]. exists d. split; [exact H|]. split; [exact Hb|].
      destruct H2; [now left|right; now apply Mo].
    + intros r I. apply (k_regs _ _ _ K _ I).
    + intros [|r|k]; cbn [ps_elems sv_eqb]; [apply (k_elems _ _ _ K VZero)|apply (k_elems _ _ _ K (VBase r))|].
      intros L. destruct (N.eqb_spec k (ps_next st)) as [->|Ne].
      * exists b, x, y. split; [apply in_or_app; right; now left|]. rewrite !El by (now apply Bx). reflexivity.
      * destruct (k_elems _ _ _ K (VUnion k)) as (b' & x' & y' & I & E); [lia|].
        destruct (k_union _ _ _ K _ _ _ _ I) as (_ & A1 & L1 & A2 & L2).
        exists b', x', y'. split; [apply in_or_app; now left|]. rewrite !El; [exact E| |].
        -- destruct y'; cbn in *; auto; lia.
        -- destruct x'; cbn in *; auto; lia.
    + intros x' y' b' v' E. destruct ((sv_eqb x' x && sv_eqb y' y) || (sv_eqb x' y && sv_eqb y' x)) eqn:Q.
      * injection E as <- <-. exists (ps_next st). split; [reflexivity|].
        apply orb_true_iff in Q. destruct Q as [Q|Q]; apply andb_true_iff in Q; destruct Q as [Q1 Q2];
          destruct (sv_eqb_spec x' x), (sv_eqb_spec y' y), (sv_eqb_spec x' y), (sv_eqb_spec y' x); try discriminate; subst;
          (left + right); apply in_or_app; right; left; reflexivity.
      * destruct (k_cached _ _ _ K _ _ _ _ E) as (k & -> & [I|I]); exists k; (split; [reflexivity|]); [left|right]; apply in_or_app; now left.
  - cbn. split; [lia|]. exists b, x, y. split; [apply in_or_app; right; now left|apply dom_refl].
Qed.

(** What combining gives: a known shadow, and perhaps one instruction. *)
Lemma combine_known : forall regs blks st b x y v st', known regs blks st -> In b blks -> (exists p, path F (b :: p)) ->
  (x = VZero \/ avail st regs b x) -> (y = VZero \/ avail st regs b y) ->
  combine dom st b x y = (v, st') ->
  known regs blks st' /\ ps_shadow st' = ps_shadow st /\ ps_next st <= ps_next st' /\
  (v = VZero \/ avail st' regs b v) /\
  (st' = st \/ (v = VUnion (ps_next st) /\ ps_code st' = ps_code st ++ [(b, OUnion (ps_next st) x y)] /\
                ps_next st' = ps_next st + 1 /\ avail st regs b x /\ avail st regs b y)).
Proof.
  intros regs blks st b x y v st' K B P X Y E. unfold combine in E.
  destruct (sv_eqb_spec x VZero) as [->|Nx]. { injection E as <- <-. split; [exact K|]. split; [reflexivity|]. split; [lia|]. split; [auto|now left]. }
  destruct (sv_eqb_spec y VZero) as [->|Ny]. { injection E as <- <-. split; [exact K|]. split; [reflexivity|]. split; [lia|]. split; [auto|now left]. }
  destruct X as [|X]; [contradiction|]. destruct Y as [|Y]; [contradiction|].
  destruct (sv_eqb_spec x y) as [->|Nxy]. { injection E as <- <-. split; [exact K|]. split; [reflexivity|]. split; [lia|]. split; [auto|now left]. }
  destruct (match ps_elems st x with Some _ => _ | None => _ end) as [w|] eqn:Hit.
  - injection E as <- <-. split; [exact K|]. split; [reflexivity|]. split; [lia|]. split; [|now left]. right.
    destruct (ps_elems st x) as [la|], (ps_elems st y) as [lb|]; try discriminate.
    + destruct (includes la lb); [injection Hit as <-; exact X|]. destruct (includes lb la); [injection Hit as <-; exact Y|discriminate].
    + destruct (in_elems y la); [injection Hit as <-; exact X|discriminate].
    + destruct (in_elems x lb); [injection Hit as <-; exact Y|discriminate].
  - assert (New : new_union st b x y = (v, st') -> known regs blks st' /\ ps_shadow st' = ps_shadow st /\ ps_next st <= ps_next st' /\
      (v = VZero \/ avail st' regs b v) /\
      (st' = st \/ (v = VUnion (ps_next st) /\ ps_code st' = ps_code st ++ [(b, OUnion (ps_next st) x y)] /\
                ps_next st' = ps_next st + 1 /\ avail st regs b x /\ avail st regs b y))).
    { intros E'. destruct (new_union_known _ _ _ _ _ _ _ _ K B X Y E') as (K' & Sh & Ev & Nx' & C & A).
      split; [exact K'|]. split; [exact Sh|]. split; [lia|]. split; [now right|]. right. auto. }
    destruct (ps_cached st x y) as [[d w]|] eqn:Ca; [|exact (New E)].
    destruct (dom d b) eqn:Dm; [|exact (New E)]. injection E as <- <-.
    destruct (k_cached _ _ _ K _ _ _ _ Ca) as (k & -> & I).
    split; [exact K|]. split; [reflexivity|]. split; [lia|]. split; [|now left]. right. cbn.
    assert (Dd : dominates F d b) by auto.
    destruct I as [I|I]; (split; [eapply k_union; eauto|]); eauto.
Qed.

(** ** What labels mean *)
Variable means : N -> bytes.
Hypothesis Z : forall x, ~ means 0 x.

(** Unions computed in the dominators of block [b] are up to date. *)
Definition current (st : pstate) (b : N) (e : lenv) : Prop :=
  e VZero = 0 /\
  forall d k x y, In (d, OUnion k x y) (ps_code st) -> dominates F d b -> unites means (e (VUnion k)) (e x) (e y).

Lemma elems_mean : forall regs blks st b e, known regs blks st -> current st b e ->
  forall n v, (match v with VUnion k => (N.to_nat k < n)%nat | _ => True end) -> avail st regs b v ->
  forall z, means (e v) z <-> exists w, In w (elems_of st v) /\ means (e w) z.
Proof.
  intros regs blks st b e K [_ C]. induction n as [|n IH]; intros v L A z.
  - destruct v as [|r|k]; [destruct A| |lia]. unfold elems_of. rewrite (k_elems _ _ _ K (VBase r)). split.
    + intros M. exists (VBase r). split; [now left|exact M].
    + intros (w & [<-|[]] & M). exact M.
  - destruct v as [|r|k]; [destruct A| |].
    + unfold elems_of. rewrite (k_elems _ _ _ K (VBase r)). split.
      * intros M. exists (VBase r). split; [now left|exact M].
      * intros (w & [<-|[]] & M). exact M.
    + destruct A as (Lk & d & x & y & I & Dm).
      destruct (k_elems _ _ _ K (VUnion k) Lk) as (b' & x' & y' & I' & E).
      destruct (k_once _ _ _ K _ _ _ _ _ _ _ I I') as (<- & <- & <-).
      destruct (k_union _ _ _ K _ _ _ _ I) as (_ & A1 & L1 & A2 & L2).
      pose proof (IH x) as Hx. pose proof (IH y) as Hy.
      specialize (Hx ltac:(destruct x; cbn in *; auto; lia) (avail_dom _ _ _ _ _ A1 Dm) z).
      specialize (Hy ltac:(destruct y; cbn in *; auto; lia) (avail_dom _ _ _ _ _ A2 Dm) z).
      unfold elems_of at 1. rewrite E. rewrite (C d k x y I Dm z), Hx, Hy. split.
      * intros [(w & W & M)|(w & W & M)]; exists w; (split; [apply in_or_app; auto|exact M]).
      * intros (w & W & M). apply in_app_iff in W. destruct W; [left|right]; eauto.
Qed.

Lemma set_sv_same : forall e v l, set_sv e v l v = l.
Proof. intros. unfold set_sv. now rewrite sv_eqb_refl. Qed.
Lemma set_sv_other : forall e v w l, w <> v -> set_sv e v l w = e w.
Proof. intros e v w l Ne. unfold set_sv. destruct (sv_eqb_spec w v); congruence. Qed.

(** Code that was put in between two states of the pass for block [b]. *)
Definition emitted (st st' : pstate) (b : N) (c : list oinst) : Prop := ps_code st' = ps_code st ++ map (fun i => (b, i)) c.

Lemma run_body_app : forall un fr c1 c2 e e', run_body un fr (c1 ++ c2) e e' ->
  exists e1, run_body un fr c1 e e1 /\ run_body un fr c2 e1 e'.
Proof.
  induction c1 as [|i c1 IH]; intros c2 e e' R; cbn in R.
  - exists e. split; [constructor|exact R].
  - inversion R as [|r0 c0 ea eb R0|k0 a0 b0 c0 ea eb E0 R0|k0 a0 b0 c0 ea eb l0 N0 U0 R0]; subst.
    + destruct (IH _ _ _ R0) as (e1 & R1 & R2). exists e1. split; [now constructor|exact R2].
    + destruct (IH _ _ _ R0) as (e1 & R1 & R2). exists e1. split; [now constructor|exact R2].
    + destruct (IH _ _ _ R0) as (e1 & R1 & R2). exists e1. split; [eapply rb_union; eauto|exact R2].
Qed.

(** Combining, executed. *)
Lemma combine_means : forall regs blks st b x y v st', known regs blks st -> In b blks -> (exists p, path F (b :: p)) ->
  (x = VZero \/ avail st regs b x) -> (y = VZero \/ avail st regs b y) ->
  combine dom st b x y = (v, st') ->
  exists c, emitted st st' b c /\ forall fr e e', current st b e -> run_body (unites means) fr c e e' ->
    current st' b e' /\ (forall w, below (ps_next st) w -> e' w = e w) /\
    unites means (e' v) (e x) (e y).
Proof.
  intros regs blks st b x y v st' K B P X Y E.
  destruct (combine_known _ _ _ _ _ _ _ _ K B P X Y E) as (K' & _ & _ & Av & [->|(-> & C & Nx & Ax & Ay)]).
  - exists []. split; [unfold emitted; now rewrite app_nil_r|]. intros fr e e' Cu R. inversion R; subst e'.
    split; [exact Cu|]. split; [reflexivity|]. intros z. unfold combine in E.
    assert (E0 : forall z', ~ means (e VZero) z') by (intros z'; rewrite (proj1 Cu); apply Z).
    destruct (sv_eqb_spec x VZero) as [->|Nx]. { injection E as <-. specialize (E0 z). tauto. }
    destruct (sv_eqb_spec y VZero) as [->|Ny]. { injection E as <-. specialize (E0 z). tauto. }
    destruct X as [|X]; [contradiction|]. destruct Y as [|Y]; [contradiction|].
    destruct (sv_eqb_spec x y) as [->|Nxy]. { injection E as <-. tauto. }
    assert (Ex : forall z, means (e x) z <-> exists w, In w (elems_of st x) /\ means (e w) z).
    { apply (elems_mean regs blks st b e K Cu (match x with VUnion k => S (N.to_nat k) | _ => O end)); [destruct x; auto; lia|exact X]. }
    assert (Ey : forall z, means (e y) z <-> exists w, In w (elems_of st y) /\ means (e w) z).
    { apply (elems_mean regs blks st b e K Cu (match y with VUnion k => S (N.to_nat k) | _ => O end)); [destruct y; auto; lia|exact Y]. }
    destruct (match ps_elems st x with Some _ => _ | None => _ end) as [w|] eqn:Hit.
    + injection E as <-. unfold elems_of in Ex, Ey.
      destruct (ps_elems st x) as [la|], (ps_elems st y) as [lb|]; try discriminate.
      * destruct (includes la lb) eqn:I1; [injection Hit as <-; apply includes_iff in I1; rewrite Ey|
          destruct (includes lb la) eqn:I2; [injection Hit as <-; apply includes_iff in I2; rewrite Ex|discriminate]].
        -- split; [tauto|]. intros [|(u & U & M)]; [assumption|]. apply Ex. eauto.
        -- split; [tauto|]. intros [(u & U & M)|]; [|assumption]. apply Ey. eauto.
      * destruct (in_elems y la) eqn:I1; [injection Hit as <-; apply in_elems_iff in I1|discriminate].
        split; [tauto|]. intros [|M]; [assumption|]. apply Ex. eauto.
      * destruct (in_elems x lb) eqn:I1; [injection Hit as <-; apply in_elems_iff in I1|discriminate].
        split; [tauto|]. intros [M|]; [|assumption]. apply Ey. eauto.
    + assert (Nn : forall w, new_union st b x y <> (w, st)).
      { intros w E'. unfold new_union in E'. injection E' as _ E'. apply (f_equal ps_next) in E'. cbn in E'. lia. }
      destruct (ps_cached st x y) as [[d w]|] eqn:Ca; [|now apply Nn in E].
      destruct (dom d b) eqn:Dm; [|now apply Nn in E]. injection E as <-.
      destruct (k_cached _ _ _ K _ _ _ _ Ca) as (k & -> & I).
      assert (Dd : dominates F d b) by auto.
      destruct I as [I|I]; pose proof (proj2 Cu _ _ _ _ I Dd z); tauto.
  - exists [OUnion (ps_next st) x y]. split; [exact C|]. intros fr e e' Cu R.
    assert (U : exists l, e' = set_sv e (VUnion (ps_next st)) l /\ unites means l (e x) (e y)).
    { inversion R as [|r0 c0 ea eb R0|k0 a0 b0 c0 ea eb E0 R0|k0 a0 b0 c0 ea eb l0 N0 U0 R0]; subst.
      - inversion R0; subst. eexists. split; [reflexivity|]. intros z. rewrite E0. tauto.
      - inversion R0; subst. eexists. split; [reflexivity|assumption]. }
    destruct U as (l & -> & U).
    assert (Sm : forall w, below (ps_next st) w -> set_sv e (VUnion (ps_next st)) l w = e w).
    { intros w W. apply set_sv_other. intros ->. cbn in W. lia. }
    assert (Bx : forall w, avail st regs b w -> below (ps_next st) w) by (intros [|r|k]; cbn; tauto).
    split; [|split; [exact Sm|]].
    + split; [rewrite set_sv_other by discriminate; apply Cu|]. intros d k x' y' I Dm. rewrite C in I. apply in_app_iff in I.
      destruct I as [I|[I|[]]].
      * destruct (k_union _ _ _ K _ _ _ _ I) as (L & A1 & L1 & A2 & L2).
        rewrite !Sm; [apply (proj2 Cu _ _ _ _ I Dm)| | |exact L].
        -- destruct y'; cbn in *; auto; lia.
        -- destruct x'; cbn in *; auto; lia.
      * injection I as <- <- <- <-. rewrite set_sv_same, !Sm by (now apply Bx). exact U.
    + rewrite set_sv_same. exact U.
Qed.

(** The operands of an instruction. *)
Definition uses_ok (st : pstate) (regs : list N) (b : N) (us : list use) : Prop :=
  forall u, In u us -> get_shadow st u = VZero \/ avail st regs b (get_shadow st u).

Lemma combine_uses_ok : forall us regs blks st b acc v st', known regs blks st -> In b blks -> (exists p, path F (b :: p)) ->
  (acc = VZero \/ avail st regs b acc) -> uses_ok st regs b us ->
  combine_uses dom st b acc us = (v, st') ->
  known regs blks st' /\ ps_shadow st' = ps_shadow st /\ ps_next st <= ps_next st' /\
  (v = VZero \/ avail st' regs b v) /\
  exists c, emitted st st' b c /\ forall fr e e', current st b e -> run_body (unites means) fr c e e' ->
    current st' b e' /\ (forall w, below (ps_next st) w -> e' w = e w) /\
    (forall z, means (e' v) z <-> means (e acc) z \/ exists u, In u us /\ means (e (get_shadow st u)) z).
Proof.
  induction us as [|u us IH]; intros regs blks st b acc v st' K B P A U E; cbn in E.
  - injection E as <- <-. split; [exact K|]. split; [reflexivity|]. split; [lia|]. split; [exact A|].
    exists []. split; [unfold emitted; now rewrite app_nil_r|]. intros fr e e' Cu R. inversion R; subst.
    split; [exact Cu|]. split; [reflexivity|]. intros z. split; [auto|]. intros [|(u & [] & _)]; assumption.
  - destruct (combine dom st b acc (get_shadow st u)) as [v1 st1] eqn:C1.
    assert (Uu : get_shadow st u = VZero \/ avail st regs b (get_shadow st u)) by (apply U; now left).
    destruct (combine_known _ _ _ _ _ _ _ _ K B P A Uu C1) as (K1 & Sh1 & Nx1 & Av1 & _).
    destruct (combine_means _ _ _ _ _ _ _ _ K B P A Uu C1) as (c1 & Em1 & Run1).
    assert (G : forall w, get_shadow st1 w = get_shadow st w) by (intros w; unfold get_shadow; now rewrite Sh1).
    assert (U1 : uses_ok st1 regs b us).
    { intros w W. rewrite G. destruct (U w) as [|X]; [now right|now left|]. right.
      eapply avail_mono; eauto; [|apply incl_refl]. unfold emitted in Em1. rewrite Em1. apply incl_appl, incl_refl. }
    destruct (IH regs blks st1 b v1 v st' K1 B P Av1 U1 E) as (K2 & Sh2 & Nx2 & Av2 & c2 & Em2 & Run2).
    split; [exact K2|]. split; [congruence|]. split; [lia|]. split; [exact Av2|].
    exists (c1 ++ c2). split.
    { unfold emitted in *. rewrite Em2, Em1, map_app. now rewrite app_assoc. }
    intros fr e e' Cu R. destruct (run_body_app _ _ _ _ _ _ R) as (e1 & R1 & R2).
    destruct (Run1 fr e e1 Cu R1) as (Cu1 & Sm1 & M1). destruct (Run2 fr e1 e' Cu1 R2) as (Cu2 & Sm2 & M2).
    split; [exact Cu2|]. split.
    { intros w W. rewrite Sm2; [now apply Sm1|]. destruct w; cbn in *; auto; lia. }
    intros z. rewrite M2, (M1 z).
    assert (Eq : forall w, In w us -> e1 (get_shadow st1 w) = e (get_shadow st w)).
    { intros w W. rewrite G. apply Sm1. destruct (U w) as [->|X]; [now right|exact I|].
      destruct (get_shadow st w); cbn in *; auto. tauto. }
    split.
    + intros [[M|M]|(w & W & M)]; [now left|right; exists u; split; [now left|exact M]|].
      right. exists w. split; [now right|]. now rewrite <- Eq.
    + intros [M|(w & [<-|W] & M)]; [left; now left|left; now right|]. right. exists w. split; [exact W|]. now rewrite Eq.
Qed.

Lemma combine_operands_ok : forall us regs blks st b v st', known regs blks st -> In b blks -> (exists p, path F (b :: p)) ->
  uses_ok st regs b us -> combine_operands dom st b us = (v, st') ->
  known regs blks st' /\ ps_shadow st' = ps_shadow st /\ ps_next st <= ps_next st' /\
  (v = VZero \/ avail st' regs b v) /\
  exists c, emitted st st' b c /\ forall fr e e', current st b e -> run_body (unites means) fr c e e' ->
    current st' b e' /\ (forall w, below (ps_next st) w -> e' w = e w) /\
    (forall z, means (e' v) z <-> exists u, In u us /\ means (e (get_shadow st u)) z).
Proof.
  intros [|u us] regs blks st b v st' K B P U E; cbn in E.
  - injection E as <- <-. split; [exact K|]. split; [reflexivity|]. split; [lia|]. split; [now left|].
    exists []. split; [unfold emitted; now rewrite app_nil_r|]. intros fr e e' Cu R. inversion R; subst.
    split; [exact Cu|]. split; [reflexivity|]. intros z. rewrite (proj1 Cu). split; [intros M; now apply Z in M|intros (u & [] & _)].
  - destruct (combine_uses_ok us regs blks st b (get_shadow st u) v st' K B P) as (K' & Sh & Nx & Av & c & Em & Run); auto.
    { apply U. now left. }
    { intros w W. apply U. now right. }
    split; [exact K'|]. split; [exact Sh|]. split; [exact Nx|]. split; [exact Av|]. exists c. split; [exact Em|].
    intros fr e e' Cu R. destruct (Run fr e e' Cu R) as (Cu' & Sm & M). split; [exact Cu'|]. split; [exact Sm|].
    intros z. rewrite M. split.
    + intros [X|(w & W & X)]; [exists u|exists w]; (split; [cbn; auto|exact X]).
    + intros (w & [<-|W] & X); [now left|right; eauto].
Qed.

(** ** Instructions and blocks *)
(** The labels of shadows mean the bytes of registers defined in the dominators of [b]. *)
Definition right (st : pstate) (b : N) (e : lenv) (s : regs) : Prop :=
  forall r v d, ps_shadow st r = Some v -> defines F d r -> dominates F d b -> forall z, means (e v) z <-> s r z.

Lemma known_set : forall rs blks st b d v, known rs blks st -> ~ In d rs -> defines F b d -> In b blks ->
  (v = VZero \/ avail st (rs ++ [d]) b v) -> known (rs ++ [d]) blks (set_shadow st d v).
Proof.
  intros rs blks st b d v K Nd Df B A.
  assert (Mo : forall c w, avail st rs c w -> avail (set_shadow st d v) (rs ++ [d]) c w).
  { intros c w W. apply (avail_mono st _ rs _ _ _ W); [cbn; lia|apply incl_refl|apply incl_appl, incl_refl]. }
  assert (Mo2 : forall c w, avail st (rs ++ [d]) c w -> avail (set_shadow st d v) (rs ++ [d]) c w).
  { intros c w W. apply (avail_mono st _ (rs ++ [d]) _ _ _ W); [cbn; lia|apply incl_refl|apply incl_refl]. }
  constructor; cbn [set_shadow ps_code ps_next ps_shadow ps_elems ps_cached].
  - apply (k_code _ _ _ K).
  - intros c r I. destruct (k_fresh _ _ _ K _ _ I). split; [apply in_or_app; now left|assumption].
  - intros c k x y I. destruct (k_union _ _ _ K _ _ _ _ I) as (L & A1 & L1 & A2 & L2).
    split; [exact L|]. split; [now apply Mo|]. split; [exact L1|]. split; [now apply Mo|exact L2].
  - apply (k_once _ _ _ K).
  - intros r w E. destruct (N.eqb_spec r d) as [->|Ne].
    + injection E as <-. split; [apply in_or_app; right; now left|]. exists b. split; [exact Df|]. split; [exact B|]. destruct A; auto.
    + destruct (k_shadow _ _ _ K _ _ E) as (I & c & H & Hb & H2). split; [apply in_or_app; now left|].
      exists c. split; [exact H|]. split; [exact Hb|]. destruct H2; auto.
  - intros r I. destruct (N.eqb_spec r d) as [->|Ne]; [eauto|]. apply (k_regs _ _ _ K). apply in_app_iff in I.
    destruct I as [|[|[]]]; [assumption|congruence].
  - apply (k_elems _ _ _ K).
  - apply (k_cached _ _ _ K).
Qed.
Lemma known_fresh : forall rs blks st b d, known rs blks st -> In d rs -> defines F b d -> In b blks ->
  known rs blks (mkPstate (ps_next st) (ps_code st ++ [(b, OFresh d)]) (ps_shadow st) (ps_elems st) (ps_cached st)).
Proof.
  intros rs blks st b d K I Df B. set (st' := mkPstate _ _ _ _ _).
  assert (Mo : forall c w, avail st rs c w -> avail st' rs c w).
  { intros c w W. apply (avail_mono st _ rs _ _ _ W); [cbn; lia|apply incl_appl, incl_refl|apply incl_refl]. }
  assert (Un : forall c k x y, In (c, OUnion k x y) (ps_code st') -> In (c, OUnion k x y) (ps_code st)).
  { intros c k x y H. apply in_app_iff in H. destruct H as [|[H|[]]]; [assumption|discriminate]. }
  constructor.
  - intros c i H. apply in_app_iff in H. destruct H as [H|[H|[]]]; [apply (k_code _ _ _ K _ _ H)|]. now injection H as <- <-.
  - intros c r H. apply in_app_iff in H. destruct H as [H|[H|[]]]; [apply (k_fresh _ _ _ K _ _ H)|]. injection H as <- <-. auto.
  - intros c k x y H. apply Un in H. destruct (k_union _ _ _ K _ _ _ _ H) as (L & A1 & L1 & A2 & L2).
    split; [exact L|]. split; [now apply Mo|]. split; [exact L1|]. split; [now apply Mo|exact L2].
  - intros c k x y c' x' y' H H'. apply Un in H, H'. apply (k_once _ _ _ K _ _ _ _ _ _ _ H H').
  - intros r v E. destruct (k_shadow _ _ _ K _ _ E) as (H & c & H1 & H2 & H3). split; [exact H|]. exists c.
    split; [exact H1|]. split; [exact H2|]. destruct H3; auto.
  - apply (k_regs _ _ _ K).
  - intros [|r|k]; [apply (k_elems _ _ _ K VZero)|apply (k_elems _ _ _ K (VBase r))|].
    intros L. destruct (k_elems _ _ _ K (VUnion k) L) as (c & x & y & H & E). exists c, x, y. split; [apply in_or_app; now left|exact E].
  - intros x y c v E. destruct (k_cached _ _ _ K _ _ _ _ E) as (k & -> & [H|H]); exists k; (split; [reflexivity|]); [left|right]; apply in_or_app; now left.
Qed.

Lemma body_ok : forall is before rs blks st b,
  known rs blks st -> In b blks -> (exists p, path F (b :: p)) ->
  x_body (xblock_at F b) = before ++ is ->
  (forall r d, defines F d r -> d <> b -> dominates F d b -> In r rs) ->
  incl (map fst (x_phis (xblock_at F b)) ++ map inst_dst before) rs ->
  (forall r, defines F b r -> In r rs -> In r (map fst (x_phis (xblock_at F b)) ++ map inst_dst before)) ->
  let st' := fold_left (fun s i => visit_inst dom s b i) is st in
  known (rs ++ map inst_dst is) blks st' /\
  (forall r, In r rs -> ps_shadow st' r = ps_shadow st r) /\
  exists c, emitted st st' b c /\ forall fr e e' s, current st b e -> right st b e s ->
    run_body (unites means) fr c e e' -> current st' b e' /\ right st' b e' (spec_body means fr s is).
Proof.
  induction is as [|i is IH]; intros before rs blks st b K B P Eb Hd Hc Hn; cbn [fold_left].
  - split; [cbn; now rewrite app_nil_r|]. split; [reflexivity|]. exists []. split; [unfold emitted; cbn; now rewrite app_nil_r|].
    intros fr e e' s Cu Ri R. inversion R; subst. auto.
  - assert (Di : defines F b (inst_dst i)).
    { unfold defines, block_defs. rewrite Eb, map_app. apply in_or_app. right. apply in_or_app. right. now left. }
    assert (Ni : ~ In (inst_dst i) rs).
    { intros I. apply (Hn _ Di) in I. pose proof (ssa_nodup F SSA b) as ND. unfold block_defs in ND.
      rewrite Eb, map_app, app_assoc in ND. cbn [map] in ND. apply NoDup_remove_2 in ND. apply ND. apply in_or_app. now left. }
    assert (Step : forall st1, known (rs ++ [inst_dst i]) blks st1 ->
      (forall r, In r rs -> ps_shadow st1 r = ps_shadow st r) ->
      (exists c, emitted st st1 b c /\ forall fr e e' s, current st b e -> right st b e s ->
         run_body (unites means) fr c e e' -> current st1 b e' /\ right st1 b e' (spec_inst means fr s i)) ->
      visit_inst dom st b i = st1 ->
      let st' := fold_left (fun s i => visit_inst dom s b i) is (visit_inst dom st b i) in
      known (rs ++ map inst_dst (i :: is)) blks st' /\
      (forall r, In r rs -> ps_shadow st' r = ps_shadow st r) /\
      exists c, emitted st st' b c /\ forall fr e e' s, current st b e -> right st b e s ->
        run_body (unites means) fr c e e' -> current st' b e' /\ right st' b e' (spec_body means fr s (i :: is))).
    { intros st1 K1 Sh1 (c1 & Em1 & Run1) E1. rewrite E1.
      destruct (IH (before ++ [i]) (rs ++ [inst_dst i]) blks st1 b K1 B P) as (K2 & Sh2 & c2 & Em2 & Run2).
      { rewrite Eb, <- app_assoc. reflexivity. }
      { intros r d Df Ne Dm. apply in_or_app. left. eauto. }
      { rewrite map_app, app_assoc. apply incl_app; [now apply incl_appl|apply incl_appr, incl_refl]. }
      { intros r Df I. rewrite map_app, app_assoc. apply in_app_iff in I. apply in_or_app.
        destruct I as [I|I]; [left; now apply Hn|now right]. }
      cbn zeta. split; [cbn [map]; rewrite <- app_assoc in K2; exact K2|]. split.
      { intros r I. rewrite Sh2; [now apply Sh1|]. apply in_or_app. now left. }
      exists (c1 ++ c2). split.
      { unfold emitted in *. rewrite Em2, Em1, map_app. now rewrite app_assoc. }
      intros fr e e' s Cu Ri R. destruct (run_body_app _ _ _ _ _ _ R) as (e1 & R1 & R2).
      destruct (Run1 fr e e1 s Cu Ri R1) as [Cu1 Ri1]. apply (Run2 fr e1 e' _ Cu1 Ri1 R2). }
    destruct i as [d|d us]; cbn [inst_dst] in *.
    + (* a new shadow *)
      assert (Av : avail st (rs ++ [d]) b (VBase d)).
      { cbn. split; [apply in_or_app; right; now left|]. exists b. split; [exact Di|apply dom_refl]. }
      eapply Step; [| | |reflexivity].
      * cbn [visit_inst]. change (known (rs ++ [d]) blks
          (mkPstate (ps_next (set_shadow st d (VBase d))) (ps_code (set_shadow st d (VBase d)) ++ [(b, OFresh d)])
             (ps_shadow (set_shadow st d (VBase d))) (ps_elems (set_shadow st d (VBase d))) (ps_cached (set_shadow st d (VBase d))))).
        apply known_fresh; [|apply in_or_app; right; now left|exact Di|exact B].
        apply (known_set rs blks st b d); auto.
      * intros r I. cbn. destruct (N.eqb_spec r d) as [->|]; [contradiction|reflexivity].
      * exists [OFresh d]. split; [reflexivity|]. intros fr e e' s Cu Ri R.
        inversion R as [|r0 c0 ea eb R0| |]; subst. inversion R0; subst. clear R R0.
        assert (Sm : forall c w, avail st rs c w -> set_sv e (VBase d) (fr d) w = e w).
        { intros c w W. apply set_sv_other. intros ->. destruct W as [W _]. contradiction. }
        split.
        -- split; [rewrite set_sv_other by discriminate; apply Cu|]. intros c k x y I Dm. cbn [visit_inst set_shadow ps_code] in I. apply in_app_iff in I.
           destruct I as [I|[I|[]]]; [|discriminate].
           destruct (k_union _ _ _ K _ _ _ _ I) as (L & A1 & L1 & A2 & L2).
           rewrite (Sm c x A1), (Sm c y A2), set_sv_other by discriminate. apply (proj2 Cu _ _ _ _ I Dm).
        -- intros r v c E Df Dm z. cbn [visit_inst set_shadow ps_shadow] in E. cbn [spec_inst]. unfold set_reg. destruct (N.eqb_spec r d) as [->|Ne].
           ++ injection E as <-. now rewrite set_sv_same.
           ++ destruct (k_shadow _ _ _ K _ _ E) as (_ & c' & _ & _ & [->|A]).
              ** rewrite set_sv_other by discriminate. apply (Ri r VZero c E Df Dm).
              ** rewrite (Sm c' v A). apply (Ri r v c E Df Dm).
    + (* operands *)
      assert (Sh : forall r, In (UReg r) us -> In r rs /\ exists c, defines F c r /\ dominates F c b).
      { intros r I. destruct (ssa_uses F SSA b before (XJoin d us) is r P Eb I) as [H|(a & Na & Da & Df)].
        - split; [now apply Hc|]. exists b. split; [|apply dom_refl]. unfold defines, block_defs. rewrite Eb, map_app, app_assoc.
          apply in_or_app. now left.
        - split; [eapply Hd; eauto|eauto]. }
      assert (U : uses_ok st rs b us).
      { intros [|r] I; [now left|]. cbn. destruct (Sh r I) as (Ir & c & Df & Dm).
        destruct (k_regs _ _ _ K _ Ir) as (v & E). rewrite E.
        destruct (k_shadow _ _ _ K _ _ E) as (_ & c' & Df' & _ & [->|A]); [now left|right].
        rewrite (ssa_once F SSA _ _ _ Df' Df) in A. eapply avail_dom; eauto. }
      destruct (combine_operands dom st b us) as [v st1] eqn:Co.
      destruct (combine_operands_ok us rs blks st b v st1 K B P U Co) as (K1 & Sh1 & Nx1 & Av1 & c1 & Em1 & Run1).
      eapply Step; [| | |cbn [visit_inst]; rewrite Co; reflexivity].
      * apply (known_set rs blks st1 b d); auto. destruct Av1 as [|A]; [now left|right].
        apply (avail_mono st1 st1 rs _ _ _ A); [lia|apply incl_refl|apply incl_appl, incl_refl].
      * intros r I. cbn. destruct (N.eqb_spec r d) as [->|]; [contradiction|now rewrite Sh1].
      * exists c1. split; [exact Em1|]. intros fr e e' s Cu Ri R. destruct (Run1 fr e e' Cu R) as (Cu1 & Sm & M).
        assert (Sa : forall c w, avail st rs c w -> e' w = e w).
        { intros c w W. apply Sm. destruct w; cbn in *; auto. tauto. }
        split; [exact Cu1|]. intros r w c E Df Dm z. cbn [set_shadow ps_shadow] in E. cbn [spec_inst]. unfold set_reg. destruct (N.eqb_spec r d) as [->|Ne].
        -- injection E as <-. rewrite M. split; intros (u & Iu & X); exists u; (split; [exact Iu|]).
           ++ destruct u as [|q]; [cbn in *; rewrite (proj1 Cu) in X; now apply Z in X|]. cbn in *.
              destruct (Sh q Iu) as (Iq & c' & Df' & Dm'). destruct (k_regs _ _ _ K _ Iq) as (w & Ew). rewrite Ew in X.
              now apply (Ri q w c' Ew Df' Dm').
           ++ destruct u as [|q]; [destruct X|]. cbn in *.
              destruct (Sh q Iu) as (Iq & c' & Df' & Dm'). destruct (k_regs _ _ _ K _ Iq) as (w & Ew). rewrite Ew.
              now apply (Ri q w c' Ew Df' Dm').
        -- rewrite Sh1 in E. destruct (k_shadow _ _ _ K _ _ E) as (_ & c' & _ & _ & [->|A]).
           ++ rewrite (proj1 Cu1), <- (proj1 Cu). apply (Ri r VZero c E Df Dm).
           ++ rewrite (Sa c' w A). apply (Ri r w c E Df Dm).
Qed.

Lemma phis_known : forall (phis : list (N * list (N * use))) rs blks st b, known rs blks st -> In b blks ->
  (forall q, In q phis -> defines F b (fst q)) -> NoDup (map fst phis) -> (forall q, In q phis -> ~ In (fst q) rs) ->
  let st' := fold_left (fun s q => set_shadow s (fst q) (VBase (fst q))) phis st in
  known (rs ++ map fst phis) blks st' /\ ps_code st' = ps_code st /\
  (forall r, ~ In r (map fst phis) -> ps_shadow st' r = ps_shadow st r) /\
  (forall r, In r (map fst phis) -> ps_shadow st' r = Some (VBase r)).
Proof.
  induction phis as [|q phis IH]; intros rs blks st b K B Df ND Ni; cbn [fold_left map].
  - split; [cbn; now rewrite app_nil_r|]. split; [reflexivity|]. split; [reflexivity|intros r []].
  - inversion ND as [|? ? N1 N2]; subst.
    destruct (IH (rs ++ [fst q]) blks (set_shadow st (fst q) (VBase (fst q))) b) as (K' & C' & O' & S'); auto.
    { apply (known_set rs blks st b (fst q)); auto; [apply Ni; now left|apply Df; now left|]. right. cbn.
      split; [apply in_or_app; right; now left|]. exists b. split; [apply Df; now left|apply dom_refl]. }
    { intros x X. apply Df. now right. }
    { intros x X I. apply in_app_iff in I. destruct I as [I|[I|[]]]; [revert I; apply Ni; now right|].
      apply N1. rewrite I. now apply in_map. }
    cbn zeta. split; [rewrite <- app_assoc in K'; exact K'|]. split; [now rewrite C'|]. split.
    + intros r I. rewrite O'; [|intros X; apply I; now right]. cbn. destruct (N.eqb_spec r (fst q)) as [->|]; [|reflexivity].
      exfalso. apply I. now left.
    + intros r [<-|I]; [|now apply S']. rewrite O' by exact N1. cbn. now rewrite N.eqb_refl.
Qed.

(** ** The whole function *)
Definition regs_of (bs : list N) : list N := flat_map (fun b => block_defs (xblock_at F b)) bs.

Lemma regs_of_in : forall bs r, In r (regs_of bs) <-> exists b, In b bs /\ defines F b r.
Proof. intros bs r. unfold regs_of. rewrite in_flat_map. reflexivity. Qed.

Definition phi_state (st : pstate) (b : N) : pstate :=
  fold_left (fun s q => set_shadow s (fst q) (VBase (fst q))) (x_phis (xblock_at F b)) st.

Lemma block_ok : forall order pre b post st, visits F order -> order = pre ++ b :: post -> known (regs_of pre) pre st ->
  let st' := visit_xblock dom F st b in
  known (regs_of (pre ++ [b])) (pre ++ [b]) st' /\
  (forall r, In r (regs_of pre) -> ps_shadow st' r = ps_shadow st r) /\
  (forall r, In r (map fst (x_phis (xblock_at F b))) -> ps_shadow (phi_state st b) r = Some (VBase r)) /\
  (forall r, ~ In r (map fst (x_phis (xblock_at F b))) -> ps_shadow (phi_state st b) r = ps_shadow st r) /\
  ps_code (phi_state st b) = ps_code st /\
  exists c, emitted st st' b c /\ forall fr e e' s, current (phi_state st b) b e -> right (phi_state st b) b e s ->
    run_body (unites means) fr c e e' -> current st' b e' /\ right st' b e' (spec_body means fr s (x_body (xblock_at F b))).
Proof.
  intros order pre b post st V E K.
  assert (Nb : ~ In b pre).
  { destruct V as (ND & _). rewrite E in ND. apply NoDup_remove_2 in ND. intros I. apply ND. apply in_or_app. now left. }
  assert (Nr : forall r, defines F b r -> ~ In r (regs_of pre)).
  { intros r Df I. apply regs_of_in in I. destruct I as (d & Id & Dd). rewrite (ssa_once F SSA _ _ _ Dd Df) in Id. contradiction. }
  assert (Dp : forall q, In q (x_phis (xblock_at F b)) -> defines F b (fst q)).
  { intros q Q. unfold defines, block_defs. apply in_or_app. left. now apply in_map. }
  assert (NDb : NoDup (map fst (x_phis (xblock_at F b)))).
  { pose proof (ssa_nodup F SSA b) as ND. unfold block_defs in ND.
    clear -ND. induction (map fst (x_phis (xblock_at F b))) as [|x l IH]; [constructor|]. cbn in ND. inversion ND; subst.
    constructor; [|auto]. intros I. apply H1. apply in_or_app. now left. }
  assert (K0 : known (regs_of pre) (pre ++ [b]) st).
  { destruct K. constructor; auto.
    - intros c i I. apply in_or_app. left. eauto.
    - intros r v Ev. destruct (k_shadow0 r v Ev) as (I & d & H1 & H2 & H3). split; [exact I|]. exists d. split; [exact H1|].
      split; [apply in_or_app; now left|exact H3]. }
  destruct (phis_known (x_phis (xblock_at F b)) (regs_of pre) (pre ++ [b]) st b K0) as (K1 & C1 & O1 & S1); auto.
  { apply in_or_app. right. now left. }
  fold (phi_state st b) in K1, C1, O1, S1.
  destruct (visited_path F order V _ pre b post (le_n _) E) as (p & P & Ip).
  destruct (body_ok (x_body (xblock_at F b)) [] (regs_of pre ++ map fst (x_phis (xblock_at F b))) (pre ++ [b]) (phi_state st b) b K1)
    as (K2 & Sh2 & c & Em & Run).
  { apply in_or_app. right. now left. }
  { eauto. }
  { reflexivity. }
  { intros r d Df Ne Dm. apply in_or_app. left. apply regs_of_in. exists d. split; [|exact Df]. eapply dominators_first; eauto. }
  { cbn. rewrite app_nil_r. apply incl_appr, incl_refl. }
  { intros r Df I. cbn. rewrite app_nil_r. apply in_app_iff in I. destruct I as [I|I]; [now apply Nr in I|exact I]. }
  unfold visit_xblock. fold (phi_state st b). cbn zeta. split.
  { replace (regs_of (pre ++ [b])) with ((regs_of pre ++ map fst (x_phis (xblock_at F b))) ++ map inst_dst (x_body (xblock_at F b))); [exact K2|].
    unfold regs_of. rewrite flat_map_app. cbn. unfold block_defs. now rewrite app_nil_r, app_assoc. }
  split.
  { intros r I. rewrite Sh2 by (apply in_or_app; now left). apply O1. intros X.
    apply in_map_iff in X. destruct X as (q & <- & Q). apply Dp in Q. now apply Nr in Q. }
  split; [exact S1|]. split; [exact O1|]. split; [exact C1|].
  exists c. split; [|exact Run]. unfold emitted in *. now rewrite <- C1.
Qed.

Lemma order_ok : forall order, visits F order -> forall post pre st, order = pre ++ post -> known (regs_of pre) pre st ->
  let st' := fold_left (visit_xblock dom F) post st in
  known (regs_of order) order st' /\ (forall r, In r (regs_of pre) -> ps_shadow st' r = ps_shadow st r) /\
  exists c, ps_code st' = ps_code st ++ c /\ forall q, In q c -> In (fst q) post.
Proof.
  intros order V. induction post as [|b post IH]; intros pre st E K; cbn [fold_left].
  - rewrite app_nil_r in E. subst pre. split; [exact K|]. split; [reflexivity|]. exists []. split; [now rewrite app_nil_r|intros q []].
  - destruct (block_ok order pre b post st V E K) as (K1 & Sh1 & _ & _ & _ & c1 & Em1 & _).
    destruct (IH (pre ++ [b]) (visit_xblock dom F st b)) as (K2 & Sh2 & c2 & Em2 & In2); auto.
    { rewrite <- app_assoc. exact E. }
    cbn zeta. split; [exact K2|]. split.
    { intros r I. rewrite Sh2; [now apply Sh1|]. unfold regs_of. rewrite flat_map_app. apply in_or_app. now left. }
    exists (map (fun i => (b, i)) c1 ++ c2). split; [unfold emitted in Em1; rewrite Em2, Em1; now rewrite app_assoc|].
    intros q Q. apply in_app_iff in Q. destruct Q as [Q|Q]; [|right; now apply In2].
    apply in_map_iff in Q. destruct Q as (i & <- & _). now left.
Qed.

Lemma filter_none : forall A (b : N) (l : list (N * A)), (forall q, In q l -> fst q <> b) -> filter (fun q => fst q =? b) l = [].
Proof.
  induction l as [|q l IH]; intros H; [reflexivity|]. cbn.
  destruct (N.eqb_spec (fst q) b) as [X|_]; [exfalso; apply (H q); [now left|exact X]|]. apply IH. intros x X. apply H. now right.
Qed.
Lemma known_new : known [] [] ps_new.
Proof.
  constructor; cbn; try (intros; contradiction); try discriminate.
  intros [|r|k]; auto. cbn. lia.
Qed.

Lemma run_phis_other : forall o p e phis e0 w, (forall q, In q phis -> w <> VBase (fst q)) ->
  fold_left (fun e' ph => set_sv e' (VBase (fst ph)) (e (shadow_use o (incoming p (snd ph))))) phis e0 w = e0 w.
Proof.
  induction phis as [|q phis IH]; intros e0 w N; cbn; [reflexivity|]. rewrite IH by (intros x X; apply N; now right).
  apply set_sv_other. apply N. now left.
Qed.
Lemma run_phis_in : forall o p e phis e0 r ins, NoDup (map fst phis) -> In (r, ins) phis ->
  fold_left (fun e' ph => set_sv e' (VBase (fst ph)) (e (shadow_use o (incoming p (snd ph))))) phis e0 (VBase r) =
  e (shadow_use o (incoming p ins)).
Proof.
  induction phis as [|q phis IH]; intros e0 r ins ND I; [destruct I|]. cbn in ND |- *. inversion ND; subst. destruct I as [->|I].
  - rewrite run_phis_other.
    + cbn. apply set_sv_same.
    + intros q Q [= Eq]. apply H1. cbn. rewrite Eq. now apply in_map.
  - now apply IH.
Qed.
Lemma spec_phis_other : forall p s phis s0 r, ~ In r (map fst phis) ->
  fold_left (fun s' (ph : N * list (N * use)) => set_reg s' (fst ph) (use_bytes s (incoming p (snd ph)))) phis s0 r = s0 r.
Proof.
  induction phis as [|q phis IH]; intros s0 r N; cbn; [reflexivity|]. rewrite IH by (intros x; apply N; now right).
  unfold set_reg. destruct (N.eqb_spec r (fst q)) as [->|]; [|reflexivity]. exfalso. apply N. now left.
Qed.
Lemma spec_phis_in : forall p s phis s0 r ins, NoDup (map fst phis) -> In (r, ins) phis ->
  fold_left (fun s' (ph : N * list (N * use)) => set_reg s' (fst ph) (use_bytes s (incoming p (snd ph)))) phis s0 r =
  use_bytes s (incoming p ins).
Proof.
  induction phis as [|q phis IH]; intros s0 r ins ND I; [destruct I|]. cbn in ND |- *. inversion ND; subst. destruct I as [->|I].
  - rewrite spec_phis_other by exact H1. cbn. unfold set_reg. now rewrite N.eqb_refl.
  - now apply IH.
Qed.

Lemma spec_entry_inv : forall b fresh s, spec_run means F [(b, fresh)] s ->
  exists s0, s = spec_body means fresh s0 (x_body (xblock_at F 0)).
Proof. intros b fresh s H. inversion H; subst. eauto. Qed.
Lemma spec_next_inv : forall b fresh p fr t s, spec_run means F ((b, fresh) :: (p, fr) :: t) s ->
  exists s0, spec_run means F ((p, fr) :: t) s0 /\
    s = spec_body means fresh (spec_phis p (x_phis (xblock_at F b)) s0) (x_body (xblock_at F b)).
Proof. intros b fresh p fr t s H. inversion H; subst. eauto. Qed.

Section Run.
Variables (order : list N) (fin : pstate).
Hypothesis V : visits F order.
Hypothesis Fin : fin = fold_left (visit_xblock dom F) order ps_new.

Lemma fin_known : known (regs_of order) order fin.
Proof. rewrite Fin. apply (order_ok order V order [] ps_new eq_refl known_new). Qed.

(** A block executed after its predecessor left right labels, or as the first block. *)
Lemma block_run : forall b p, path F (b :: p) -> forall fr e e' s,
  e VZero = 0 ->
  (forall d k x y, In (d, OUnion k x y) (ps_code fin) -> dominates F d b -> d <> b -> unites means (e (VUnion k)) (e x) (e y)) ->
  (forall r v d, ps_shadow fin r = Some v -> defines F d r -> dominates F d b -> d <> b -> forall z, means (e v) z <-> s r z) ->
  (forall r, In r (map fst (x_phis (xblock_at F b))) -> forall z, means (e (VBase r)) z <-> s r z) ->
  run_body (unites means) fr (code_of (mkOut (ps_code fin) (ps_shadow fin)) b) e e' ->
  current fin b e' /\ right fin b e' (spec_body means fr s (x_body (xblock_at F b))).
Proof.
  intros b p P fr e e' s E0 Un Ri Ph R.
  destruct (in_split _ _ (visited_all F order V p b P)) as (pre & post & E).
  pose proof V as (ND & _). rewrite E in ND. pose proof (NoDup_remove_2 _ _ _ ND) as Nb. clear ND.
  destruct (order_ok order V order [] ps_new eq_refl known_new) as (Kf & _). rewrite <- Fin in Kf.
  assert (Ef : fin = fold_left (visit_xblock dom F) post (visit_xblock dom F (fold_left (visit_xblock dom F) pre ps_new) b)).
  { rewrite Fin, E, fold_left_app. reflexivity. }
  set (st := fold_left (visit_xblock dom F) pre ps_new) in *.
  assert (Kst : known (regs_of pre) pre st).
  { assert (G : forall q pr s0, order = pr ++ q ++ b :: post -> known (regs_of pr) pr s0 ->
      known (regs_of (pr ++ q)) (pr ++ q) (fold_left (visit_xblock dom F) q s0)).
    { induction q as [|c q IHq]; intros pr s0 Eq K; [rewrite app_nil_r; exact K|]. cbn [fold_left].
      destruct (block_ok order pr c (q ++ b :: post) s0 V Eq K) as (K1 & _).
      replace (pr ++ c :: q) with ((pr ++ [c]) ++ q) by (rewrite <- app_assoc; reflexivity).
      apply IHq; [rewrite <- app_assoc; exact Eq|exact K1]. }
    apply (G pre [] ps_new E known_new). }
  destruct (block_ok order pre b post st V E Kst) as (K1 & Sh1 & Phi1 & Phi2 & Cph & c & Em & Run).
  destruct (order_ok order V post (pre ++ [b]) (visit_xblock dom F st b)) as (_ & Sh2 & c2 & Em2 & In2); auto.
  { rewrite <- app_assoc. exact E. }
  rewrite <- Ef in Sh2, Em2.
  assert (Cb : code_of (mkOut (ps_code fin) (ps_shadow fin)) b = c).
  { unfold code_of. cbn [o_code]. rewrite Em2. unfold emitted in Em. rewrite Em, !filter_app, !map_app.
    assert (N1 : filter (fun q => fst q =? b) (ps_code st) = []).
    { assert (A : forall q, In q (ps_code st) -> fst q <> b).
      { intros [d i] I X. cbn in X. subst d. apply (k_code _ _ _ Kst) in I. apply Nb. apply in_or_app. now left. }
      now apply filter_none. }
    assert (N2 : filter (fun q => fst q =? b) c2 = []).
    { assert (A : forall q, In q c2 -> fst q <> b).
      { intros q I X. apply In2 in I. rewrite X in I. apply Nb. apply in_or_app. now right. }
      now apply filter_none. }
    rewrite N1, N2. cbn. rewrite app_nil_r. clear. induction c as [|i c IHc]; [reflexivity|]. cbn. rewrite N.eqb_refl. cbn. now rewrite IHc. }
  rewrite Cb in R.
  assert (Inc : forall d i, In (d, i) (ps_code st) -> In (d, i) (ps_code fin) /\ d <> b).
  { intros d i I. split.
    - rewrite Em2. unfold emitted in Em. rewrite Em. apply in_or_app. left. apply in_or_app. now left.
    - intros ->. apply (k_code _ _ _ Kst) in I. apply Nb. apply in_or_app. now left. }
  destruct (Run fr e e' s) as [Cu' Ri'].
  - split; [exact E0|]. intros d k x y I Dm. rewrite Cph in I. destruct (Inc _ _ I) as [I' Ne]. eapply Un; eauto.
  - intros r v d Ev Df Dm.
    destruct (in_dec N.eq_dec r (map fst (x_phis (xblock_at F b)))) as [Ir|Ir].
    + rewrite (Phi1 r Ir) in Ev. injection Ev as <-. now apply Ph.
    + rewrite (Phi2 r Ir) in Ev. destruct (k_shadow _ _ _ Kst _ _ Ev) as (Irr & d' & Df' & Hd' & _).
      pose proof (ssa_once F SSA _ _ _ Df Df') as Q. subst d'.
      apply (Ri r v d); auto.
      * rewrite Sh2; [|unfold regs_of; rewrite flat_map_app; apply in_or_app; now left]. now rewrite Sh1.
      * intros ->. apply Nb. apply in_or_app. now left.
  - exact R.
  - split.
    + split; [apply Cu'|]. intros d k x y I Dm. apply (proj2 Cu' d k x y); [|exact Dm].
      rewrite Em2 in I. apply in_app_iff in I. destruct I as [I|I]; [exact I|]. exfalso. apply In2 in I. cbn in I.
      apply Nb. apply in_or_app. destruct (N.eq_dec d b) as [->|Ne]; [now right|]. exfalso.
      pose proof (dominators_first F order V pre b post d E Dm Ne) as Ipre.
      pose proof V as (ND & _). rewrite E in ND. apply NoDup_remove_1 in ND.
      clear -ND Ipre I. induction pre as [|z pre IHp]; [destruct Ipre|]. cbn in ND. inversion ND; subst.
      destruct Ipre as [->|Ip]; [apply H1; apply in_or_app; now right|auto].
    + intros r v d Ev Df Dm. apply (Ri' r v d); auto. rewrite <- Sh2; [exact Ev|].
      apply regs_of_in. exists d. split; [|exact Df]. apply in_or_app.
      destruct (N.eq_dec d b) as [->|Ne]; [right; now left|left; eapply dominators_first; eauto].
Qed.

Lemma trace_path : forall t, t <> [] -> forall e, run_code (unites means) F (mkOut (ps_code fin) (ps_shadow fin)) t e -> path F (map fst t).
Proof.
  intros t _ e R. induction R; cbn; [constructor|]. cbn in IHR. apply path_next; assumption.
Qed.

Lemma run_right : forall t e, run_code (unites means) F (mkOut (ps_code fin) (ps_shadow fin)) t e ->
  forall s, spec_run means F t s -> forall b fr r, t = (b, fr) :: r -> current fin b e /\ right fin b e s.
Proof.
  intros t e R. induction R as [fresh e e' E0 R|p fr b fresh t e e' R IH Ed Rb]; intros s Sp b0 fr0 r0 Eq.
  - injection Eq as <- <- <-. destruct (spec_entry_inv _ _ _ Sp) as (s0 & ->). apply (block_run 0 [] (path_entry F) fresh e e' s0 E0); auto.
    + intros d k x y _ Dm Ne. destruct (Dm [] (path_entry F)) as [|[]]; congruence.
    + intros q v d _ _ Dm Ne. destruct (Dm [] (path_entry F)) as [|[]]; congruence.
    + rewrite (ssa_entry F SSA). intros q [].
  - injection Eq as <- <- <-. destruct (spec_next_inv _ _ _ _ _ _ Sp) as (s0 & Sp0 & ->).
    destruct (IH s0 Sp0 p fr t eq_refl) as [Cu Ri].
    assert (P : path F (p :: map fst t)) by (apply (trace_path ((p, fr) :: t)) in R; [exact R|discriminate]).
    assert (Pb : path F (b :: p :: map fst t)) by (now apply path_next).
    set (phis := x_phis (xblock_at F b)) in *.
    assert (NDb : NoDup (map fst phis)).
    { pose proof (ssa_nodup F SSA b) as ND. unfold block_defs in ND. fold phis in ND.
      clear -ND. induction (map fst phis) as [|x l IH]; [constructor|]. cbn in ND. inversion ND; subst.
      constructor; [|auto]. intros I. apply H1. apply in_or_app. now left. }
    assert (Dp : forall q, In q phis -> defines F b (fst q)).
    { intros q Q. unfold defines, block_defs. apply in_or_app. left. now apply in_map. }
    assert (Anti : forall d, dominates F d b -> dominates F b d -> d = b).
    { intros d H1 H2. apply (dom_antisym F _ d b (p :: map fst t) (le_n _) Pb H1 H2). }
    assert (Keep : forall d v, dominates F d b -> d <> b -> avail fin (regs_of order) d v -> forall q, In q phis -> v <> VBase (fst q)).
    { intros d v Dm Ne A q Q ->. destruct A as (_ & d' & Df & Dd). rewrite (ssa_once F SSA _ _ _ Df (Dp q Q)) in Dd.
      apply Ne. now apply Anti. }
    apply (block_run b (p :: map fst t) Pb fresh (run_phis (mkOut (ps_code fin) (ps_shadow fin)) p phis e) e'); auto.
    + unfold run_phis. rewrite run_phis_other by (intros; discriminate). apply Cu.
    + intros d k x y I Dm Ne. destruct (k_union _ _ _ fin_known _ _ _ _ I) as (L & A1 & _ & A2 & _).
      unfold run_phis. rewrite (run_phis_other _ _ _ _ _ (VUnion k)), (run_phis_other _ _ _ _ _ x), (run_phis_other _ _ _ _ _ y);
        [|eapply Keep; eauto|eapply Keep; eauto|intros; discriminate].
      apply (proj2 Cu d k x y I). eapply dom_pred; eauto.
    + intros r v d Ev Df Dm Ne z. destruct (k_shadow _ _ _ fin_known _ _ Ev) as (_ & d' & Df' & _ & A).
      rewrite (ssa_once F SSA _ _ _ Df' Df) in A.
      unfold run_phis, spec_phis. rewrite run_phis_other.
      2:{ destruct A as [->|A]; [intros; discriminate|]. eapply Keep; eauto. }
      rewrite spec_phis_other.
      2:{ intros I. apply in_map_iff in I. destruct I as (q & <- & Q). apply Ne. apply (ssa_once F SSA _ _ _ Df (Dp q Q)). }
      apply (Ri r v d Ev Df). eapply dom_pred; eauto.
    + intros r I z. apply in_map_iff in I. destruct I as ([q ins] & Eq & Q). cbn in Eq. subst q. fold phis in Q.
      unfold run_phis, spec_phis. rewrite (run_phis_in _ _ _ _ _ _ _ NDb Q), (spec_phis_in _ _ _ _ _ _ NDb Q).
      destruct (ssa_phis F SSA p b (map fst t) r ins P Ed Q) as (u & Eu & Hu). rewrite Eu.
      destruct u as [|q]; cbn.
      * rewrite (proj1 Cu). split; [intros M; now apply Z in M|contradiction].
      * destruct (Hu q eq_refl) as (d & Dm & Df).
        assert (Iq : In q (regs_of order)).
        { apply regs_of_in. exists d. split; [|exact Df]. pose proof (Dm _ P) as Id.
          destruct (in_split _ _ Id) as (l1 & l2 & El). rewrite El in P.
          apply (visited_all F order V l2). apply (path_cut F l1); [exact P|discriminate]. }
        destruct (k_regs _ _ _ fin_known _ Iq) as (v & Ev). rewrite Ev. apply (Ri q v d Ev Df Dm).
Qed.
End Run.
End Pass.

(** ** The search ends *)
Definition unseen (F : xfunc) (seen : list N) : list N :=
  filter (fun b => negb (existsb (N.eqb b) seen)) (map N.of_nat (seq 0 (length F))).
Definition left_over (F : xfunc) (seen : list N) (stack : list (list N)) : nat :=
  (list_sum (map (fun b => 2 + length (x_succ (xblock_at F b))) (unseen F seen)) +
   list_sum (map (fun l => 1 + length l) stack))%nat.

Lemma unseen_cons : forall F seen c, c < N.of_nat (length F) -> existsb (N.eqb c) seen = false ->
  (list_sum (map (fun b => 2 + length (x_succ (xblock_at F b))) (unseen F (c :: seen))) + 2 + length (x_succ (xblock_at F c)) <=
   list_sum (map (fun b => 2 + length (x_succ (xblock_at F b))) (unseen F seen)))%nat.
Proof.
  intros F seen c L X. unfold unseen.
  assert (I : In c (map N.of_nat (seq 0 (length F)))).
  { apply in_map_iff. exists (N.to_nat c). split; [lia|]. apply in_seq. lia. }
  revert I. generalize (map N.of_nat (seq 0 (length F))) as l.
  assert (W : forall l, (list_sum (map (fun b => 2 + length (x_succ (xblock_at F b))) (filter (fun b => negb (existsb (N.eqb b) (c :: seen))) l)) <=
                list_sum (map (fun b => 2 + length (x_succ (xblock_at F b))) (filter (fun b => negb (existsb (N.eqb b) seen)) l)))%nat).
  { induction l as [|b l IH]; cbn [filter existsb map list_sum fold_right]; [lia|].
    destruct (b =? c); cbn [orb negb]; destruct (existsb (N.eqb b) seen); cbn [negb map list_sum fold_right] in *; unfold list_sum in *; cbn [fold_right existsb] in *; lia. }
  induction l as [|b l IH]; intros I; [destruct I|]. destruct I as [->|I].
  - specialize (W l). unfold list_sum in *. cbn [filter existsb] in *. rewrite N.eqb_refl, X. cbn [orb negb map fold_right]. lia.
  - specialize (IH I). unfold list_sum in *. cbn [filter existsb] in *.
    destruct (b =? c); cbn [orb negb]; destruct (existsb (N.eqb b) seen); cbn [negb map fold_right] in *; lia.
Qed.

Lemma depth_first_ends : forall F, (forall b c, In c (x_succ (xblock_at F b)) -> c < N.of_nat (length F)) ->
  forall fuel seen stack, (left_over F seen stack < fuel)%nat ->
  (forall l c, In l stack -> In c l -> c < N.of_nat (length F)) ->
  exists out, depth_first fuel F seen stack = Ok out.
Proof.
  intros F W. induction fuel as [|f IH]; intros seen stack L St; [lia|]. cbn [depth_first].
  destruct stack as [|[|c cs] st]; [eauto| |].
  - apply IH; [unfold left_over, list_sum in *; cbn in L |- *; lia|]. intros l c I. apply St. now right.
  - destruct (existsb (N.eqb c) seen) eqn:X.
    + apply IH; [unfold left_over, list_sum in *; cbn in L |- *; lia|]. intros l d [<-|I] Id.
      * apply (St (c :: cs)); [now left|now right].
      * apply (St l); [now right|exact Id].
    + assert (Lc : c < N.of_nat (length F)) by (apply (St (c :: cs)); now left).
      apply IH.
      * pose proof (unseen_cons F seen c Lc X). unfold left_over, list_sum in *. cbn [map fold_right length] in *. lia.
      * intros l d [<-|[<-|I]] Id; [eapply W; eauto|apply (St (c :: cs)); [now left|now right]|apply (St l); [now right|exact Id]].
Qed.
