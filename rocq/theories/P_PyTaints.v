(** Proofs about the collections of tainted bytes of the Python API. *)
From Coq Require Import NArith ZArith List Bool Lia Permutation Sorted.
From Verif Require Import M_Base M_PyAnalysis M_PyTaints S_PyTaints P_Base P_Cavities.
Import ListNotations.
Open Scope N_scope.

(** ** Inputs and bytes *)
Lemma same_refl_in x : same_input x x.
Proof. split; reflexivity. Qed.
Lemma same_sym x y : same_input x y -> same_input y x.
Proof. intros [H1 H2]. now split. Qed.
Lemma same_trans x y z : same_input x y -> same_input y z -> same_input x z.
Proof. intros [H1 H2] [H3 H4]. split; congruence. Qed.
Lemma input_eqb_iff x y : input_eqb x y = true <-> same_input x y.
Proof. unfold input_eqb, same_input. rewrite andb_true_iff, Z.eqb_eq, path_eqb_iff. tauto. Qed.
Lemma byte_eqb_iff a b : byte_eqb a b = true <-> same_input (fst a) (fst b) /\ snd a = snd b.
Proof. unfold byte_eqb. rewrite andb_true_iff, input_eqb_iff, N.eqb_eq. tauto. Qed.

Lemma tainted_app l m x o : tainted (l ++ m) x o <-> tainted l x o \/ tainted m x o.
Proof.
  unfold tainted. split.
  - intros (y & I & H). apply in_app_or in I as [I|I]; [left|right]; eauto.
  - intros [(y & I & H)|(y & I & H)]; exists y; (split; [apply in_or_app; auto|exact H]).
Qed.
Lemma tainted_cons b l x o : tainted (b :: l) x o <-> (same_input x (fst b) /\ o = snd b) \/ tainted l x o.
Proof.
  change (b :: l) with ([b] ++ l). rewrite tainted_app. unfold tainted at 1. split.
  - intros [(y & [E|[]] & H)|H]; [left; subst b; auto|now right].
  - intros [[H ->]|H]; [left|now right]. exists (fst b). split; [left; now destruct b|exact H].
Qed.
Lemma tainted_perm l m x o : Permutation l m -> tainted l x o -> tainted m x o.
Proof. intros P (y & I & H). exists y. split; [now apply (Permutation_in _ P)|exact H]. Qed.
Lemma existsb_tainted b l : existsb (byte_eqb b) l = true <-> tainted l (fst b) (snd b).
Proof.
  rewrite existsb_exists. split.
  - intros ((y & o) & I & E). apply byte_eqb_iff in E as [E1 E2]. cbn [fst snd] in *. exists y. rewrite E2. auto.
  - intros (y & I & H). exists (y, snd b). split; [exact I|]. apply byte_eqb_iff. auto.
Qed.

(** No byte twice. *)
Definition once (l : list pbyte) : Prop := ForallOrdPairs (fun a b => ~ (same_input (fst a) (fst b) /\ snd a = snd b)) l.
Lemma fop_app {A} (R : A -> A -> Prop) l m : ForallOrdPairs R (l ++ m) <-> ForallOrdPairs R l /\ ForallOrdPairs R m /\ forall a b, In a l -> In b m -> R a b.
Proof.
  induction l as [|x l IH]; cbn [app].
  - split; [intros H; split; [constructor|split; [exact H|intros a b []]]|now intros (_ & H & _)].
  - split.
    + intros H. inversion H as [|y l' F G]; subst. apply IH in G as (G1 & G2 & G3). apply Forall_app in F as [F1 F2]. split; [now constructor|]. split; [exact G2|].
      intros a b [<-|I] J; [now apply (proj1 (Forall_forall _ _) F2)|auto].
    + intros (G1 & G2 & G3). inversion G1 as [|y l' F G]; subst. constructor.
      * apply Forall_app. split; [exact F|]. apply Forall_forall. intros b J. apply G3; [now left|exact J].
      * apply IH. split; [exact G|]. split; [exact G2|]. intros a b I J. apply G3; [now right|exact J].
Qed.
Lemma fop_impl {A} (R Q : A -> A -> Prop) l : (forall a b, In a l -> In b l -> R a b -> Q a b) -> ForallOrdPairs R l -> ForallOrdPairs Q l.
Proof.
  induction l as [|x l IH]; intros H F; [constructor|]. inversion F as [|y l' F1 F2]; subst. constructor.
  - rewrite Forall_forall in *. intros b I. apply H; [now left|now right|auto].
  - apply IH; [|exact F2]. intros a b I J. apply H; now right.
Qed.
Lemma fop_perm {A} (R : A -> A -> Prop) l m : (forall a b, R a b -> R b a) -> Permutation l m -> ForallOrdPairs R l -> ForallOrdPairs R m.
Proof.
  intros Sy P. induction P as [|x l m P IH|x y l|l m n P1 IH1 P2 IH2]; intros F; auto.
  - inversion F as [|z l' F1 F2]; subst. constructor; [|auto]. rewrite Forall_forall in *. intros b I. apply F1. now apply (Permutation_in _ (Permutation_sym P)).
  - inversion F as [|z l' F1 F2]; subst. inversion F2 as [|z l' F3 F4]; subst. inversion F1 as [|z l' F5 F6]; subst. constructor; [constructor; auto|constructor; auto].
Qed.
Lemma once_perm l m : Permutation l m -> once l -> once m.
Proof. apply fop_perm. intros a b H [H1 H2]. apply H. split; [now apply same_sym|congruence]. Qed.

Lemma set_add_spec s b : once s -> once (set_add s b) /\ forall x o, tainted (set_add s b) x o <-> tainted s x o \/ (same_input x (fst b) /\ o = snd b).
Proof.
  intros O. unfold set_add. destruct (existsb (byte_eqb b) s) eqn:E.
  - split; [exact O|]. intros x o. split; [tauto|]. intros [H|[H ->]]; [exact H|]. apply existsb_tainted in E as (y & I & K). exists y. split; [exact I|].
    now apply same_trans with (fst b).
  - split.
    + apply fop_app. split; [exact O|]. split; [repeat constructor|]. intros a c I [<-|[]] [H1 H2]. assert (T : existsb (byte_eqb b) s = true); [|congruence].
      apply existsb_tainted. exists (fst a). split; [rewrite <- H2; now destruct a|now apply same_sym].
    + intros x o. rewrite tainted_app, tainted_cons. split; [intros [H|[H|(y & [] & _)]]; auto|intros [H|H]; auto].
Qed.
Lemma set_of_spec l : once (set_of l) /\ forall x o, tainted (set_of l) x o <-> tainted l x o.
Proof.
  unfold set_of. assert (G : forall s, once s -> once (fold_left set_add l s) /\ forall x o, tainted (fold_left set_add l s) x o <-> tainted s x o \/ tainted l x o).
  { induction l as [|b l IH]; intros s O; cbn [fold_left].
    - split; [exact O|]. intros x o. split; [auto|intros [H|(y & [] & _)]; exact H].
    - destruct (set_add_spec s b O) as [O1 T1]. destruct (IH _ O1) as [O2 T2]. split; [exact O2|]. intros x o. rewrite T2, T1, tainted_cons. tauto. }
  destruct (G [] (FOP_nil _)) as [G1 G2]. split; [exact G1|]. intros x o. rewrite G2. split; [intros [(y & [] & _)|H]; exact H|auto].
Qed.

(** ** Sorting *)
Lemma insert_perm b l : Permutation (insert_byte b l) (b :: l).
Proof. induction l as [|c l IH]; cbn [insert_byte]; [reflexivity|]. destruct (byte_ltb b c); [reflexivity|]. rewrite IH. apply perm_swap. Qed.
Lemma sort_perm l : Permutation (sort_bytes l) l.
Proof.
  unfold sort_bytes. assert (G : forall acc, Permutation (fold_left (fun acc b => insert_byte b acc) l acc) (acc ++ l)).
  { induction l as [|b l IH]; intros acc; cbn [fold_left]; [now rewrite app_nil_r|]. rewrite IH, insert_perm. cbn [app]. apply Permutation_middle. }
  apply (G []).
Qed.
Definition byte_le (a b : pbyte) : Prop := (in_uid (fst a) < in_uid (fst b))%Z \/ (in_uid (fst a) = in_uid (fst b) /\ snd a <= snd b).
Lemma ltb_le a b : byte_ltb a b = true -> byte_le a b.
Proof. unfold byte_ltb, byte_le. rewrite orb_true_iff, andb_true_iff, Z.ltb_lt, Z.eqb_eq, N.ltb_lt. intros [H|[H1 H2]]; [now left|right; split; [exact H1|lia]]. Qed.
Lemma ltb_nle a b : byte_ltb a b = false -> byte_le b a.
Proof.
  unfold byte_ltb, byte_le. rewrite orb_false_iff, andb_false_iff, Z.ltb_ge, Z.eqb_neq, N.ltb_ge. intros [H [H1|H1]]; [left; lia|].
  destruct (Z.eq_dec (in_uid (fst a)) (in_uid (fst b))); [right; split; [congruence|exact H1]|left; lia].
Qed.
Lemma byte_le_trans a b c : byte_le a b -> byte_le b c -> byte_le a c.
Proof. unfold byte_le. intros [H|[H1 H2]] [K|[K1 K2]]; [left; lia|left; lia|left; lia|right; split; [congruence|lia]]. Qed.
Lemma insert_sorted b l : ForallOrdPairs byte_le l -> ForallOrdPairs byte_le (insert_byte b l).
Proof.
  induction l as [|c l IH]; intros F; cbn [insert_byte]; [repeat constructor|]. inversion F as [|x l' F1 F2]; subst. destruct (byte_ltb b c) eqn:E.
  - apply ltb_le in E. constructor; [|exact F]. constructor; [exact E|]. rewrite Forall_forall in *. intros d I. apply byte_le_trans with c; auto.
  - apply ltb_nle in E. constructor; [|auto]. rewrite Forall_forall in *. intros d I. apply (Permutation_in _ (insert_perm b l)) in I as [<-|I]; auto.
Qed.
Lemma sort_sorted l : ForallOrdPairs byte_le (sort_bytes l).
Proof.
  unfold sort_bytes. assert (G : forall acc, ForallOrdPairs byte_le acc -> ForallOrdPairs byte_le (fold_left (fun acc b => insert_byte b acc) l acc)).
  { induction l as [|b l IH]; intros acc F; cbn [fold_left]; [exact F|]. apply IH. now apply insert_sorted. }
  apply G. constructor.
Qed.

(** ** Groups *)
Definition of_source (x : py_input) (s : list pbyte) : Prop := Forall (fun b => same_input (fst b) x) s.
Definition rising (s : list pbyte) : Prop := ForallOrdPairs (fun a b => snd a < snd b) s.
Definition distinct (d : taints) : Prop := ForallOrdPairs (fun p q => ~ same_input (fst p) (fst q)) d.
Definition grouped (P : list pbyte -> Prop) (d : taints) : Prop := distinct d /\ Forall (fun p => snd p <> [] /\ of_source (fst p) (snd p) /\ P (snd p)) d.

Lemma group_add_cases d b : distinct d ->
  (exists d1 x s d2, d = d1 ++ (x, s) :: d2 /\ same_input x (fst b) /\ group_add d b = d1 ++ (x, set_add s b) :: d2) \/
  (Forall (fun p => ~ same_input (fst p) (fst b)) d /\ group_add d b = d ++ [(fst b, [b])]).
Proof.
  unfold group_add. induction d as [|[x s] d IH]; intros Di.
  - right. split; [constructor|]. cbn. unfold set_add. reflexivity.
  - inversion Di as [|p d' F Di']; subst. cbn [dict_get dict_set]. destruct (input_eqb x (fst b)) eqn:E.
    + left. exists [], x, s, d. apply input_eqb_iff in E. auto.
    + destruct (IH Di') as [(d1 & y & t & d2 & -> & Sm & Eq)|[Fo Eq]].
      * left. exists ((x, s) :: d1), y, t, d2. rewrite Eq. auto.
      * right. split; [|cbn [app]; now rewrite Eq]. constructor; [|exact Fo]. cbn [fst]. intros H. apply input_eqb_iff in H. congruence.
Qed.
Lemma group_add_spec d b l : grouped once d -> (forall x o, tainted (concat (map snd d)) x o <-> tainted l x o) ->
  grouped once (group_add d b) /\ forall x o, tainted (concat (map snd (group_add d b))) x o <-> tainted (l ++ [b]) x o.
Proof.
  intros [Di F] T. destruct (group_add_cases d b Di) as [(d1 & x & s & d2 & -> & Sm & ->)|[Fo ->]].
  - apply Forall_app in F as [F1 F2]. inversion F2 as [|p d' (N0 & So & O) F3]; subst. cbn [fst snd] in *.
    destruct (set_add_spec s b O) as [O2 T2]. split; [split|].
    + unfold distinct in *. apply fop_app in Di as (D1 & D2 & D3). inversion D2 as [|p d' D4 D5]; subst. apply fop_app. split; [exact D1|]. split.
      * constructor; [exact D4|exact D5].
      * intros p q I [<-|J]; [apply (D3 p (x, s) I); now left|apply D3; [exact I|now right]].
    + apply Forall_app. split; [exact F1|]. constructor; [|exact F3]. cbn [fst snd]. split; [|split; [|exact O2]].
      * unfold set_add. destruct (existsb _ s); [exact N0|]. now destruct s.
      * unfold set_add. destruct (existsb _ s); [exact So|]. apply Forall_app. split; [exact So|]. repeat constructor; apply same_sym in Sm; apply Sm.
    + intros y o. rewrite tainted_app, <- T, tainted_cons, !map_app, !concat_app. cbn [map concat snd]. rewrite !tainted_app, T2.
      split; [intros [H|[[H|H]|H]]; auto 6|intros [[H|[H|H]]|[H|(z & [] & _)]]; auto 6].
  - split; [split|].
    + apply fop_app. split; [exact Di|]. split; [repeat constructor|]. intros p q I [<-|[]]. cbn [fst]. now apply (proj1 (Forall_forall _ _) Fo).
    + apply Forall_app. split; [exact F|]. constructor; [|constructor]. cbn [fst snd]. split; [discriminate|]. split; [repeat constructor|repeat constructor].
    + intros y o. rewrite tainted_app, <- T, map_app, concat_app. cbn [map concat snd app]. rewrite tainted_app. tauto.
Qed.
Lemma groups_spec l : grouped once (fold_left group_add l []) /\ forall x o, tainted (concat (map snd (fold_left group_add l []))) x o <-> tainted l x o.
Proof.
  induction l as [|b l IH] using rev_ind; [split; [split; constructor|tauto]|]. rewrite fold_left_app. cbn [fold_left]. destruct IH as [I1 I2]. now apply group_add_spec.
Qed.
Lemma sort_rising x s : of_source x s -> once s -> rising (sort_bytes s).
Proof.
  intros So O. assert (So' : of_source x (sort_bytes s)).
  { unfold of_source in *. rewrite Forall_forall in *. intros b I. apply So. now apply (Permutation_in _ (sort_perm s)). }
  assert (O' := once_perm _ _ (Permutation_sym (sort_perm s)) O). assert (Ss := sort_sorted s).
  induction (sort_bytes s) as [|b r IH]; [constructor|]. inversion So' as [|b' r' S1 S2]; subst. inversion O' as [|b' r' O1 O2]; subst. inversion Ss as [|b' r' Q1 Q2]; subst.
  constructor; [|now apply IH]. rewrite Forall_forall in *. intros c I. specialize (O1 c I). specialize (Q1 c I). specialize (S2 c I).
  assert (Sm : same_input (fst b) (fst c)) by (apply same_trans with x; [exact S1|now apply same_sym]). destruct Q1 as [Q1|[Q1 Q3]].
  - destruct Sm as [Sm _]. lia.
  - assert (snd b <> snd c) by tauto. lia.
Qed.
Lemma taints_spec l : grouped rising (taints_new l) /\ forall x o, tainted (taints_iter (taints_new l)) x o <-> tainted l x o.
Proof.
  unfold taints_new, taints_iter. destruct (groups_spec l) as [[Di F] T]. split; [split|].
  - unfold distinct in *. clear - Di. induction (fold_left group_add l []) as [|p d IH]; [constructor|]. inversion Di as [|p' d' D1 D2]; subst. cbn [map]. constructor; [|auto].
    rewrite Forall_forall in *. intros q I. apply in_map_iff in I as (q' & <- & I). cbn [fst]. auto.
  - rewrite Forall_forall in *. intros q I. apply in_map_iff in I as (p & <- & I). destruct (F p I) as (N0 & So & O). cbn [fst snd].
    assert (P := sort_perm (snd p)). split; [|split; [|exact (sort_rising _ _ So O)]].
    + intros E. rewrite E in P. apply Permutation_nil in P. now apply N0.
    + unfold of_source in *. rewrite Forall_forall in *. intros b J. apply So. now apply (Permutation_in _ P).
  - intros x o. rewrite <- T, map_map. cbn [snd].
    assert (P : Permutation (concat (map (fun p => sort_bytes (snd p)) (fold_left group_add l []))) (concat (map snd (fold_left group_add l [])))).
    { clear. induction (fold_left group_add l []) as [|p d IH]; [reflexivity|]. cbn [map concat]. apply Permutation_app; [apply sort_perm|exact IH]. }
    split; apply tainted_perm; [exact P|now apply Permutation_sym].
Qed.

Lemma grouped_iter d : grouped rising d -> ForallOrdPairs (fun a b => same_input (fst a) (fst b) -> snd a < snd b) (taints_iter d).
Proof.
  unfold taints_iter. intros [Di F]. induction d as [|p d IH]; [constructor|]. inversion Di as [|p' d' D1 D2]; subst. inversion F as [|p' d' (N0 & So & Ri) F2]; subst.
  cbn [map concat]. apply fop_app. split; [|split; [auto|]].
  - apply fop_impl with (2 := Ri). auto.
  - intros a b I J Sm. exfalso. apply in_concat in J as (s & J & K). apply in_map_iff in J as (q & <- & J). rewrite Forall_forall in *.
    destruct (F2 q J) as (_ & So2 & _). unfold of_source in *. rewrite Forall_forall in *. apply (D1 q J). apply same_trans with (fst a); [apply same_sym; auto|].
    apply same_trans with (fst b); auto.
Qed.
Lemma taints_len_iter t : taints_len t = len (taints_iter t).
Proof. unfold taints_len, taints_iter. induction t as [|p t IH]; [reflexivity|]. cbn [map concat fold_right]. rewrite len_app, IH. reflexivity. Qed.
Lemma dict_find d x : distinct d -> match dict_get input_eqb d x with
    | Some s => exists y, In (y, s) d /\ same_input y x
    | None => Forall (fun p => ~ same_input (fst p) x) d
    end.
Proof.
  induction d as [|[y s] d IH]; intros Di; cbn [dict_get]; [constructor|]. inversion Di as [|p d' F Di']; subst. destruct (input_eqb y x) eqn:E.
  - apply input_eqb_iff in E. exists y. split; [now left|exact E].
  - specialize (IH Di'). destruct (dict_get input_eqb d x).
    + destruct IH as (z & I & Sm). exists z. split; [now right|exact Sm].
    + constructor; [|exact IH]. cbn [fst]. intros H. apply input_eqb_iff in H. congruence.
Qed.
Lemma taints_from_spec l x : forall y o, tainted (taints_iter (taints_from (taints_new l) x)) y o <-> tainted l y o /\ same_input y x.
Proof.
  intros y o. unfold taints_from. destruct (taints_spec l) as [[Di F] T]. rewrite (proj2 (taints_spec _)). rewrite <- T. unfold taints_iter.
  assert (D := dict_find _ x Di). rewrite Forall_forall in F. destruct (dict_get input_eqb (taints_new l) x) as [s|].
  - destruct D as (z & I & Sm). destruct (F _ I) as (_ & So & _). cbn [fst snd] in So. unfold of_source in So. rewrite Forall_forall in So. split.
    + intros (w & J & K). split.
      * exists w. split; [|exact K]. apply in_concat. exists s. split; [|exact J]. apply in_map_iff. exists (z, s). auto.
      * apply same_trans with w; [exact K|]. apply same_trans with z; [exact (So _ J)|exact Sm].
    + intros [(w & J & K) Sx]. exists w. split; [|exact K]. apply in_concat in J as (s' & J & J2). apply in_map_iff in J as ((z' & s2) & <- & J). cbn [snd] in J2.
      destruct (F _ J) as (_ & So2 & _). cbn [fst snd] in So2. unfold of_source in So2. rewrite Forall_forall in So2.
      assert (Sz : same_input z' z). { apply same_trans with w; [apply same_sym; exact (So2 _ J2)|]. apply same_trans with y; [now apply same_sym|]. apply same_trans with x; [exact Sx|now apply same_sym]. }
      assert (Eq : (z', s2) = (z, s)); [|assert (s2 = s) as <- by congruence; exact J2].
      clear - Di I J Sz. unfold distinct in Di. induction (taints_new l) as [|p d IH]; [destruct I|]. inversion Di as [|p' d' D1 D2]; subst. rewrite Forall_forall in D1.
      destruct I as [->|I], J as [E|J]; auto.
      * exfalso. apply (D1 _ J). cbn [fst]. now apply same_sym.
      * exfalso. subst p. apply (D1 _ I). exact Sz.
  - split; [intros (w & [] & _)|]. intros [(w & J & K) Sx]. exfalso. apply in_concat in J as (s' & J & J2). apply in_map_iff in J as ((z' & s2) & <- & J). cbn [snd] in J2.
    destruct (F _ J) as (_ & So2 & _). cbn [fst snd] in So2. unfold of_source in So2. rewrite Forall_forall in So2. rewrite Forall_forall in D. apply (D _ J). cbn [fst].
    apply same_trans with w; [apply same_sym; exact (So2 _ J2)|]. apply same_trans with y; [now apply same_sym|exact Sx].
Qed.

(** ** Differences *)
Lemma minus_spec a b x o : tainted (set_minus a b) x o <-> tainted a x o /\ ~ tainted b x o.
Proof.
  unfold set_minus. split.
  - intros (y & I & H). apply filter_In in I as [I E]. split; [exists y; auto|]. intros (z & J & K). apply negb_true_iff in E.
    assert (T : existsb (byte_eqb (y, o)) b = true); [|congruence]. apply existsb_tainted. exists z. split; [exact J|]. cbn [fst]. apply same_trans with x; [now apply same_sym|exact K].
  - intros [(y & I & H) N0]. exists y. split; [|exact H]. apply filter_In. split; [exact I|]. apply negb_true_iff. destruct (existsb (byte_eqb (y, o)) b) eqn:E; [|reflexivity].
    exfalso. apply N0. apply existsb_tainted in E as (z & J & K). exists z. split; [exact J|]. now apply same_trans with y.
Qed.
Lemma once_filter f l : once l -> once (filter f l).
Proof.
  unfold once. induction l as [|a l IH]; intros O; [constructor|]. inversion O as [|a' l' O1 O2]; subst. cbn [filter]. destruct (f a); [|auto]. constructor; [|auto].
  rewrite Forall_forall in *. intros b I. apply filter_In in I as [I _]. auto.
Qed.
Lemma sorted_diff t1 t2 : let d := sort_bytes (set_minus (set_of (taints_iter t1)) (set_of (taints_iter t2))) in
  once d /\ ForallOrdPairs byte_le d /\ forall x o, tainted d x o <-> tainted (taints_iter t1) x o /\ ~ tainted (taints_iter t2) x o.
Proof.
  cbv zeta. destruct (set_of_spec (taints_iter t1)) as [O1 T1]. destruct (set_of_spec (taints_iter t2)) as [O2 T2]. split; [|split; [apply sort_sorted|]].
  - apply once_perm with (set_minus (set_of (taints_iter t1)) (set_of (taints_iter t2))); [apply Permutation_sym, sort_perm|]. now apply once_filter.
  - intros x o. rewrite <- T1, <- T2, <- minus_spec. split; apply tainted_perm; [apply sort_perm|apply Permutation_sym, sort_perm].
Qed.

(** ** Regions *)
(** The runs of a list of offsets of one source. *)
Lemma loop_other x l : forall lo reg, Forall (fun b => ~ same_input x (fst b)) l ->
  regions_loop (Some x) lo (Some reg) l = reg :: map (fun b => mkRegion (fst b) (snd b) 1) l.
Proof.
  induction l as [|[y o] l IH]; intros lo reg F; [reflexivity|]. inversion F as [|b l' F1 F2]; subst. cbn [fst] in F1. cbn [regions_loop].
  assert (E : input_eqb x y = false) by (destruct (input_eqb x y) eqn:E; [apply input_eqb_iff in E; tauto|reflexivity]).
  rewrite E. cbn [negb orb app]. rewrite (IH (Some o) _ F2). reflexivity.
Qed.
(** [runs x rs l]: the regions [rs] are the maximal runs of the offsets in [l]. *)
Definition exact_runs (x : py_input) (rs : list region) (has : N -> Prop) : Prop :=
  ForallOrdPairs apart rs /\ Forall (fun r => same_input x (rg_source r) /\ 0 < rg_length r) rs /\
  forall o, has o <-> exists r, In r rs /\ rg_offset r <= o < rg_offset r + rg_length r.

Lemma loop_runs x l2 l : forall reg, same_input x (rg_source reg) -> 0 < rg_length reg ->
  of_source x l -> rising l -> Forall (fun b => rg_offset reg + rg_length reg - 1 < snd b) l -> Forall (fun b => ~ same_input x (fst b)) l2 ->
  exists rs, regions_loop (Some x) (Some (rg_offset reg + rg_length reg - 1)) (Some reg) (l ++ l2) = rs ++ map (fun b => mkRegion (fst b) (snd b) 1) l2 /\
    exact_runs x rs (fun o => rg_offset reg <= o < rg_offset reg + rg_length reg \/ In o (map snd l)) /\ Forall (fun r => rg_offset reg <= rg_offset r) rs.
Proof.
  induction l as [|[y o] l IH]; intros reg Sm Lp So Ri Ab Ot.
  - cbn [app]. exists [reg]. split; [now apply loop_other|]. split; [|repeat constructor; lia]. split; [repeat constructor|]. split; [repeat constructor; try exact Lp; apply Sm|].
    intros o. split; [intros [H|[]]; exists reg; split; [now left|exact H]|intros (r & [<-|[]] & H); now left].
  - inversion So as [|b l' S1 S2]; subst. inversion Ri as [|b l' R1 R2]; subst. inversion Ab as [|b l' A1 A2]; subst. cbn [fst snd] in *. cbn [app regions_loop].
    assert (E : input_eqb x y = true) by (apply input_eqb_iff; now apply same_sym). rewrite E. cbn [negb orb].
    destruct (Z.eqb_spec (Z.of_N (rg_offset reg + rg_length reg - 1)) (Z.of_N o - 1)) as [Q|Q]; cbn [negb app].
    + set (reg' := mkRegion (rg_source reg) (rg_offset reg) (rg_length reg + 1)).
      assert (Eo : o = rg_offset reg' + rg_length reg' - 1) by (unfold reg'; cbn [rg_offset rg_length]; lia).
      destruct (IH reg') as (rs & E1 & (P1 & P2 & P3) & P4); auto.
      { unfold reg'. cbn. lia. }
      { rewrite <- Eo. rewrite Forall_forall in R1 |- *. intros b I. specialize (R1 b I). cbn [snd] in R1. exact R1. }
      rewrite <- Eo in E1. exists rs. split; [exact E1|]. split; [|exact P4]. split; [exact P1|]. split; [exact P2|]. intros k. rewrite <- P3. cbn [map In snd]. unfold reg'. cbn [rg_offset rg_length].
      unfold reg' in Eo. cbn [rg_offset rg_length] in Eo. split; [intros [H|[H|H]]; [left; lia|left; lia|now right]|intros [H|H]; [destruct (N.eq_dec k o) as [->|]; [right; now left|left; lia]|right; now right]].
    + set (reg' := mkRegion y o 1).
      assert (Eo : o = rg_offset reg' + rg_length reg' - 1) by (unfold reg'; cbn [rg_offset rg_length]; lia).
      destruct (IH reg') as (rs & E1 & (P1 & P2 & P3) & P4); auto.
      { unfold reg'. cbn [rg_source]. now apply same_sym. }
      { unfold reg'. cbn. lia. }
      { rewrite <- Eo. rewrite Forall_forall in R1 |- *. intros b I. specialize (R1 b I). cbn [snd] in R1. exact R1. }
      rewrite <- Eo in E1. exists (reg :: rs). split; [cbn [app]; f_equal; exact E1|]. split; [|constructor; [lia|]].
      * split; [|split].
        -- constructor; [|exact P1]. rewrite Forall_forall in *. intros r I. specialize (P4 r I). unfold apart. unfold reg' in P4. cbn [rg_offset] in P4. lia.
        -- constructor; [split; assumption|exact P2].
        -- intros k. cbn [map In snd]. unfold reg' in P3. cbn [rg_offset rg_length] in P3. split.
           ++ intros [H|[H|H]]; [exists reg; auto| |].
              ** destruct (proj1 (P3 k)) as (r & I & B); [left; lia|]. exists r. auto.
              ** destruct (proj1 (P3 k)) as (r & I & B); [now right|]. exists r. auto.
           ++ intros (r & [<-|I] & B); [now left|]. destruct (proj2 (P3 k)) as [H|H]; [exists r; auto|right; left; lia|right; now right].
      * rewrite Forall_forall in *. intros r I. specialize (P4 r I). unfold reg' in P4. cbn [rg_offset] in P4. lia.
Qed.

Lemma to_regions_spec x s rest : of_source x s -> s <> [] -> rising s -> Forall (fun b => ~ same_input x (fst b)) rest ->
  exists rs, to_regions (s ++ rest) true = rs ++ map (fun b => mkRegion (fst b) (snd b) 1) rest /\ exact_runs x rs (fun o => In o (map snd s)).
Proof.
  intros So N0 Ri Ot. destruct s as [|[y o] s]; [congruence|]. inversion So as [|b l' S1 S2]; subst. inversion Ri as [|b l' R1 R2]; subst. cbn [fst snd] in *.
  unfold to_regions. cbn [app regions_loop]. set (reg := mkRegion y o 1).
  assert (Eo : o = rg_offset reg + rg_length reg - 1) by (unfold reg; cbn [rg_offset rg_length]; lia).
  assert (So' : of_source y s).
  { unfold of_source in *. rewrite Forall_forall in *. intros b I. apply same_trans with x; [auto|now apply same_sym]. }
  assert (Ot' : Forall (fun b => ~ same_input y (fst b)) rest).
  { rewrite Forall_forall in *. intros b I H. apply (Ot b I). apply same_trans with y; [now apply same_sym|exact H]. }
  destruct (loop_runs y rest s reg (same_refl_in y)) as (rs & E1 & (P1 & P2 & P3) & P4); auto.
  { unfold reg. cbn. lia. }
  { rewrite <- Eo. rewrite Forall_forall in *. intros b I. specialize (R1 b I). cbn [snd] in R1. exact R1. }
  rewrite <- Eo in E1. exists rs. split; [exact E1|]. split; [exact P1|]. split.
  - rewrite Forall_forall in *. intros r I. destruct (P2 r I) as [Q1 Q2]. split; [|exact Q2]. apply same_trans with y; [now apply same_sym|exact Q1].
  - intros k. rewrite <- P3. cbn [map In snd]. unfold reg. cbn [rg_offset rg_length]. split; [intros [H|H]; [left; lia|now right]|intros [H|H]; [left; lia|now right]].
Qed.

(** A sorted list of bytes of sources with different uids comes in groups. *)
Lemma sorted_groups b l : ForallOrdPairs byte_le (b :: l) -> once (b :: l) -> uids_differ (b :: l) ->
  exists s rest, b :: l = s ++ rest /\ of_source (fst b) s /\ s <> [] /\ rising s /\ Forall (fun c => ~ same_input (fst b) (fst c)) rest.
Proof.
  intros Ss O U. set (f := fun c : pbyte => (in_uid (fst c) =? in_uid (fst b))%Z).
  assert (Sp : forall m, ForallOrdPairs byte_le m -> Forall (byte_le b) m -> m = filter f m ++ filter (fun c => negb (f c)) m).
  { induction m as [|c m IH]; intros F G; [reflexivity|]. inversion F as [|c' m' F1 F2]; subst. inversion G as [|c' m' G1 G2]; subst. cbn [filter].
    destruct (f c) eqn:E; cbn [negb app]; [now rewrite <- IH|]. assert (Em : filter f m = []); [|rewrite Em in *; cbn [app] in *; f_equal; now apply IH].
    assert (Nf : forall d, In d m -> f d = false).
    { intros d I. rewrite Forall_forall in F1. specialize (F1 d I). unfold f, byte_le in *. apply Z.eqb_neq in E. apply Z.eqb_neq. destruct F1 as [F1|[F1 _]], G1 as [G1|[G1 _]]; lia. }
    clear - Nf. induction m as [|d m IH]; [reflexivity|]. cbn [filter]. rewrite (Nf d); [|now left]. apply IH. intros e I. apply Nf. now right. }
  inversion Ss as [|b' l' S1 S2]; subst.
  exists (b :: filter f l), (filter (fun c => negb (f c)) l).
  assert (So : of_source (fst b) (b :: filter f l)).
  { constructor; [apply same_refl_in|]. apply Forall_forall. intros c I. apply filter_In in I as [I E]. unfold f in E. apply Z.eqb_eq in E. split; [exact E|].
    apply U; [now right|now left|exact E]. }
  split; [cbn [app]; f_equal; now apply Sp|]. split; [exact So|]. split; [discriminate|]. split.
  - assert (O2 : once (b :: filter f l)).
    { inversion O as [|b' l' O1 O2]; subst. constructor; [|now apply once_filter]. rewrite Forall_forall in *. intros c I. apply filter_In in I as [I _]. auto. }
    assert (S3 : ForallOrdPairs byte_le (b :: filter f l)).
    { constructor.
      - rewrite Forall_forall in *. intros c I. apply filter_In in I as [I _]. auto.
      - clear - S2. induction l as [|c l IH]; [constructor|]. inversion S2 as [|c' l' F1 F2]; subst. cbn [filter]. destruct (f c); [|auto]. constructor; [|auto].
        rewrite Forall_forall in *. intros d I. apply filter_In in I as [I _]. auto. }
    clear - O2 S3 So. revert So. generalize (fst b) as x. intros x So. induction (b :: filter f l) as [|c m IH]; [constructor|].
    inversion O2 as [|c' m' P1 P2]; subst. inversion S3 as [|c' m' Q1 Q2]; subst. inversion So as [|c' m' R1 R2]; subst. constructor; [|now apply IH].
    rewrite Forall_forall in *. intros d I. specialize (P1 d I). specialize (Q1 d I). specialize (R2 d I).
    assert (Sm : same_input (fst c) (fst d)) by (apply same_trans with x; [exact R1|now apply same_sym]). destruct Q1 as [Q1|[Q1 Q3]]; [destruct Sm; lia|].
    assert (snd c <> snd d) by tauto. lia.
  - apply Forall_forall. intros c I. apply filter_In in I as [I E]. unfold f in E. apply negb_true_iff, Z.eqb_neq in E. intros [H _]. congruence.
Qed.

Lemma in_snd s x o : of_source x s -> In o (map snd s) <-> tainted s x o.
Proof.
  intros So. unfold of_source in So. rewrite Forall_forall in So. split.
  - intros I. apply in_map_iff in I as ((y & o') & <- & I). exists y. split; [exact I|]. apply same_sym. exact (So _ I).
  - intros (y & I & _). apply in_map_iff. exists (y, o). auto.
Qed.
(** Regions of bytes that come in groups: exact, disjoint, not empty. *)
Lemma regions_of_groups x s rest : of_source x s -> s <> [] -> rising s -> Forall (fun b => ~ same_input x (fst b)) rest -> once rest ->
  let rs := to_regions (s ++ rest) true in
  (forall y o, covered rs y o <-> tainted (s ++ rest) y o) /\ ForallOrdPairs disjoint rs /\ Forall (fun r => 0 < rg_length r) rs.
Proof.
  intros So N0 Ri Ot O. cbv zeta. destruct (to_regions_spec x s rest So N0 Ri Ot) as (rs & -> & (P1 & P2 & P3)). rewrite Forall_forall in P2, Ot. split; [|split].
  - intros y o. rewrite tainted_app. split.
    + intros (r & I & Sm & B). apply in_app_or in I as [I|I].
      * left. destruct (P2 r I) as [Q1 Q2]. assert (T : tainted s x o) by (apply in_snd; [exact So|]; apply P3; exists r; auto).
        destruct T as (z & J & K). exists z. split; [exact J|]. apply same_trans with (rg_source r); [exact Sm|]. apply same_trans with x; [now apply same_sym|exact K].
      * right. apply in_map_iff in I as ((z & k) & <- & I). cbn [rg_source rg_offset rg_length fst snd] in *. assert (o = k) as -> by lia. exists z. auto.
    + intros [(z & I & K)|(z & I & K)].
      * assert (So' := So). unfold of_source in So'. rewrite Forall_forall in So'. assert (Sz := So' _ I). cbn [fst] in Sz.
        destruct (proj1 (P3 o)) as (r & J & B); [apply in_map_iff; exists (z, o); auto|]. exists r. split; [apply in_or_app; now left|]. split; [|exact B].
        destruct (P2 r J) as [Q1 Q2]. apply same_trans with z; [exact K|]. apply same_trans with x; [exact Sz|exact Q1].
      * exists (mkRegion z o 1). split; [apply in_or_app; right; apply in_map_iff; exists (z, o); auto|]. split; [exact K|]. cbn [rg_offset rg_length]. lia.
  - apply fop_app. split; [|split].
    + apply fop_impl with (2 := P1). unfold apart, disjoint, within. intros r1 r2 _ _ H y o [[_ B1] [_ B2]]. lia.
    + clear - O. induction rest as [|b rest IH]; [constructor|]. inversion O as [|b' r' O1 O2]; subst. cbn [map]. constructor; [|auto]. rewrite Forall_forall in *. intros r I.
      apply in_map_iff in I as (c & <- & I). specialize (O1 c I). intros y o [[Q1 B1] [Q2 B2]]. cbn [rg_source rg_offset rg_length] in *. apply O1. split; [|lia].
      apply same_trans with y; [now apply same_sym|exact Q2].
    + intros r1 r2 I J. apply in_map_iff in J as (c & <- & J). destruct (P2 r1 I) as [Q1 _]. intros y o [[R1 _] [R2 _]]. cbn [rg_source] in *. apply (Ot c J).
      apply same_trans with (rg_source r1); [exact Q1|]. apply same_trans with y; [now apply same_sym|exact R2].
  - apply Forall_forall. intros r I. apply in_app_or in I as [I|I]; [now destruct (P2 r I)|]. apply in_map_iff in I as (c & <- & _). cbn. lia.
Qed.
Lemma iter_once t : grouped rising t -> once (taints_iter t).
Proof. intros G. apply grouped_iter in G. apply fop_impl with (2 := G). intros a b _ _ H [H1 H2]. specialize (H H1). lia. Qed.
Lemma taints_regions_spec l : let rs := taints_regions (taints_new l) in
  (forall y o, covered rs y o <-> tainted l y o) /\ ForallOrdPairs disjoint rs /\ Forall (fun r => 0 < rg_length r) rs.
Proof.
  cbv zeta. destruct (taints_spec l) as [G T]. assert (O := iter_once _ G). destruct G as [Di F]. unfold taints_regions. unfold taints_iter in *. destruct (taints_new l) as [|[x s] d].
  - cbn. split; [|split; constructor]. intros y o. rewrite <- T. split; intros (? & [] & _).
  - cbn [map concat snd] in *. inversion F as [|p d' (N0 & So & Ri) F2]; subst. inversion Di as [|p d' D1 D2]; subst. apply fop_app in O as (_ & O & _).
    destruct (regions_of_groups x s (concat (map snd d)) So N0 Ri) as (R1 & R2 & R3); [|exact O|].
    + apply Forall_forall. intros b I. apply in_concat in I as (s' & I & J). apply in_map_iff in I as (q & <- & I). rewrite Forall_forall in *. destruct (F2 q I) as (_ & So2 & _).
      unfold of_source in So2. rewrite Forall_forall in So2. intros H. apply (D1 q I). cbn [fst]. apply same_trans with (fst b); [exact H|auto].
    + split; [|auto]. intros y o. rewrite R1. apply T.
Qed.
Lemma taints_regions_one l x : (forall b, In b l -> same_input (fst b) x) -> ForallOrdPairs apart (taints_regions (taints_new l)).
Proof.
  intros A. destruct (taints_spec l) as [G T]. destruct G as [Di F]. unfold taints_regions. unfold taints_iter in *. destruct (taints_new l) as [|[y s] [|[z s2] d]].
  - constructor.
  - cbn [map concat snd]. inversion F as [|p d' (N0 & So & Ri) F2]; subst. cbn [fst snd] in *.
    destruct (to_regions_spec y s [] So N0 Ri (Forall_nil _)) as (rs & E & (P1 & _)). cbn [map] in E. rewrite !app_nil_r in E.
    rewrite app_nil_r. rewrite E. exact P1.
  - exfalso. inversion F as [|p d' (N0 & So & Ri) F2]; subst. inversion F2 as [|p d' (N2 & So2 & Ri2) F3]; subst. inversion Di as [|p d' D1 D2]; subst. inversion D1 as [|p d' D3 D4]; subst.
    cbn [fst snd map concat] in *. apply D3.
    assert (X : forall w q r, of_source w r -> In q r -> tainted (s ++ s2 ++ concat (map snd d)) (fst q) (snd q) -> same_input w x).
    { intros w q r Sw I (v & J & K). destruct (proj1 (T (fst q) (snd q))) as (u & J2 & K2); [exists v; auto|]. apply same_trans with (fst q).
      - apply same_sym. unfold of_source in Sw. rewrite Forall_forall in Sw. auto.
      - apply same_trans with u; [exact K2|]. exact (A _ J2). }
    apply same_trans with x.
    + destruct s as [|q s]; [congruence|]. apply (X y q (q :: s) So (or_introl eq_refl)). exists (fst q). split; [left; now destruct q|apply same_refl_in].
    + apply same_sym. destruct s2 as [|q s2]; [congruence|]. apply (X z q (q :: s2) So2 (or_introl eq_refl)). exists (fst q). split; [|apply same_refl_in].
      apply in_or_app. right. left. now destruct q.
Qed.
Lemma sorted_regions l : ForallOrdPairs byte_le l -> once l -> uids_differ l -> let rs := to_regions l true in
  (forall y o, covered rs y o <-> tainted l y o) /\ ForallOrdPairs disjoint rs /\ Forall (fun r => 0 < rg_length r) rs.
Proof.
  intros Ss O U. cbv zeta. destruct l as [|b l]; [cbn; split; [|split; constructor]; intros y o; split; intros (? & [] & _)|].
  destruct (sorted_groups b l Ss O U) as (s & rest & E & So & N0 & Ri & Ot). rewrite E in *. apply fop_app in O as (_ & O & _). exact (regions_of_groups _ s rest So N0 Ri Ot O).
Qed.

(** ** Search *)
Lemma is_prefix_iff sub : forall content, is_prefix sub content = true <-> occurs sub content 0.
Proof.
  induction sub as [|a sub IH]; intros content; cbn [is_prefix].
  - split; [intros _ k b G; now rewrite get_nil in G|reflexivity].
  - destruct content as [|c content].
    + split; [discriminate|]. intros H. specialize (H 0 a (get_cons_0 _ _)). now rewrite get_nil in H.
    + rewrite andb_true_iff, N.eqb_eq, IH. split.
      * intros [-> H] k b G. rewrite N.add_0_l. destruct (N.eq_dec k 0) as [->|Nk]; [rewrite get_cons_0 in *; exact G|].
        rewrite get_cons_S in * by lia. exact (H _ _ G).
      * intros H. split; [specialize (H 0 a (get_cons_0 _ _)); rewrite get_cons_0 in H; congruence|]. intros k b G.
        specialize (H (k + 1) b). rewrite !get_cons_S in H by lia. replace (0 + (k + 1) - 1) with (0 + k) in H by lia. replace (k + 1 - 1) with k in H by lia. auto.
Qed.
Lemma occurs_cons sub a content o : occurs sub content o <-> occurs sub (a :: content) (o + 1).
Proof.
  split; intros H k b G; specialize (H k b G); [rewrite get_cons_S by lia; replace (o + 1 + k - 1) with (o + k) by lia; exact H|].
  rewrite get_cons_S in H by lia. replace (o + 1 + k - 1) with (o + k) in H by lia. exact H.
Qed.
Lemma find_from_spec sub : forall content i, match find_from sub content i with
    | Some j => i <= j /\ occurs sub content (j - i) /\ j - i <= len content
    | None => forall k, k <= len content -> ~ occurs sub content k
    end.
Proof.
  induction content as [|c content IH]; intros i; cbn [find_from].
  - destruct (is_prefix sub []) eqn:E.
    + apply is_prefix_iff in E. rewrite N.sub_diag. split; [lia|]. split; [exact E|lia].
    + intros k L H. assert (k = 0) as -> by (cbn in L; lia). apply is_prefix_iff in H. congruence.
  - destruct (is_prefix sub (c :: content)) eqn:E.
    + apply is_prefix_iff in E. rewrite N.sub_diag. split; [lia|]. split; [exact E|lia].
    + specialize (IH (i + 1)). destruct (find_from sub content (i + 1)) as [j|].
      * destruct IH as (L & H & L2). split; [lia|]. rewrite len_cons. split; [|lia]. replace (j - i) with (j - (i + 1) + 1) by lia. now apply occurs_cons.
      * intros k L H. rewrite len_cons in L. destruct (N.eq_dec k 0) as [->|Nk]; [apply is_prefix_iff in H; congruence|].
        apply (IH (k - 1)); [lia|]. apply (occurs_cons sub c). now replace (k - 1 + 1) with k by lia.
Qed.
Lemma py_find_0 sub content : match py_find sub content 0 with
    | Some j => occurs sub content j /\ j <= len content
    | None => forall k, k <= len content -> ~ occurs sub content k
    end.
Proof.
  unfold py_find. destruct (N.ltb_spec (len content) 0); [lia|]. change (N.to_nat 0) with 0%nat. cbn [skipn].
  assert (F := find_from_spec sub content 0). destruct (find_from sub content 0) as [j|]; [|exact F]. destruct F as (_ & H1 & H2). now rewrite N.sub_0_r in *.
Qed.
Lemma occurs_len sub content o : sub <> [] -> occurs sub content o -> o + len sub <= len content.
Proof.
  intros N0 H. destruct (get_lt sub (len sub - 1)) as (b & G).
  { destruct sub; [congruence|]. rewrite len_cons. lia. }
  specialize (H _ _ G). apply get_some in H. assert (0 < len sub) by (destruct sub; [congruence|rewrite len_cons; lia]). lia.
Qed.
Lemma get_skipn {A} (l : list A) n k : get (skipn n l) k = get l (N.of_nat n + k).
Proof. revert k. induction n as [|n IH] in l |- *; intros k; [reflexivity|]. destruct l as [|a l]; cbn [skipn]; [now rewrite !get_nil|]. rewrite IH, get_cons_S by lia. f_equal. lia. Qed.
Lemma get_value content r k : get (region_value content r) k = if k <? rg_length r then get (content (rg_source r)) (rg_offset r + k) else None.
Proof.
  unfold region_value. destruct (N.ltb_spec k (rg_length r)) as [L|L].
  - rewrite get_firstn by lia. rewrite get_skipn. f_equal. lia.
  - apply get_none. unfold len. rewrite firstn_length. lia.
Qed.
Lemma occurs_value content r sub k : sub <> [] -> occurs sub (region_value content r) k <->
  occurs sub (content (rg_source r)) (rg_offset r + k) /\ k + len sub <= rg_length r.
Proof.
  intros N0. split.
  - intros H. split.
    + intros j b G. specialize (H j b G). rewrite get_value in H. destruct (k + j <? rg_length r); [|discriminate]. now rewrite N.add_assoc in H.
    + assert (L := occurs_len _ _ _ N0 H). unfold region_value in L. unfold len in *. rewrite firstn_length in L. lia.
  - intros [H L] j b G. rewrite get_value. assert (J := get_some _ _ _ G). destruct (N.ltb_spec (k + j) (rg_length r)); [|lia]. rewrite N.add_assoc. auto.
Qed.
Lemma find_first_spec content sub rs : (exists r, find_first content sub rs = Some r) <-> exists r k, In r rs /\ k <= len (region_value content r) /\ occurs sub (region_value content r) k.
Proof.
  induction rs as [|r rs IH]; cbn [find_first].
  - split; [intros (r & H); discriminate|intros (r & k & [] & _)].
  - assert (F := py_find_0 sub (region_value content r)). destruct (py_find sub (region_value content r) 0) as [j|].
    + split; [|eauto]. intros _. exists r, j. split; [now left|tauto].
    + rewrite IH. split.
      * intros (q & k & I & H). exists q, k. split; [now right|exact H].
      * intros (q & k & [<-|I] & L & H); [now apply F in H|eauto].
Qed.
Lemma find_loop_hangs content sub r : (exists k, k <= len (region_value content r) /\ occurs sub (region_value content r) k) ->
  forall fuel o, o = 0 \/ (o <= len (region_value content r) /\ occurs sub (region_value content r) o) -> find_loop fuel content sub r o = Fuel.
Proof.
  intros Ex. induction fuel as [|f IH]; intros o Ho; cbn [find_loop]; [reflexivity|].
  assert (F : exists i, py_find sub (region_value content r) o = Some i /\ i <= len (region_value content r) /\ occurs sub (region_value content r) i).
  { destruct Ho as [->|[L H]].
    - assert (F := py_find_0 sub (region_value content r)). destruct (py_find sub (region_value content r) 0) as [j|]; [exists j; tauto|]. destruct Ex as (k & L & H). now apply F in H.
    - exists o. split; [|auto]. unfold py_find. destruct (N.ltb_spec (len (region_value content r)) o); [lia|].
      assert (E : is_prefix sub (skipn (N.to_nat o) (region_value content r)) = true).
      { apply is_prefix_iff. intros k b G. rewrite get_skipn. specialize (H k b G). replace (N.of_nat (N.to_nat o) + (0 + k)) with (o + k) by lia. exact H. }
      destruct (skipn (N.to_nat o) (region_value content r)); cbn [find_from]; now rewrite E. }
  destruct F as (i & -> & F). rewrite (IH i); [reflexivity|now right].
Qed.
Lemma find_loop_none content sub r : (forall k, k <= len (region_value content r) -> ~ occurs sub (region_value content r) k) ->
  forall fuel, find_loop (S fuel) content sub r 0 = Ok [].
Proof.
  intros H fuel. cbn [find_loop]. assert (F := py_find_0 sub (region_value content r)). destruct (py_find sub (region_value content r) 0) as [j|]; [|reflexivity].
  destruct F as [F1 F2]. now apply H in F1.
Qed.
