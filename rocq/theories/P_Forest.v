(** The taint forest: invariant and walks. *)
From Coq Require Import NArith ZArith List Bool Lia Sorted.
From Verif Require Import M_Base M_Encoding M_Labels M_PyNode M_PySections M_PyFile M_PyAnalysis S_Provenance S_Labels S_Forest
  P_Base P_Encoding P_Labels P_PyNode P_PyAnalysis.
Import ListNotations.
Open Scope N_scope.

(** ** Dictionaries *)
Section Dict.
  Context {A B : Type} (eqb : A -> A -> bool) (Heq : forall x y, eqb x y = true <-> x = y).
  Lemma dict_same (d : list (A * B)) k v : dict_get eqb (dict_set eqb d k v) k = Some v.
  Proof.
    induction d as [|[k' v'] d IH]; cbn [dict_set dict_get].
    - now rewrite (proj2 (Heq k k) eq_refl).
    - destruct (eqb k' k) eqn:E; cbn [dict_get]; rewrite E; auto.
  Qed.
  Lemma dict_other (d : list (A * B)) k k2 v : k2 <> k -> dict_get eqb (dict_set eqb d k v) k2 = dict_get eqb d k2.
  Proof.
    intros N. assert (F : eqb k k2 = false) by (destruct (eqb k k2) eqn:E; [apply Heq in E; congruence|reflexivity]).
    induction d as [|[k' v'] d IH]; cbn [dict_set dict_get].
    - now rewrite F.
    - destruct (eqb k' k) eqn:E; cbn [dict_get].
      + apply Heq in E. subst k'. now rewrite F.
      + destruct (eqb k' k2); auto.
  Qed.
  Lemma dict_in (d : list (A * B)) k : dict_get eqb d k <> None <-> In k (map fst d).
  Proof.
    induction d as [|[k' v'] d IH]; cbn [dict_get map fst In]; [tauto|].
    destruct (eqb k' k) eqn:E.
    - apply Heq in E. subst. split; [now left|discriminate].
    - rewrite IH. split; [now right|]. intros [->|H]; [|exact H]. rewrite (proj2 (Heq k k) eq_refl) in E. discriminate.
  Qed.
  Lemma dict_keys (d : list (A * B)) k v x : In x (map fst (dict_set eqb d k v)) <-> In x (map fst d) \/ x = k.
  Proof.
    induction d as [|[k' v'] d IH]; cbn [dict_set map fst In]; [intuition|].
    destruct (eqb k' k) eqn:E; cbn [map fst In].
    - apply Heq in E. subst. intuition.
    - rewrite IH. tauto.
  Qed.
  Lemma dict_nodup (d : list (A * B)) k v : NoDup (map fst d) -> NoDup (map fst (dict_set eqb d k v)).
  Proof.
    induction d as [|[k' v'] d IH]; cbn [dict_set map fst]; intros H; [repeat constructor; auto|].
    inversion H; subst. destruct (eqb k' k) eqn:E; cbn [map fst]; [now constructor|].
    constructor; [|auto]. rewrite dict_keys. intros [I|I]; [auto|]. subst. rewrite (proj2 (Heq k k) eq_refl) in E. discriminate.
  Qed.
End Dict.

Lemma Zeq : forall x y : Z, (x =? y)%Z = true <-> x = y.
Proof. intros. apply Z.eqb_eq. Qed.

Definition zget (c : list (Z * option fnode)) := dict_get Z.eqb c.
Definition cache := list (Z * option fnode).

(** ** Spans: synthetic labels that stand for a run of labels *)
Inductive spans (c : cache) : Z -> N -> N -> Prop :=
| sp_one l : spans c (Z.of_N l) l l
| sp_more z cf p lo hi : (z < 0)%Z -> zget c z = Some (Some (mkFnode z None cf (Some (p, Z.of_N (hi + 1))))) ->
    spans c p lo hi -> spans c z lo (hi + 1).

Lemma spans_le c z lo hi : spans c z lo hi -> lo <= hi.
Proof. induction 1; lia. Qed.
Lemma spans_keep c c' z lo hi : (forall y nd, (y < 0)%Z -> zget c y = Some (Some nd) -> zget c' y = Some (Some nd)) ->
  spans c z lo hi -> spans c' z lo hi.
Proof. intros K. induction 1; [constructor|]. econstructor; eauto. Qed.

Section Forest.
  Variables (d : tdfile) (t : table) (src : N -> py_input).
  Hypothesis W : wf_table t.
  Hypothesis Dec : forall l tn, view t l = Some tn -> td_decode_node d l = Ok (node_of tn).
  Hypothesis Cnt : td_label_count d = Ok (len t).
  Hypothesis Fds : forall l cf i o, view t l = Some (TSource cf i o) -> exists h, td_fd_header d i = Ok h /\ input_of h = src i.

  Definition root : fnode := mkFnode 0 None false None.

  (** The node of a label. *)
  Definition good (c : cache) (l : N) (nd : fnode) : Prop :=
    match view t l with
    | Some (TSource cf i o) => nd = mkFnode (Z.of_N l) (Some (src i)) cf None
    | Some (TUnion cf lo hi) => nd = mkFnode (Z.of_N l) None cf (Some (Z.of_N hi, Z.of_N lo))
    | Some (TRange cf f la) => exists curr, nd = mkFnode (Z.of_N l) None cf (Some (curr, Z.of_N la)) /\ spans c curr f (la - 1)
    | None => False
    end.

  Record finv (fo : forest) : Prop := {
    fv_zero : zget (fo_cache fo) 0 = Some (Some root);
    fv_real : forall l, in_use t l -> exists v, zget (fo_cache fo) (Z.of_N l) = Some v /\
                (v = None \/ exists nd, v = Some nd /\ good (fo_cache fo) l nd);
    fv_high : forall z, (Z.of_N (len t) <= z)%Z -> zget (fo_cache fo) z = None;
    fv_syn : (fo_synth fo <= -1)%Z;
    fv_low : forall z, (z <= fo_synth fo)%Z -> zget (fo_cache fo) z = None;
    fv_neg : forall z, (fo_synth fo < z < 0)%Z -> exists cf p lo hi, zget (fo_cache fo) z = Some (Some (mkFnode z None cf (Some (p, Z.of_N (hi + 1))))) /\
                spans (fo_cache fo) p lo hi /\ 1 <= lo /\ hi + 1 < len t;
    fv_nodup : NoDup (map fst (fo_cache fo))
  }.

  Lemma len_pos : 1 <= len t.
  Proof. destruct W as (W0 & _). unfold get in W0. destruct t; [discriminate W0|rewrite len_cons; lia]. Qed.

  (** New cached entries never replace others. *)
  Definition ext (c c' : cache) : Prop := forall z nd, zget c z = Some (Some nd) -> zget c' z = Some (Some nd).
  Lemma ext_refl c : ext c c.
  Proof. intros z nd H. exact H. Qed.
  Lemma ext_trans a b c : ext a b -> ext b c -> ext a c.
  Proof. intros H K z nd X. auto. Qed.
  Lemma good_ext c c' l nd : ext c c' -> good c l nd -> good c' l nd.
  Proof.
    intros E. unfold good. destruct (view t l) as [[cf i o|cf f la|cf lo hi]|]; auto.
    intros (curr & -> & S). exists curr. split; [reflexivity|]. eapply spans_keep; [|exact S]. auto.
  Qed.


  Lemma zget_new z : forall n a, zget (map (fun i => (Z.of_N i, @None fnode)) (nseq a n)) z =
    if ((Z.of_N a <=? z) && (z <? Z.of_N a + Z.of_nat n))%Z then Some None else None.
  Proof.
    induction n as [|n IH]; intros a; cbn [nseq map].
    - destruct (Z.leb_spec (Z.of_N a) z), (Z.ltb_spec z (Z.of_N a + Z.of_nat 0)); cbn [andb]; try reflexivity; lia.
    - unfold zget in *. cbn [dict_get]. destruct (Z.eqb_spec (Z.of_N a) z) as [<-|Ne].
      + destruct (Z.leb_spec (Z.of_N a) (Z.of_N a)), (Z.ltb_spec (Z.of_N a) (Z.of_N a + Z.of_nat (S n))); cbn [andb]; try reflexivity; lia.
      + rewrite IH. destruct (Z.leb_spec (Z.of_N (a + 1)) z), (Z.leb_spec (Z.of_N a) z), (Z.ltb_spec z (Z.of_N (a + 1) + Z.of_nat n)), (Z.ltb_spec z (Z.of_N a + Z.of_nat (S n)));
          cbn [andb]; try reflexivity; lia.
  Qed.

  Lemma nodup_new : forall n a, NoDup (map fst (map (fun i => (Z.of_N i, @None fnode)) (nseq a n))) /\
    forall z, In z (map fst (map (fun i => (Z.of_N i, @None fnode)) (nseq a n))) -> (Z.of_N a <= z)%Z.
  Proof.
    induction n as [|n IH]; intros a; cbn [nseq map fst].
    - split; [constructor|intros z []].
    - destruct (IH (a + 1)) as [H1 H2]. split.
      + constructor; [|exact H1]. intros I. apply H2 in I. lia.
      + intros z [<-|I]; [lia|]. apply H2 in I. lia.
  Qed.

  Lemma finv_new fo : forest_new d = Ok fo -> finv fo.
  Proof.
    unfold forest_new. rewrite Cnt. cbn [bind]. intros E. inversion E; subst fo. clear E.
    assert (L := len_pos).
    assert (G : forall z, zget ((0%Z, Some root) :: map (fun i => (Z.of_N i, @None fnode)) (py_range 1 (len t))) z =
       if (z =? 0)%Z then Some (Some root) else if ((1 <=? z) && (z <? Z.of_N (len t)))%Z then Some None else None).
    { intros z. unfold zget. cbn [dict_get]. rewrite (Z.eqb_sym 0 z). destruct (Z.eqb_spec z 0); [reflexivity|].
      change (dict_get Z.eqb) with zget. unfold py_range. rewrite zget_new.
      replace (Z.of_N 1 + Z.of_nat (N.to_nat (len t - 1)))%Z with (Z.of_N (len t)) by lia. reflexivity. }
    constructor; cbn [fo_cache fo_synth]; fold root.
    - rewrite G. reflexivity.
    - intros l [H1 H2]. exists None. rewrite G. destruct (Z.eqb_spec (Z.of_N l) 0); [lia|].
      destruct (Z.leb_spec 1 (Z.of_N l)), (Z.ltb_spec (Z.of_N l) (Z.of_N (len t))); try lia. auto.
    - intros z Hz. rewrite G. destruct (Z.eqb_spec z 0); [lia|]. destruct (Z.leb_spec 1 z), (Z.ltb_spec z (Z.of_N (len t))); cbn [andb]; try reflexivity; lia.
    - lia.
    - intros z Hz. rewrite G. destruct (Z.eqb_spec z 0); [lia|]. destruct (Z.leb_spec 1 z); [lia|reflexivity].
    - intros z Hz. lia.
    - cbn [map fst]. destruct (nodup_new (N.to_nat (len t - 1)) 1) as [H1 H2]. constructor; [|exact H1].
      intros I. apply H2 in I. lia.
  Qed.

  (** ** Unfolding a range *)
  Lemma unfold_spec cf n : forall fo curr lo a,
    finv fo -> 1 <= lo -> a + N.of_nat n < len t -> spans (fo_cache fo) curr lo a ->
    let '(curr', fo') := unfold_range fo cf curr (nseq (a + 1) n) in
    finv fo' /\ ext (fo_cache fo) (fo_cache fo') /\ spans (fo_cache fo') curr' lo (a + N.of_nat n) /\
    (forall z, (0 <= z)%Z -> zget (fo_cache fo') z = zget (fo_cache fo) z).
  Proof.
    induction n as [|n IH]; intros fo curr lo a I Hlo Ha S; cbn [nseq unfold_range].
    - replace (a + N.of_nat 0) with a by lia. split; [exact I|]. split; [apply ext_refl|]. auto.
    - cbv zeta. set (s := fo_synth fo). set (nd := mkFnode s None cf (Some (curr, Z.of_N (a + 1)))).
      set (fo1 := mkForest (dict_set Z.eqb (fo_cache fo) s (Some nd)) (s - 1)).
      assert (Hs : (s <= -1)%Z) by apply (fv_syn _ I).
      assert (Old : forall z, z <> s -> zget (fo_cache fo1) z = zget (fo_cache fo) z).
      { intros z Hz. apply (dict_other Z.eqb Zeq). exact Hz. }
      assert (New : zget (fo_cache fo1) s = Some (Some nd)) by apply (dict_same Z.eqb Zeq).
      assert (E1 : ext (fo_cache fo) (fo_cache fo1)).
      { intros z nd0 H. rewrite Old; [exact H|]. intros ->. unfold s in H. rewrite (fv_low _ I) in H by lia. discriminate. }
      assert (S1 : spans (fo_cache fo1) s lo (a + 1)).
      { apply sp_more with (cf := cf) (p := curr); [lia|exact New|]. eapply spans_keep; [|exact S]. auto. }
      assert (I1 : finv fo1).
      { constructor; cbn [fo_synth fo1].
        - rewrite Old by lia. apply I.
        - intros l Ul. rewrite Old by lia. destruct (fv_real _ I l Ul) as (v & Gv & Hv). exists v. split; [exact Gv|].
          destruct Hv as [->|(nd0 & -> & Hg)]; [now left|]. right. exists nd0. split; [reflexivity|]. eapply good_ext; eauto.
        - intros z Hz. rewrite Old by lia. now apply I.
        - lia.
        - intros z Hz. rewrite Old by lia. apply (fv_low _ I). unfold s in Hz. lia.
        - intros z Hz. destruct (Z.eq_dec z s) as [->|Ne].
          + exists cf, curr, lo, a. split; [exact New|]. split; [eapply spans_keep; [|exact S]; auto|]. lia.
          + rewrite Old by exact Ne. destruct (fv_neg _ I z) as (cf0 & p0 & lo0 & hi0 & G0 & S0 & B0); [unfold s in *; lia|].
            exists cf0, p0, lo0, hi0. split; [exact G0|]. split; [|exact B0]. eapply spans_keep; [|exact S0]. auto.
        - apply (dict_nodup Z.eqb Zeq), I. }
      specialize (IH fo1 s lo (a + 1) I1 Hlo ltac:(lia) S1). fold nd. fold fo1.
      destruct (unfold_range fo1 cf s (nseq (a + 1 + 1) n)) as [curr' fo'].
      destruct IH as (I' & E' & S' & R'). split; [exact I'|]. split; [eapply ext_trans; eauto|].
      split; [replace (a + N.of_nat (Datatypes.S n)) with (a + 1 + N.of_nat n) by lia; exact S'|].
      intros z Hz. rewrite R' by exact Hz. apply Old. lia.
  Qed.

  (** ** get_node *)
  Lemma create_spec fo l : finv fo -> in_use t l -> zget (fo_cache fo) (Z.of_N l) = Some None ->
    exists nd fo', create_node d fo (Z.of_N l) = Ok (nd, fo') /\ finv fo' /\ ext (fo_cache fo) (fo_cache fo') /\
      good (fo_cache fo') l nd /\ (forall z, (0 <= z)%Z -> zget (fo_cache fo') z = zget (fo_cache fo) z).
  Proof.
    intros I U G. destruct (wf_view t l W U) as (tn & _ & V & Wt & _). unfold create_node.
    destruct (Z.ltb_spec (Z.of_N l) 0); [lia|]. rewrite N2Z.id, (Dec l tn V). cbn [bind].
    destruct U as [U1 U2]. destruct tn as [cf i o|cf f la|cf lo hi]; cbn [node_of wf_taint] in *.
    - destruct (Fds l cf i o V) as (h & Hh & Hs). rewrite Hh. cbn [bind]. eexists _, fo. split; [reflexivity|].
      split; [exact I|]. split; [apply ext_refl|]. split; [unfold good; rewrite V, Hs; reflexivity|auto].
    - assert (X := unfold_spec cf (N.to_nat (la - (f + 1))) fo (Z.of_N f) f f I ltac:(lia) ltac:(lia) (sp_one _ f)).
      unfold py_range. destruct (unfold_range fo cf (Z.of_N f) (nseq (f + 1) (N.to_nat (la - (f + 1))))) as [curr fo'].
      destruct X as (I' & E' & S' & R'). exists (mkFnode (Z.of_N l) None cf (Some (curr, Z.of_N la))), fo'. split; [reflexivity|].
      split; [exact I'|]. split; [exact E'|]. split; [|exact R']. unfold good. rewrite V. exists curr. split; [reflexivity|].
      replace (la - 1) with (f + N.of_nat (N.to_nat (la - (f + 1)))) by lia. exact S'.
    - eexists _, fo. split; [reflexivity|]. split; [exact I|]. split; [apply ext_refl|]. split; [unfold good; rewrite V; reflexivity|auto].
  Qed.

  Definition stands (c : cache) (z : Z) (nd : fnode) : Prop :=
    (z = 0%Z /\ nd = root) \/
    (exists l, z = Z.of_N l /\ in_use t l /\ good c l nd) \/
    ((z < 0)%Z /\ exists cf p lo hi, nd = mkFnode z None cf (Some (p, Z.of_N (hi + 1))) /\ spans c p lo hi /\ 1 <= lo /\ hi + 1 < len t).

  Lemma get_spec fo z : finv fo -> has_label fo z ->
    exists nd fo', get_node d fo z = Ok (nd, fo') /\ finv fo' /\ ext (fo_cache fo) (fo_cache fo') /\
      stands (fo_cache fo') z nd /\ zget (fo_cache fo') z = Some (Some nd) /\ ((z <= 0)%Z -> fo' = fo) /\
      (forall y, (0 <= y)%Z -> y <> z -> zget (fo_cache fo') y = zget (fo_cache fo) y) /\ (forall y, has_label fo y -> has_label fo' y).
  Proof.
    intros I H. unfold has_label in H. change (dict_get Z.eqb (fo_cache fo)) with (zget (fo_cache fo)) in H.
    unfold get_node. change (dict_get Z.eqb (fo_cache fo)) with (zget (fo_cache fo)).
    destruct (Z.ltb_spec z 0) as [Neg|Pos].
    - destruct (Z.leb_spec z (fo_synth fo)) as [Lo|Hi]; [now rewrite (fv_low _ I z Lo) in H|].
      destruct (fv_neg _ I z ltac:(lia)) as (cf & p & lo & hi & G & S & B). rewrite G. eexists _, fo.
      split; [reflexivity|]. split; [exact I|]. split; [apply ext_refl|]. split; [right; right; split; [exact Neg|eauto 10]|]. auto.
    - destruct (Z.eq_dec z 0) as [->|Nz].
      { rewrite (fv_zero _ I). eexists _, fo. split; [reflexivity|]. split; [exact I|]. split; [apply ext_refl|]. split; [now left|]. split; [apply I|]. auto. }
      destruct (Z.leb_spec (Z.of_N (len t)) z) as [Hi|Lo]; [now rewrite (fv_high _ I z Hi) in H|].
      assert (exists l, z = Z.of_N l /\ in_use t l) as (l & -> & U) by (exists (Z.to_N z); unfold in_use; lia).
      destruct (fv_real _ I l U) as (v & G & Hv). rewrite G. destruct Hv as [->|(nd & -> & Hg)].
      + destruct (create_spec fo l I U G) as (nd & fo1 & C & I1 & E1 & Hg & R1). rewrite C. cbn [bind].
        set (fo' := mkForest (dict_set Z.eqb (fo_cache fo1) (Z.of_N l) (Some nd)) (fo_synth fo1)).
        assert (Old : forall y, y <> Z.of_N l -> zget (fo_cache fo') y = zget (fo_cache fo1) y).
        { intros y Hy. apply (dict_other Z.eqb Zeq). exact Hy. }
        assert (New : zget (fo_cache fo') (Z.of_N l) = Some (Some nd)) by apply (dict_same Z.eqb Zeq).
        assert (E2 : ext (fo_cache fo1) (fo_cache fo')).
        { intros y nd0 Hy. rewrite Old; [exact Hy|]. intros ->. rewrite R1, G in Hy by lia. discriminate. }
        assert (Hg' : good (fo_cache fo') l nd) by (eapply good_ext; eauto).
        assert (I' : finv fo').
        { constructor; cbn [fo_synth fo'].
          - rewrite Old by lia. apply I1.
          - intros k Uk. destruct (N.eq_dec k l) as [->|Ne]; [exists (Some nd); split; [exact New|]; right; eauto|].
            rewrite Old by lia. destruct (fv_real _ I1 k Uk) as (v & Gv & Hv). exists v. split; [exact Gv|].
            destruct Hv as [->|(nd0 & -> & Hg0)]; [now left|]. right. exists nd0. split; [reflexivity|]. eapply good_ext; eauto.
          - intros y Hy. rewrite Old by lia. now apply I1.
          - apply I1.
          - intros y Hy. rewrite Old by (pose proof (fv_syn _ I1); lia). apply (fv_low _ I1). exact Hy.
          - intros y Hy. rewrite Old by lia. destruct (fv_neg _ I1 y Hy) as (cf & p & lo & hi & G0 & S0 & B0).
            exists cf, p, lo, hi. split; [exact G0|]. split; [|exact B0]. eapply spans_keep; [|exact S0]. auto.
          - apply (dict_nodup Z.eqb Zeq), I1. }
        exists nd, fo'. split; [reflexivity|]. split; [exact I'|]. split; [eapply ext_trans; eauto|].
        split; [right; left; exists l; auto|]. split; [exact New|]. split; [destruct U; lia|]. split.
        * intros y Hy Hn. rewrite Old by exact Hn. now apply R1.
        * intros y Hy. unfold has_label in *. change (dict_get Z.eqb (fo_cache fo)) with (zget (fo_cache fo)) in Hy.
          change (dict_get Z.eqb (fo_cache fo')) with (zget (fo_cache fo')).
          destruct (Z.eq_dec y (Z.of_N l)) as [->|Ne]; [rewrite New; discriminate|]. rewrite Old by exact Ne.
          destruct (Z.leb_spec 0 y) as [P|Q]; [now rewrite R1|].
          destruct (zget (fo_cache fo) y) as [[nd0|]|] eqn:Gy; [rewrite (E1 _ _ Gy); discriminate| |congruence].
          exfalso. destruct (Z.leb_spec y (fo_synth fo)) as [L1|L1]; [rewrite (fv_low _ I y L1) in Gy; discriminate|].
          destruct (fv_neg _ I y ltac:(lia)) as (cf & p & lo & hi & G0 & _). congruence.
      + exists nd, fo. split; [reflexivity|]. split; [exact I|]. split; [apply ext_refl|]. split; [right; left; exists l; auto|].
        split; [exact G|]. split; [reflexivity|]. auto.
  Qed.

  Lemma get_fails fo z : ~ has_label fo z -> get_node d fo z = Exit.
  Proof.
    intros H. unfold has_label in H. unfold get_node. destruct (dict_get Z.eqb (fo_cache fo) z); [exfalso; apply H; discriminate|reflexivity].
  Qed.

  Lemma get_inv fo z nd fo' : finv fo -> get_node d fo z = Ok (nd, fo') ->
    has_label fo z /\ finv fo' /\ ext (fo_cache fo) (fo_cache fo') /\ stands (fo_cache fo') z nd /\ zget (fo_cache fo') z = Some (Some nd) /\ ((z <= 0)%Z -> fo' = fo).
  Proof.
    intros I E. destruct (dict_get Z.eqb (fo_cache fo) z) as [v|] eqn:G.
    - assert (H : has_label fo z) by (unfold has_label; rewrite G; discriminate). split; [exact H|].
      destruct (get_spec fo z I H) as (nd1 & fo1 & E1 & Q). rewrite E in E1. inversion E1; subst. tauto.
    - rewrite get_fails in E; [discriminate|]. unfold has_label. rewrite G. auto.
  Qed.

  Lemma run_finv fo : forest_run d fo -> finv fo.
  Proof. induction 1 as [fo E|fo z n fo' R IH E]; [now apply finv_new|]. apply (get_inv fo z n fo' IH E). Qed.

  Lemma real_label fo l : finv fo -> in_use t l -> has_label fo (Z.of_N l).
  Proof. intros I U. destruct (fv_real _ I l U) as (v & G & _). unfold has_label. change (zget (fo_cache fo) (Z.of_N l) <> None). rewrite G. discriminate. Qed.

  Lemma spans_label fo z lo hi : finv fo -> spans (fo_cache fo) z lo hi -> 1 <= lo -> hi < len t -> has_label fo z.
  Proof.
    intros I S L1 L2. destruct S as [l|z cf p lo hi Hz G S].
    - apply real_label; [exact I|]. unfold in_use. lia.
    - unfold has_label. change (zget (fo_cache fo) z <> None). rewrite G. discriminate.
  Qed.

  (** ** Walks *)
  Definition means (c : cache) (z : Z) (b : N * N) : Prop :=
    (exists l, z = Z.of_N l /\ in_use t l /\ derives (view t) l b) \/
    ((z < 0)%Z /\ exists lo hi m, spans c z lo hi /\ 1 <= lo /\ hi < len t /\ lo <= m <= hi /\ derives (view t) m b).

  Definition leaf (nd : fnode) (b : N * N) : Prop :=
    exists l cf, in_use t l /\ view t l = Some (TSource cf (fst b) (snd b)) /\ nd = mkFnode (Z.of_N l) (Some (src (fst b))) cf None.

  Lemma spans_real c z lo hi : spans c z lo hi -> (0 <= z)%Z -> z = Z.of_N lo /\ hi = lo.
  Proof. destruct 1 as [l|z cf p lo hi Hz G S]; intros H; [auto|lia]. Qed.

  Lemma spans_neg c z lo hi : spans c z lo hi -> (z < 0)%Z ->
    exists cf p h, zget c z = Some (Some (mkFnode z None cf (Some (p, Z.of_N (h + 1))))) /\ spans c p lo h /\ hi = h + 1.
  Proof. destruct 1 as [l|z cf p lo hi Hz G S]; intros H; [lia|]. exists cf, p, hi. auto. Qed.

  Lemma spans_fun c z lo1 hi1 : spans c z lo1 hi1 -> forall lo2 hi2, spans c z lo2 hi2 -> lo1 = lo2 /\ hi1 = hi2.
  Proof.
    induction 1 as [l|z cf p lo hi Hz G S IH]; intros lo2 hi2 S2.
    - destruct (spans_real _ _ _ _ S2 ltac:(lia)). lia.
    - destruct (spans_neg _ _ _ _ S2 Hz) as (cf' & p' & h & G' & S' & ->). rewrite G in G'.
      assert (p = p' /\ Z.of_N (hi + 1) = Z.of_N (h + 1)) as [-> Eh] by (inversion G'; auto).
      destruct (IH _ _ S'). split; [assumption|lia].
  Qed.

  Lemma means_span c p lo hi b : spans c p lo hi -> 1 <= lo -> hi < len t -> means c p b -> exists m, lo <= m <= hi /\ derives (view t) m b.
  Proof.
    intros S L1 L2 [(l & -> & U & D)|(Z & lo' & hi' & m & S' & _ & _ & B & D)].
    - destruct (spans_real _ _ _ _ S ltac:(lia)) as [E1 E2]. apply N2Z.inj in E1. exists l. split; [lia|exact D].
    - destruct (spans_fun _ _ _ _ S _ _ S') as [-> ->]. eauto.
  Qed.

  Lemma walk_sound fo z fo' nd : walk d fo z fo' nd -> finv fo ->
    finv fo' /\ ext (fo_cache fo) (fo_cache fo') /\
    ((z <> 0)%Z -> forall b, leaf nd b -> means (fo_cache fo') z b).
  Proof.
    induction 1 as [fo z fo' n E|fo z n fo1 p q y fo2 n' E P Y Wk IH]; intros I.
    - destruct (get_inv fo z n fo' I E) as (_ & I' & X & St & _ & _). split; [exact I'|]. split; [exact X|].
      intros Nz b (l & cf & U & V & ->). left. destruct St as [[-> _]|[(l' & -> & U' & Hg)|(Z & cf' & p & lo & hi & En & _)]].
      + lia.
      + exists l'. split; [reflexivity|]. split; [exact U'|]. unfold good in Hg.
        destruct (view t l') as [[cf' i o|cf' f la|cf' lo hi]|] eqn:V'; try contradiction.
        * assert (El : Z.of_N l = Z.of_N l') by congruence. apply N2Z.inj in El. subst l'. rewrite V in V'.
          exists l, cf. split; [constructor|exact V].
        * destruct Hg as (? & Hg & _). discriminate.
        * discriminate.
      + discriminate.
    - destruct (get_inv fo z n fo1 I E) as (_ & I1 & X1 & St & _ & _). destruct (IH I1) as (I2 & X2 & M2).
      split; [exact I2|]. split; [eapply ext_trans; eauto|]. intros Nz b Lf.
      assert (Sp : forall a lo hi, spans (fo_cache fo1) a lo hi -> spans (fo_cache fo2) a lo hi).
      { intros a lo hi. apply spans_keep. exact (fun y0 nd0 _ => X2 y0 nd0). }
      destruct St as [[-> ->]|[(l & -> & U & Hg)|(Z & cf' & p0 & lo & hi & En & S & B1 & B2)]].
      + lia.
      + left. exists l. split; [reflexivity|]. split; [exact U|]. unfold good in Hg. destruct (wf_view t l W U) as (tn & _ & V & Wt & _). rewrite V in Hg.
        destruct U as [U1 U2]. destruct tn as [cf i o|cf f la|cf lo hi]; cbn [wf_taint] in Wt.
        * subst n. discriminate.
        * destruct Hg as (curr & -> & S). cbn [fn_parents] in P. inversion P; subst p q. clear P. destruct Y as [->| ->].
          -- assert (curr <> 0)%Z by (inversion S; lia).
             destruct (means_span _ _ _ _ b (Sp _ _ _ S) ltac:(lia) ltac:(lia) (M2 H b Lf)) as (m & Bm & Dm).
             destruct Dm as (k & cfk & Bk & Vk). exists k, cfk. split; [|exact Vk]. econstructor; [|exact Bk]. eapply comp_range; [exact V|lia].
          -- destruct (M2 ltac:(lia) b Lf) as [(l' & El & U' & D)|(Z & _)]; [|lia]. apply N2Z.inj in El. subst l'.
             destruct D as (k & cfk & Bk & Vk). exists k, cfk. split; [|exact Vk]. econstructor; [|exact Bk]. eapply comp_range; [exact V|lia].
        * subst n. cbn [fn_parents] in P. inversion P; subst p q. clear P.
          assert (Ny : y <> 0%Z) by (destruct Y; lia).
          destruct (M2 Ny b Lf) as [(l' & El & U' & D)|(Z & _)]; [|destruct Y; lia]. destruct D as (k & cfk & Bk & Vk). exists k, cfk. split; [|exact Vk].
          econstructor; [|exact Bk]. destruct Y as [->| ->]; apply N2Z.inj in El; subst l'; [eapply comp_higher|eapply comp_lower]; exact V.
      + right. split; [exact Z|]. subst n. cbn [fn_parents] in P. inversion P; subst p q. clear P.
        assert (Sz : spans (fo_cache fo1) z lo (hi + 1)).
        { destruct (get_inv fo z _ fo1 I E) as (_ & _ & _ & _ & Gz & _). eapply sp_more; [exact Z|exact Gz|exact S]. }
        assert (Le := spans_le _ _ _ _ S).
        destruct Y as [->| ->].
        * assert (p0 <> 0)%Z by (inversion S; lia).
          destruct (means_span _ _ _ _ b (Sp _ _ _ S) ltac:(lia) ltac:(lia) (M2 H b Lf)) as (m & Bm & Dm).
          exists lo, (hi + 1), m. split; [now apply Sp|]. split; [exact B1|]. split; [exact B2|]. split; [lia|exact Dm].
        * destruct (M2 ltac:(lia) b Lf) as [(l' & El & U' & D)|(Z' & _)]; [|lia]. apply N2Z.inj in El. subst l'.
          exists lo, (hi + 1), (hi + 1). split; [now apply Sp|]. split; [exact B1|]. split; [exact B2|]. split; [lia|exact D].
  Qed.

  Lemma span_walk z lo hi : forall fo, spans (fo_cache fo) z lo hi -> finv fo -> 1 <= lo -> hi < len t ->
    forall m (Q : fnode -> Prop), lo <= m <= hi -> (exists fo' nd, walk d fo (Z.of_N m) fo' nd /\ Q nd) ->
    exists fo' nd, walk d fo z fo' nd /\ Q nd.
  Proof.
    intros fo S. induction S as [l|z cf p lo hi Hz G S IH]; intros I L1 L2 m Q B H.
    - replace l with m by lia. exact H.
    - assert (E : get_node d fo z = Ok (mkFnode z None cf (Some (p, Z.of_N (hi + 1))), fo)).
      { unfold get_node. change (dict_get Z.eqb (fo_cache fo)) with (zget (fo_cache fo)). rewrite G. reflexivity. }
      destruct (N.eq_dec m (hi + 1)) as [->|Ne].
      + destruct H as (fo' & nd & Wk & Hq). exists fo', nd. split; [|exact Hq]. eapply wk_up; [exact E|reflexivity|right; reflexivity|exact Wk].
      + destruct (IH I L1 ltac:(lia) m Q ltac:(lia) H) as (fo' & nd & Wk & Hq). exists fo', nd. split; [|exact Hq].
        eapply wk_up; [exact E|reflexivity|left; reflexivity|exact Wk].
  Qed.

  Lemma walk_complete l k : built_from (view t) l k -> forall fo b cf, finv fo -> in_use t l -> view t k = Some (TSource cf (fst b) (snd b)) ->
    exists fo' nd, walk d fo (Z.of_N l) fo' nd /\ leaf nd b.
  Proof.
    induction 1 as [l|l m k C B IH]; intros fo b cf I U V.
    - destruct (get_spec fo _ I (real_label fo l I U)) as (nd & fo' & E & _ & _ & St & _).
      exists fo', nd. split; [now apply wk_here|]. destruct U as [U1 U2].
      destruct St as [[Z _]|[(l' & El & U' & Hg)|(Z & _)]]; [lia| |lia]. apply N2Z.inj in El. subst l'. unfold good in Hg. rewrite V in Hg.
      exists l, cf. auto.
    - destruct (get_spec fo _ I (real_label fo l I U)) as (nd & fo1 & E & I1 & _ & St & _).
      assert (Um : in_use t m) by (destruct U; apply component_lt in C; [unfold in_use in *; lia|exact W..]).
      destruct U as [U1 U2].
      destruct St as [[Z _]|[(l' & El & U' & Hg)|(Z & _)]]; [lia| |lia]. apply N2Z.inj in El. subst l'. unfold good in Hg.
      destruct (IH fo1 b cf I1 Um V) as (fo' & nd' & Wk & Lf).
      inversion C as [l0 cf0 f la m0 V0 Bm|l0 cf0 lo hi V0|l0 cf0 lo hi V0]; subst; rewrite V0 in Hg.
      + destruct Hg as (curr & -> & S). destruct (wf_view t l W U') as (tn & _ & V1 & Wt & _). rewrite V0 in V1. inversion V1; subst tn. cbn [wf_taint] in Wt.
        destruct (N.eq_dec m la) as [->|Ne].
        * exists fo', nd'. split; [|exact Lf]. eapply wk_up; [exact E|reflexivity|right; reflexivity|exact Wk].
        * destruct (span_walk curr f (la - 1) fo1 S I1 ltac:(lia) ltac:(lia) m (fun n => leaf n b) ltac:(lia)) as (fo2 & nd2 & Wk2 & Lf2); [eauto|].
          exists fo2, nd2. split; [|exact Lf2]. eapply wk_up; [exact E|reflexivity|left; reflexivity|exact Wk2].
      + exists fo', nd'. split; [|exact Lf]. subst nd. eapply wk_up; [exact E|reflexivity|right; reflexivity|exact Wk].
      + exists fo', nd'. split; [|exact Lf]. subst nd. eapply wk_up; [exact E|reflexivity|left; reflexivity|exact Wk].
  Qed.

  (** A node that has a file offset is a leaf. *)
  Lemma offset_leaf fo z nd fo' x o : finv fo -> get_node d fo z = Ok (nd, fo') -> py_file_offset d nd = Ok (x, o) ->
    exists i, leaf nd (i, o) /\ x = src i.
  Proof.
    intros I E F. destruct (get_inv fo z nd fo' I E) as (_ & _ & _ & St & _ & _). unfold py_file_offset in F.
    destruct St as [[_ ->]|[(l & -> & U & Hg)|(_ & cf & p & lo & hi & -> & _)]]; try discriminate F.
    unfold good in Hg. destruct (view t l) as [[cf i o'|cf f la|cf lo hi]|] eqn:V; try contradiction.
    - subst nd. cbn [fn_source fn_label] in F. rewrite N2Z.id, (Dec l _ V) in F. cbn [bind node_of] in F. inversion F; subst.
      exists i. split; [|reflexivity]. exists l, cf. auto.
    - destruct Hg as (? & -> & _). discriminate F.
    - subst nd. discriminate F.
  Qed.

  Lemma walk_end fo z fo' nd : walk d fo z fo' nd -> finv fo -> exists fo1 y, finv fo1 /\ get_node d fo1 y = Ok (nd, fo').
  Proof.
    induction 1 as [fo z fo' n E|fo z n fo1 p q y fo2 n' E P Y Wk IH]; intros I; [eauto|].
    apply IH. apply (get_inv fo z n fo1 I E).
  Qed.

  Lemma leaf_offset nd i o : leaf nd (i, o) -> py_file_offset d nd = Ok (src i, o).
  Proof.
    intros (l & cf & U & V & ->). unfold py_file_offset. cbn [fn_source fn_label fst snd] in *. rewrite N2Z.id, (Dec l _ V). reflexivity.
  Qed.

  Lemma walk_leaves fo l : finv fo -> in_use t l -> forall x o,
    (exists fo' nd, walk d fo (Z.of_N l) fo' nd /\ py_file_offset d nd = Ok (x, o)) <->
    exists i, derives (view t) l (i, o) /\ x = src i.
  Proof.
    intros I U x o. split.
    - intros (fo' & nd & Wk & F). destruct (walk_end _ _ _ _ Wk I) as (fo1 & y & I1 & E).
      destruct (offset_leaf _ _ _ _ _ _ I1 E F) as (i & Lf & ->). exists i. split; [|reflexivity].
      destruct (walk_sound _ _ _ _ Wk I) as (_ & _ & M). destruct U as [U1 U2].
      destruct (M ltac:(lia) _ Lf) as [(l' & El & _ & D)|(Z & _)]; [|lia]. apply N2Z.inj in El. subst. exact D.
    - intros (i & (k & cf & B & V) & ->). destruct (walk_complete l k B fo (i, o) cf I U V) as (fo' & nd & Wk & Lf).
      exists fo', nd. split; [exact Wk|]. now apply leaf_offset.
  Qed.

  (** ** Labels, parents, ranks *)
  Lemma stands_label c z nd : stands c z nd -> fn_label nd = z.
  Proof.
    intros [[-> ->]|[(l & -> & U & Hg)|(Z & cf & p & lo & hi & -> & _)]]; try reflexivity. unfold good in Hg.
    destruct (view t l) as [[cf i o|cf f la|cf lo hi]|]; try contradiction; try (now subst).
    destruct Hg as (? & -> & _). reflexivity.
  Qed.

  Lemma has_iff fo z : finv fo -> (has_label fo z <-> (fo_synth fo < z < Z.of_N (len t))%Z).
  Proof.
    intros I. unfold has_label. change (dict_get Z.eqb (fo_cache fo)) with (zget (fo_cache fo)). assert (L := len_pos). split.
    - intros H. destruct (Z.leb_spec z (fo_synth fo)) as [Q|Q]; [exfalso; apply H; now apply (fv_low _ I)|].
      destruct (Z.leb_spec (Z.of_N (len t)) z) as [P|P]; [exfalso; apply H; now apply (fv_high _ I)|lia].
    - intros [Q P]. destruct (Z.ltb_spec z 0) as [N0|N0].
      + destruct (fv_neg _ I z ltac:(lia)) as (cf & p & lo & hi & G & _). rewrite G. discriminate.
      + destruct (Z.eq_dec z 0) as [->|Nz]; [rewrite (fv_zero _ I); discriminate|].
        destruct (fv_real _ I (Z.to_N z)) as (v & G & _); [unfold in_use; lia|]. rewrite Z2N.id in G by lia. rewrite G. discriminate.
  Qed.

  Lemma stands_parents fo z nd p q : finv fo -> stands (fo_cache fo) z nd -> fn_parents nd = Some (p, q) ->
    has_label fo p /\ has_label fo q /\ p <> 0%Z /\ q <> 0%Z /\ fn_source nd = None.
  Proof.
    intros I St P. destruct St as [[-> ->]|[(l & -> & U & Hg)|(Z & cf & p0 & lo & hi & -> & S & B1 & B2)]]; [discriminate P| |].
    - unfold good in Hg. destruct (wf_view t l W U) as (tn & _ & V & Wt & _). rewrite V in Hg. destruct U as [U1 U2].
      destruct tn as [cf i o|cf f la|cf lo hi]; cbn [wf_taint] in Wt.
      + subst nd. discriminate P.
      + destruct Hg as (curr & -> & S). cbn [fn_parents fn_source] in *. inversion P; subst p q. clear P.
        split; [apply (spans_label _ _ _ _ I S); lia|]. split; [apply real_label; [exact I|unfold in_use; lia]|].
        split; [destruct S; lia|]. split; [lia|reflexivity].
      + subst nd. cbn [fn_parents fn_source] in *. inversion P; subst p q. clear P.
        split; [apply real_label; [exact I|unfold in_use; lia]|]. split; [apply real_label; [exact I|unfold in_use; lia]|].
        split; [lia|]. split; [lia|reflexivity].
    - cbn [fn_parents fn_source] in *. inversion P; subst p q. clear P. assert (Le := spans_le _ _ _ _ S).
      split; [apply (spans_label _ _ _ _ I S); lia|]. split; [apply real_label; [exact I|unfold in_use; lia]|].
      split; [destruct S; lia|]. split; [lia|reflexivity].
  Qed.

  Lemma stands_inner c z nd : stands c z nd -> z <> 0%Z -> fn_parents nd = None ->
    exists l cf i o, z = Z.of_N l /\ view t l = Some (TSource cf i o) /\ fn_source nd = Some (src i).
  Proof.
    intros St Nz P. destruct St as [[-> ->]|[(l & -> & U & Hg)|(Z & cf & p0 & lo & hi & -> & _)]]; [lia| |discriminate P].
    unfold good in Hg. destruct (view t l) as [[cf i o|cf f la|cf lo hi]|] eqn:V; try contradiction.
    - subst nd. exists l, cf, i, o. auto.
    - destruct Hg as (? & -> & _). discriminate P.
    - subst nd. discriminate P.
  Qed.

  Lemma stands_cf c l nd tn : stands c (Z.of_N l) nd -> 1 <= l -> view t l = Some tn -> fn_cf nd = node_cf (node_of tn).
  Proof.
    intros St L V. destruct St as [[E _]|[(l' & E & U & Hg)|(Z & _)]]; [lia| |lia]. apply N2Z.inj in E. subst l'.
    unfold good in Hg. rewrite V in Hg. destruct tn as [cf i o|cf f la|cf lo hi]; [now subst| |now subst].
    destruct Hg as (? & -> & _). reflexivity.
  Qed.

  Lemma get_cached fo z nd : zget (fo_cache fo) z = Some (Some nd) -> get_node d fo z = Ok (nd, fo).
  Proof. unfold zget, get_node. intros ->. reflexivity. Qed.

  Lemma later_inv fo fo' : later d fo fo' -> finv fo -> finv fo' /\ ext (fo_cache fo) (fo_cache fo').
  Proof.
    induction 1 as [fo|fo fo1 z n fo2 L IH E]; intros I; [split; [exact I|apply ext_refl]|].
    destruct (IH I) as [I1 X1]. destruct (get_inv _ _ _ _ I1 E) as (_ & I2 & X2 & _). split; [exact I2|eapply ext_trans; eauto].
  Qed.

  Lemma get_later fo z nd fo1 fo2 : finv fo -> get_node d fo z = Ok (nd, fo1) -> later d fo1 fo2 -> get_node d fo2 z = Ok (nd, fo2).
  Proof.
    intros I E L. destruct (get_inv _ _ _ _ I E) as (_ & I1 & _ & _ & G & _). destruct (later_inv _ _ L I1) as [_ X].
    apply get_cached. now apply X.
  Qed.

  Definition rank (c : cache) (z : Z) (k : N) : Prop :=
    (exists l, z = Z.of_N l /\ k = 2 * l) \/ ((z < 0)%Z /\ exists lo hi, spans c z lo hi /\ k = 2 * hi + 1).
  Lemma rank_ext c c' z k : ext c c' -> rank c z k -> rank c' z k.
  Proof.
    intros X [H|(Z & lo & hi & S & E)]; [now left|right]. split; [exact Z|]. exists lo, hi. split; [|exact E].
    eapply spans_keep; [|exact S]. exact (fun y nd _ => X y nd).
  Qed.
  Lemma rank_fun c z k k' : rank c z k -> rank c z k' -> k = k'.
  Proof.
    intros [(l & -> & ->)|(Z & lo & hi & S & ->)] [(l' & E & ->)|(Z' & lo' & hi' & S' & ->)]; try lia.
    destruct (spans_fun _ _ _ _ S _ _ S'). lia.
  Qed.
  Lemma rank_span c z lo hi : spans c z lo hi -> exists k, rank c z k /\ k <= 2 * hi + 1.
  Proof.
    intros S. destruct (Z.ltb_spec z 0) as [N0|N0].
    - exists (2 * hi + 1). split; [|lia]. right. eauto.
    - destruct (spans_real _ _ _ _ S N0) as [-> ->]. exists (2 * lo). split; [|lia]. left. eauto.
  Qed.

  Lemma rank_parent fo z nd fo' p q y : finv fo -> get_node d fo z = Ok (nd, fo') -> fn_parents nd = Some (p, q) -> y = p \/ y = q ->
    exists k k', rank (fo_cache fo') z k /\ rank (fo_cache fo') y k' /\ k' < k.
  Proof.
    intros I E P Y. destruct (get_inv _ _ _ _ I E) as (_ & I' & _ & St & Gz & _).
    destruct St as [[-> ->]|[(l & -> & U & Hg)|(Z & cf & p0 & lo & hi & -> & S & B1 & B2)]]; [discriminate P| |].
    - unfold good in Hg. destruct (wf_view t l W U) as (tn & _ & V & Wt & _). rewrite V in Hg. destruct U as [U1 U2].
      exists (2 * l). destruct tn as [cf i o|cf f la|cf lo hi]; cbn [wf_taint] in Wt.
      + subst nd. discriminate P.
      + destruct Hg as (curr & -> & S). cbn [fn_parents] in P. inversion P; subst p q. clear P. destruct Y as [->| ->].
        * destruct (rank_span _ _ _ _ S) as (k' & R & L). exists k'. split; [left; eauto|]. split; [exact R|lia].
        * exists (2 * la). split; [left; eauto|]. split; [left; eauto|lia].
      + subst nd. cbn [fn_parents] in P. inversion P; subst p q. clear P. destruct Y as [->| ->].
        * exists (2 * hi). split; [left; eauto|]. split; [left; eauto|lia].
        * exists (2 * lo). split; [left; eauto|]. split; [left; eauto|lia].
    - exists (2 * (hi + 1) + 1). cbn [fn_parents] in P. inversion P; subst p q. clear P.
      assert (Sz : spans (fo_cache fo') z lo (hi + 1)) by (eapply sp_more; [exact Z|exact Gz|exact S]).
      assert (Rz : rank (fo_cache fo') z (2 * (hi + 1) + 1)) by (right; eauto).
      destruct Y as [->| ->].
      + destruct (rank_span _ _ _ _ S) as (k' & R & L). exists k'. split; [exact Rz|]. split; [exact R|lia].
      + exists (2 * (hi + 1)). split; [exact Rz|]. split; [left; eauto|lia].
  Qed.

  Lemma walk_rank fo z fo' nd : walk d fo z fo' nd -> finv fo -> forall k, rank (fo_cache fo) z k ->
    finv fo' /\ ext (fo_cache fo) (fo_cache fo') /\ exists k', rank (fo_cache fo') (fn_label nd) k' /\ k' <= k.
  Proof.
    induction 1 as [fo z fo' n E|fo z n fo1 p q y fo2 n' E P Y Wk IH]; intros I k R.
    - destruct (get_inv _ _ _ _ I E) as (_ & I' & X & St & _). rewrite (stands_label _ _ _ St). split; [exact I'|]. split; [exact X|].
      exists k. split; [now apply (rank_ext _ _ _ _ X)|lia].
    - destruct (get_inv _ _ _ _ I E) as (_ & I1 & X & _). destruct (rank_parent _ _ _ _ _ _ _ I E P Y) as (k1 & k2 & R1 & R2 & L).
      destruct (IH I1 k2 R2) as (I2 & X2 & k' & R' & L'). split; [exact I2|]. split; [eapply ext_trans; eauto|].
      exists k'. split; [exact R'|]. assert (k = k1) by (eapply rank_fun; [apply (rank_ext _ _ _ _ X R)|exact R1]). lia.
  Qed.

  Lemma walk_acyclic fo z n fo1 p q y fo2 n' : finv fo -> get_node d fo z = Ok (n, fo1) -> fn_parents n = Some (p, q) -> y = p \/ y = q ->
    walk d fo1 y fo2 n' -> fn_label n' <> z.
  Proof.
    intros I E P Y Wk Eq. destruct (get_inv _ _ _ _ I E) as (_ & I1 & X & _). destruct (rank_parent _ _ _ _ _ _ _ I E P Y) as (k1 & k2 & R1 & R2 & L).
    destruct (walk_rank _ _ _ _ Wk I1 k2 R2) as (_ & X2 & k' & R' & L'). rewrite Eq in R'.
    assert (k' = k1) by (eapply rank_fun; [exact R'|now apply (rank_ext _ _ _ _ X2)]). lia.
  Qed.

  (** ** nodes() *)
  Lemma max_key_spec (c : cache) m : (0 <= m)%Z -> (forall z, In z (map fst c) -> (z <= m)%Z) -> (m = 0%Z \/ In m (map fst c)) -> max_key c = m.
  Proof.
    intros P. induction c as [|[k v] c IH]; unfold max_key; cbn [fold_right map fst In]; intros B H.
    - destruct H as [H|[]]. lia.
    - fold (max_key c). assert (Bk : (k <= m)%Z) by auto.
      assert (Up : (0 <= max_key c <= m)%Z).
      { clear -B P. assert (B' : forall z, In z (map fst c) -> (z <= m)%Z) by auto. clear B.
        induction c as [|[k' v'] c IH']; unfold max_key; cbn [fold_right fst]; [lia|]. fold (max_key c).
        assert (k' <= m)%Z by (apply B'; now left). assert (0 <= max_key c <= m)%Z by (apply IH'; intros; apply B'; now right). lia. }
      destruct H as [->|[->|H]]; [lia|lia|]. rewrite IH; [lia|auto|auto].
  Qed.

  Lemma max_key_finv fo : finv fo -> max_key (fo_cache fo) = (Z.of_N (len t) - 1)%Z.
  Proof.
    intros I. assert (L := len_pos). apply max_key_spec; [lia| |].
    - intros z Hz. apply (dict_in Z.eqb Zeq) in Hz. apply (has_iff fo z I) in Hz. lia.
    - right. apply (dict_in Z.eqb Zeq). apply (has_iff fo _ I). assert (X := fv_syn _ I). lia.
  Qed.

  Fixpoint down (z : Z) (n : nat) : list Z := match n with O => [] | S n' => z :: down (z - 1) n' end.
  Lemma in_down y n : forall z, In y (down z n) <-> (z - Z.of_nat n < y <= z)%Z.
  Proof. induction n as [|n IH]; intros z; cbn [down In]; [lia|]. rewrite IH. lia. Qed.
  Lemma down_sorted n : forall z, StronglySorted Z.gt (down z n).
  Proof. induction n as [|n IH]; intros z; cbn [down]; constructor; [apply IH|]. apply Forall_forall. intros y Hy. apply in_down in Hy. lia. Qed.

  Lemma nodes_neg fo : finv fo -> forall k z, (z <= 0)%Z -> z = (fo_synth fo + Z.of_nat k)%Z ->
    exists ns, (forall fuel, (k <= fuel)%nat -> nodes_loop fuel d fo z = Ok (ns, fo)) /\ map fn_label ns = down z k /\
      forall n, In n ns -> zget (fo_cache fo) (fn_label n) = Some (Some n).
  Proof.
    intros I. induction k as [|k IH]; intros z Z E.
    - exists []. split; [|split; [reflexivity|intros n []]]. intros fuel _. destruct fuel; cbn [nodes_loop];
      change (dict_get Z.eqb (fo_cache fo)) with (zget (fo_cache fo)); rewrite (fv_low _ I z) by lia; reflexivity.
    - destruct (IH (z - 1)%Z ltac:(lia) ltac:(lia)) as (ns & R & Mp & C).
      assert (H : has_label fo z) by (apply (has_iff fo z I); assert (X := len_pos); lia).
      destruct (get_spec fo z I H) as (nd & fo' & G & _ & _ & St & Gz & Same & _). rewrite (Same Z) in *. clear Same.
      exists (nd :: ns). split; [|split].
      + intros [|fuel] Hf; [lia|]. cbn [nodes_loop]. unfold has_label in H. destruct (dict_get Z.eqb (fo_cache fo) z); [|congruence].
        rewrite G. cbn [bind]. rewrite R by lia. reflexivity.
      + cbn [map down]. rewrite Mp. f_equal. apply (stands_label _ _ _ St).
      + intros n [<-|Hn]; [|auto]. rewrite (stands_label _ _ _ St). exact Gz.
  Qed.

  Lemma nodes_pos k : forall fo, finv fo -> N.of_nat k < len t -> exists F ns fo', finv fo' /\ ext (fo_cache fo) (fo_cache fo') /\ later d fo fo' /\
    (forall fuel, (F <= fuel)%nat -> nodes_loop fuel d fo (Z.of_nat k) = Ok (ns, fo')) /\
    (exists m, map fn_label ns = down (Z.of_nat k) m /\ (Z.of_nat k - Z.of_nat m = fo_synth fo')%Z) /\
    forall n, In n ns -> zget (fo_cache fo') (fn_label n) = Some (Some n).
  Proof.
    induction k as [|k IH]; intros fo I L.
    - destruct (nodes_neg fo I (Z.to_nat (- fo_synth fo)) 0%Z ltac:(lia)) as (ns & R & Mp & C); [assert (X := fv_syn _ I); lia|].
      exists (Z.to_nat (- fo_synth fo)), ns, fo. split; [exact I|]. split; [apply ext_refl|]. split; [constructor|]. split; [exact R|]. split; [|exact C].
      exists (Z.to_nat (- fo_synth fo)). split; [exact Mp|]. assert (X := fv_syn _ I). lia.
    - assert (H : has_label fo (Z.of_nat (S k))) by (apply (has_iff fo _ I); assert (X := fv_syn _ I); lia).
      destruct (get_spec fo _ I H) as (nd & fo1 & G & I1 & X1 & St & Gz & _).
      destruct (IH fo1 I1 ltac:(lia)) as (F & ns & fo' & I' & X' & La & R & (m & Mp & Em) & C).
      exists (S F), (nd :: ns), fo'. split; [exact I'|]. split; [eapply ext_trans; eauto|]. split.
      { clear -G La. induction La as [fo1|fo1 fo2 z n fo3 La IHL E]; [eapply la_get; [apply la_refl|exact G]|]. eapply la_get; [apply IHL; exact G|exact E]. }
      split; [|split].
      + intros [|fuel] Hf; [lia|]. cbn [nodes_loop]. unfold has_label in H. destruct (dict_get Z.eqb (fo_cache fo) (Z.of_nat (S k))); [|congruence].
        rewrite G. cbn [bind]. replace (Z.of_nat (S k) - 1)%Z with (Z.of_nat k) by lia. rewrite R by lia. reflexivity.
      + exists (S m). cbn [map down]. rewrite (stands_label _ _ _ St). replace (Z.of_nat (S k) - 1)%Z with (Z.of_nat k) by lia.
        rewrite Mp. split; [reflexivity|lia].
      + intros n [<-|Hn]; [|auto]. apply X'. rewrite (stands_label _ _ _ St). exact Gz.
  Qed.

  Lemma forest_nodes_spec fo : finv fo -> exists F ns fo', finv fo' /\ later d fo fo' /\
    (forall fuel, (F <= fuel)%nat -> forest_nodes fuel d fo = Ok (ns, fo')) /\
    StronglySorted Z.gt (map fn_label ns) /\ (forall z, In z (map fn_label ns) <-> has_label fo' z) /\
    forall n, In n ns -> get_node d fo' (fn_label n) = Ok (n, fo').
  Proof.
    intros I. assert (L := len_pos). destruct (nodes_pos (N.to_nat (len t - 1)) fo I ltac:(lia)) as (F & ns & fo' & I' & _ & La & R & (m & Mp & Em) & C).
    exists F, ns, fo'. split; [exact I'|]. split; [exact La|]. split; [|split; [|split]].
    - intros fuel Hf. unfold forest_nodes. rewrite (max_key_finv fo I). replace (Z.of_N (len t) - 1)%Z with (Z.of_nat (N.to_nat (len t - 1))) by lia. now apply R.
    - rewrite Mp. apply down_sorted.
    - intros z. rewrite Mp, in_down, (has_iff fo' z I'). lia.
    - intros n Hn. apply get_cached. now apply C.
  Qed.

  (** ** Inputs affecting control flow *)
  Lemma affecting_spec ls : forall fo, finv fo -> (forall l, In l ls -> exists cf i o, view t l = Some (TSource cf i o)) ->
    exists bs fo', affecting_loop d fo ls = Ok (bs, fo') /\ later d fo fo' /\
      forall x o, In (x, o) bs <-> exists l i, In l ls /\ view t l = Some (TSource true i o) /\ x = src i.
  Proof.
    induction ls as [|l ls IH]; intros fo I H.
    - exists [], fo. split; [reflexivity|]. split; [constructor|]. intros x o. split; [intros []|intros (l & i & [] & _)].
    - destruct (H l (or_introl eq_refl)) as (cf & i & o & V). cbn [affecting_loop]. rewrite (Dec l _ V). cbn [bind node_of node_cf].
      destruct cf.
      + assert (U : in_use t l) by exact (view_in_use t l _ W V).
        destruct (get_spec fo _ I (real_label fo l I U)) as (nd & fo1 & E & I1 & _ & St & _).
        assert (Lf : leaf nd (i, o)).
        { destruct St as [[Z _]|[(l' & El & U' & Hg)|(Z & _)]]; [destruct U; lia| |lia]. apply N2Z.inj in El. subst l'. unfold good in Hg. rewrite V in Hg.
          exists l, true. auto. }
        destruct (IH fo1 I1) as (bs & fo2 & E2 & La & Hb); [intros; apply H; now right|].
        exists ((src i, o) :: bs), fo2. rewrite E. cbn [bind]. rewrite (leaf_offset _ _ _ Lf). cbn [bind]. rewrite E2. split; [reflexivity|]. split.
        { clear -E La. induction La as [fo1|fo1 fo2 z n fo3 La IHL E2]; [eapply la_get; [apply la_refl|exact E]|]. eapply la_get; [apply IHL; exact E|exact E2]. }
        intros x o'. cbn [In]. rewrite Hb. split.
        * intros [Eq|(l1 & i1 & A & B & C)]; [inversion Eq; subst; exists l, i; auto|exists l1, i1; auto].
        * intros (l1 & i1 & [->|A] & B & C); [left; rewrite V in B; inversion B; subst; reflexivity|right; eauto].
      + destruct (IH fo I) as (bs & fo2 & E2 & La & Hb); [intros; apply H; now right|]. exists bs, fo2. split; [exact E2|]. split; [exact La|].
        intros x o'. rewrite Hb. split; intros (l1 & i1 & A & B & C).
        * exists l1, i1. split; [now right|auto].
        * destruct A as [->|A]; [congruence|]. exists l1, i1. auto.
  Qed.
End Forest.
