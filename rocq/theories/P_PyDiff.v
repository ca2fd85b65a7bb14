(** Proofs about the comparison of traces. *)
From Coq Require Import NArith ZArith List Bool Lia.
From Verif Require Import M_Base M_PyAnalysis M_PyTaints M_PyTree M_PyDiff S_PyTaints S_Diff P_Base P_PyTaints T_PyTaints.
From Verif Require P_PyTree.
Import ListNotations.
Open Scope N_scope.
Notation cover := P_PyTree.cover.
Notation covers := P_PyTree.covers.
Notation proper := P_PyTree.proper.
Notation apart_ivs := P_PyTree.apart.

Lemma same_refl x : same_input x x. Proof. now split. Qed.
Lemma same_symm x y : same_input x y -> same_input y x. Proof. intros [A B]. now split. Qed.
Lemma same_tr x y z : same_input x y -> same_input y z -> same_input x z.
Proof. intros [A B] [C D]. split; congruence. Qed.

(** ** The dictionaries *)
Definition differ (d : touches) : Prop := ForallOrdPairs (fun p q => ~ same_input (fst p) (fst q)) d.
Lemma get_some (d : touches) x s : dict_get input_eqb d x = Some s -> exists k, In (k, s) d /\ same_input x k.
Proof.
  induction d as [|[k v] d IH]; cbn [dict_get]; intros H; [discriminate|]. destruct (input_eqb k x) eqn:E.
  - apply input_eqb_iff in E. inversion H; subst. exists k. split; [now left|now apply same_symm].
  - destruct (IH H) as (k' & I & S). exists k'. split; [now right|exact S].
Qed.
Lemma get_none (d : touches) x : dict_get input_eqb d x = None -> forall k s, In (k, s) d -> ~ same_input x k.
Proof.
  induction d as [|[k v] d IH]; cbn [dict_get]; intros H k' s; [intros []|]. destruct (input_eqb k x) eqn:E; [discriminate|].
  intros [Q|I]; [|now apply (IH H k' s)]. inversion Q; subst. intros S. apply same_symm, input_eqb_iff in S. congruence.
Qed.
Lemma get_in (d : touches) x k s : differ d -> In (k, s) d -> same_input x k -> dict_get input_eqb d x = Some s.
Proof.
  induction d as [|[k' v] d IH]; cbn [dict_get]; intros D I S; [destruct I|]. inversion D as [|p r F D']; subst. destruct I as [Q|I].
  - inversion Q; subst. assert (E : input_eqb k x = true) by (apply input_eqb_iff; now apply same_symm). now rewrite E.
  - destruct (input_eqb k' x) eqn:E; [|now apply IH]. exfalso. rewrite Forall_forall in F. apply (F _ I). cbn [fst]. apply input_eqb_iff in E. exact (same_tr _ _ _ E S).
Qed.
(** Setting an entry replaces it, or appends one. *)
Lemma set_cases (d : touches) x v : differ d ->
  (exists d1 k s d2, d = d1 ++ (k, s) :: d2 /\ same_input k x /\ dict_get input_eqb d x = Some s /\ dict_set input_eqb d x v = d1 ++ (k, v) :: d2) \/
  ((forall k s, In (k, s) d -> ~ same_input k x) /\ dict_get input_eqb d x = None /\ dict_set input_eqb d x v = d ++ [(x, v)]).
Proof.
  induction d as [|[k s] d IH]; intros D.
  - right. split; [intros k s []|now split].
  - cbn [dict_get dict_set]. destruct (input_eqb k x) eqn:E.
    + left. exists [], k, s, d. apply input_eqb_iff in E. auto.
    + inversion D as [|p r F D']; subst. destruct (IH D') as [(d1 & k' & s' & d2 & Q & S & G & H)|(N & G & H)].
      * left. exists ((k, s) :: d1), k', s', d2. subst d. rewrite G, H. auto.
      * right. rewrite G, H. split; [|now split]. intros k' s' [Q|I]; [|now apply (N k' s')]. inversion Q; subst. intros S. apply input_eqb_iff in S. congruence.
Qed.
Lemma differ_mid (d1 d2 : touches) k s v : differ (d1 ++ (k, s) :: d2) -> differ (d1 ++ (k, v) :: d2).
Proof.
  induction d1 as [|q d1 IH]; cbn [app]; intros D; inversion D as [|p r F D']; subst; (constructor; [|solve [exact D'|now apply IH]]); [exact F|].
  rewrite Forall_forall in *. intros z I. apply in_app_or in I. destruct I as [I|[<-|I]].
  - apply F. apply in_or_app. now left.
  - refine (F (k, s) _). apply in_or_app. right. now left.
  - apply F. apply in_or_app. right. now right.
Qed.
Lemma differ_end (d : touches) x v : differ d -> (forall k s, In (k, s) d -> ~ same_input k x) -> differ (d ++ [(x, v)]).
Proof.
  induction d as [|[k s] d IH]; cbn [app]; intros D N; [repeat constructor|]. inversion D as [|p r F D']; subst. constructor.
  - rewrite Forall_forall in *. intros z I. apply in_app_or in I. destruct I as [I|[<-|[]]]; [now apply F|]. exact (N k s (or_introl eq_refl)).
  - apply IH; [exact D'|]. intros k' s' I. apply (N k' s'). now right.
Qed.

(** Byte [p] of [x] is in the intervals. *)
Definition held (d : touches) (x : py_input) (p : Z) : Prop := exists k s, In (k, s) d /\ same_input x k /\ cover s p.
Definition fine (d : touches) : Prop := differ d /\ forall k s, In (k, s) d -> proper s.
Lemma iv_add_in t i j : In j (iv_add t i) <-> In j t \/ j = i.
Proof.
  unfold iv_add. destruct (existsb (iv_eqb i) t) eqn:E.
  - apply existsb_exists in E. destruct E as (k & I & K). unfold iv_eqb in K. apply andb_true_iff in K. destruct K as [K K3]. apply andb_true_iff in K. destruct K as [K1 K2].
    apply Z.eqb_eq in K1, K2, K3. assert (i = k) by (destruct i, k; cbn in *; congruence). subst. intuition congruence.
  - rewrite in_app_iff. cbn. intuition congruence.
Qed.
Lemma touch_ok d r : fine d -> 0 < rg_length r -> exists d', touch d r = Ok d' /\ fine d' /\
  forall x p, held d' x p <-> held d x p \/ same_input x (rg_source r) /\ (Z.of_N (rg_offset r) <= p < Z.of_N (rg_offset r + rg_length r))%Z.
Proof.
  intros [D P] L. unfold touch. destruct (N.eqb_spec (rg_length r) 0); [lia|]. set (i := mkIv _ _ _). eexists. split; [reflexivity|].
  assert (Pi : (iv_begin i < iv_end i)%Z) by (subst i; cbn [iv_begin iv_end]; lia).
  assert (C : forall p, covers i p <-> (Z.of_N (rg_offset r) <= p < Z.of_N (rg_offset r + rg_length r))%Z) by (intros p; reflexivity).
  destruct (set_cases d (rg_source r) (iv_add (match dict_get input_eqb d (rg_source r) with Some s => s | None => [] end) i) D) as [(d1 & k & s & d2 & Q & S & G & H)|(N & G & H)]; rewrite H, G; clear H.
  - subst d. split; [split|].
    + exact (differ_mid _ _ _ _ _ D).
    + intros k' s' I. apply in_app_or in I. destruct I as [I|[E|I]]; [apply (P k' s'); apply in_or_app; now left| |apply (P k' s'); apply in_or_app; right; now right].
      inversion E; subst. intros j J. apply iv_add_in in J. destruct J as [J| ->]; [|exact Pi]. apply (P k' s); [apply in_or_app; right; now left|exact J].
    + intros x p. split.
      * intros (k' & s' & I & X & j & J & Cj). apply in_app_or in I. destruct I as [I|[E|I]].
        -- left. exists k', s'. split; [apply in_or_app; now left|]. split; [exact X|now exists j].
        -- inversion E; subst. apply iv_add_in in J. destruct J as [J| ->].
           ++ left. exists k', s. split; [apply in_or_app; right; now left|]. split; [exact X|now exists j].
           ++ right. split; [exact (same_tr _ _ _ X S)|now apply C].
        -- left. exists k', s'. split; [apply in_or_app; right; now right|]. split; [exact X|now exists j].
      * intros [(k' & s' & I & X & j & J & Cj)|[X Cp]].
        -- apply in_app_or in I. destruct I as [I|[E|I]].
           ++ exists k', s'. split; [apply in_or_app; now left|]. split; [exact X|now exists j].
           ++ inversion E; subst. exists k', (iv_add s' i). split; [apply in_or_app; right; now left|]. split; [exact X|]. exists j. split; [apply iv_add_in; now left|exact Cj].
           ++ exists k', s'. split; [apply in_or_app; right; now right|]. split; [exact X|now exists j].
        -- exists k, (iv_add s i). split; [apply in_or_app; right; now left|]. split; [exact (same_tr _ _ _ X (same_symm _ _ S))|]. exists i. split; [apply iv_add_in; now right|now apply C].
  - split; [split|].
    + apply differ_end; assumption.
    + intros k' s' I. apply in_app_or in I. destruct I as [I|[E|[]]]; [now apply (P k' s')|]. inversion E; subst. intros j J. apply iv_add_in in J. destruct J as [[]| ->]; exact Pi.
    + intros x p. split.
      * intros (k' & s' & I & X & j & J & Cj). apply in_app_or in I. destruct I as [I|[E|[]]].
        -- left. exists k', s'. split; [exact I|]. split; [exact X|now exists j].
        -- inversion E; subst. apply iv_add_in in J. destruct J as [[]| ->]. right. split; [exact X|now apply C].
      * intros [(k' & s' & I & X & j & J & Cj)|[X Cp]].
        -- exists k', s'. split; [apply in_or_app; now left|]. split; [exact X|now exists j].
        -- exists (rg_source r), (iv_add [] i). split; [apply in_or_app; right; now left|]. split; [exact X|]. exists i. split; [apply iv_add_in; now right|now apply C].
Qed.
Lemma touch_all_ok rs : Forall (fun r => 0 < rg_length r) rs -> forall d, fine d -> exists d', touch_all d rs = Ok d' /\ fine d' /\
  forall x p, held d' x p <-> held d x p \/ exists o, p = Z.of_N o /\ covered rs x o.
Proof.
  induction 1 as [|r rs L _ IH]; intros d F.
  - exists d. split; [reflexivity|]. split; [exact F|]. intros x p. split; [now left|]. intros [H|(o & _ & r & [] & _)]. exact H.
  - cbn [touch_all]. destruct (touch_ok d r F L) as (d1 & E1 & F1 & H1). rewrite E1. cbn [bind]. destruct (IH d1 F1) as (d2 & E2 & F2 & H2). exists d2. split; [exact E2|]. split; [exact F2|].
    intros x p. rewrite H2, H1. split.
    + intros [[H|[S H]]|(o & -> & q & I & W)]; [now left| |].
      * right. exists (Z.to_N p). split; [lia|]. exists r. split; [now left|]. split; [exact S|]. lia.
      * right. exists o. split; [reflexivity|]. exists q. split; [now right|exact W].
    + intros [H|(o & -> & q & [<-|I] & W)]; [now left; left| |].
      * left. right. destruct W as (S & W). split; [exact S|]. lia.
      * right. exists o. split; [reflexivity|]. now exists q.
Qed.
Lemma touched_by_ok t : forall d, fine d -> exists d', touched_by true d t = Ok d' /\ fine d' /\
  forall x p, held d' x p <-> held d x p \/ exists o, p = Z.of_N o /\ touched t x o.
Proof.
  induction t as [|f t IH]; intros d F.
  - exists d. split; [reflexivity|]. split; [exact F|]. intros x p. split; [now left|]. intros [H|(o & _ & f & [] & _)]. exact H.
  - cbn [touched_by]. destruct (C63_regions (f_taints f)) as (C & _ & L). cbv zeta in *. destruct (touch_all_ok _ L d F) as (d1 & E1 & F1 & H1). rewrite E1. cbn [bind].
    destruct (IH d1 F1) as (d2 & E2 & F2 & H2). exists d2. split; [exact E2|]. split; [exact F2|]. intros x p. rewrite H2, H1. split.
    + intros [[H|(o & -> & K)]|(o & -> & g & I & K)]; [now left| |].
      * right. exists o. split; [reflexivity|]. exists f. split; [now left|now apply C].
      * right. exists o. split; [reflexivity|]. exists g. split; [now right|exact K].
    + intros [H|(o & -> & g & [<-|I] & K)]; [now left; left| |].
      * left. right. exists o. split; [reflexivity|now apply C].
      * right. exists o. split; [reflexivity|]. now exists g.
Qed.
Lemma fine_nil : fine []. Proof. split; [constructor|intros k s []]. Qed.

(** ** Merging *)
Lemma merged_in d k s : In (k, s) (merged d) -> exists s0, In (k, s0) d /\ s = iv_merge true s0.
Proof. unfold merged. rewrite in_map_iff. intros ([k' s'] & E & I). inversion E; subst. now exists s'. Qed.
Lemma merged_ok d : fine d -> fine (merged d) /\ (forall x p, held (merged d) x p <-> held d x p) /\ forall k s, In (k, s) (merged d) -> apart_ivs s.
Proof.
  intros [D P]. split; [split|split].
  - clear P. unfold merged. induction D as [|p l F D IH]; cbn [map]; constructor; [|exact IH]. rewrite Forall_forall in *. intros q I. apply in_map_iff in I. destruct I as (q' & <- & I). cbn [fst]. now apply F.
  - intros k s I. apply merged_in in I. destruct I as (s0 & I & ->). now apply P_PyTree.merge_ok, (P k s0).
  - intros x p. split.
    + intros (k & s & I & X & C). apply merged_in in I. destruct I as (s0 & I & ->). exists k, s0. split; [exact I|]. split; [exact X|]. now apply (P_PyTree.merge_ok true s0 (P k s0 I)).
    + intros (k & s & I & X & C). exists k, (iv_merge true s). split; [unfold merged; apply in_map_iff; now exists (k, s)|]. split; [exact X|]. now apply (P_PyTree.merge_ok true s (P k s I)).
  - intros k s I. apply merged_in in I. destruct I as (s0 & I & ->). now apply P_PyTree.merge_ok, (P k s0).
Qed.

(** ** Removal *)
Definition meets (i j : interval) : Prop := (iv_begin i < iv_end j /\ iv_begin j < iv_end i)%Z.
Lemma remove_overlap_in t b e i : (b < e)%Z -> (In i (remove_overlap t b e) <-> In i t /\ ~ (iv_begin i < e /\ b < iv_end i)%Z).
Proof.
  intros L. unfold remove_overlap. destruct (Z.ltb_spec b e); [|lia]. rewrite filter_In, negb_true_iff, andb_false_iff, Z.ltb_ge, Z.ltb_ge. split; intros [A B]; (split; [exact A|lia]).
Qed.
Lemma remove_all_in s : proper s -> forall t i, In i (remove_all t s) <-> In i t /\ forall j, In j s -> ~ meets i j.
Proof.
  induction s as [|j s IH]; intros P t i; unfold remove_all; cbn [fold_left].
  - split; [intros H; split; [exact H|intros j []]|tauto].
  - fold (remove_all (remove_overlap t (iv_begin j) (iv_end j)) s). rewrite IH by (intros k K; apply P; now right). rewrite remove_overlap_in by (apply P; now left). unfold meets. split.
    + intros [[A B] C]. split; [exact A|]. intros k [<-|K]; [exact B|now apply C].
    + intros [A B]. split; [split; [exact A|]|]; [apply B; now left|intros k K; apply B; now right].
Qed.
Lemma meets_sym i j : meets i j <-> meets j i. Proof. unfold meets. tauto. Qed.
Lemma meets_point i j : (iv_begin i < iv_end i)%Z -> (iv_begin j < iv_end j)%Z -> meets i j -> exists p, covers i p /\ covers j p.
Proof. unfold meets. intros A B [C D]. exists (Z.max (iv_begin i) (iv_begin j)). unfold P_PyTree.covers. lia. Qed.

Lemma only_in d1 d2 k s : In (k, s) (only d1 d2) <->
  (exists s1 s2, In (k, s1) d1 /\ dict_get input_eqb d2 k = Some s2 /\ s = remove_all s1 s2) \/ (In (k, s) d1 /\ dict_get input_eqb d2 k = None).
Proof.
  unfold only. rewrite in_app_iff, !in_flat_map. split.
  - intros [((k' & s') & I & J)|((k' & s') & I & J)]; cbn [fst snd] in J.
    + destruct (dict_get input_eqb d2 k') eqn:E; [|destruct J]. destruct J as [J|[]]. inversion J; subst. left. eauto.
    + destruct (dict_get input_eqb d2 k') eqn:E; [destruct J|]. destruct J as [J|[]]. inversion J; subst. right. auto.
  - intros [(s1 & s2 & I & E & ->)|[I E]].
    + left. exists (k, s1). split; [exact I|]. cbn [fst snd]. rewrite E. now left.
    + right. exists (k, s). split; [exact I|]. cbn [fst snd]. rewrite E. now left.
Qed.
Lemma get_congr (d : touches) x y : differ d -> same_input x y -> dict_get input_eqb d x = dict_get input_eqb d y.
Proof.
  intros D S. destruct (dict_get input_eqb d x) as [s|] eqn:E.
  - destruct (get_some _ _ _ E) as (k & I & X). symmetry. apply (get_in d y k s D I). exact (same_tr _ _ _ (same_symm _ _ S) X).
  - destruct (dict_get input_eqb d y) as [s|] eqn:F; [|reflexivity]. destruct (get_some _ _ _ F) as (k & I & X). exfalso. exact (get_none _ _ E k s I (same_tr _ _ _ S X)).
Qed.
(** What is left: the intervals that meet none of the other. *)
Lemma only_interval d1 d2 : fine d1 -> fine d2 -> forall x i,
  (exists k s, In (k, s) (only d1 d2) /\ same_input x k /\ In i s) <->
  (exists k s, In (k, s) d1 /\ same_input x k /\ In i s) /\ forall k s j, In (k, s) d2 -> same_input x k -> In j s -> ~ meets i j.
Proof.
  intros [D1 P1] [D2 P2] x i. split.
  - intros (k & s & I & X & J). apply only_in in I. destruct I as [(s1 & s2 & I & E & ->)|[I E]].
    + destruct (get_some _ _ _ E) as (k2 & I2 & X2). apply (remove_all_in s2 (P2 _ _ I2)) in J. destruct J as [J M]. split; [now exists k, s1|].
      intros k' s' j I' X' J'. assert (Q := get_in d2 k k' s' D2 I' (same_tr _ _ _ (same_symm _ _ X) X')). rewrite E in Q. inversion Q; subst. now apply M.
    + split; [now exists k, s|]. intros k' s' j I' X' J'. exfalso. exact (get_none _ _ E k' s' I' (same_tr _ _ _ (same_symm _ _ X) X')).
  - intros [(k & s & I & X & J) M]. destruct (dict_get input_eqb d2 k) as [s2|] eqn:E.
    + destruct (get_some _ _ _ E) as (k2 & I2 & X2). exists k, (remove_all s s2). split; [apply only_in; left; eauto|]. split; [exact X|].
      apply (remove_all_in s2 (P2 _ _ I2)). split; [exact J|]. intros j Jj. apply (M k2 s2 j I2); [exact (same_tr _ _ _ X X2)|exact Jj].
    + exists k, s. split; [apply only_in; right; auto|]. now split.
Qed.
Lemma assertion_ok d1 d2 : fine d1 -> fine d2 -> assertion d1 d2 = true.
Proof.
  intros [D1 P1] [D2 P2]. unfold assertion. apply forallb_forall. intros [k s] I. cbn [fst snd]. destruct (dict_get input_eqb d2 k) as [s2|] eqn:E; [|reflexivity].
  destruct (get_some _ _ _ E) as (k2 & I2 & X2). apply negb_true_iff. destruct (existsb _ (remove_all s s2)) eqn:F; [|reflexivity]. exfalso.
  apply existsb_exists in F. destruct F as (i & Ii & F). apply existsb_exists in F. destruct F as (j & Ij & F).
  assert (i = j). { unfold iv_eqb in F. apply andb_true_iff in F. destruct F as [F F3]. apply andb_true_iff in F. destruct F as [F1 F2]. apply Z.eqb_eq in F1, F2, F3. destruct i, j; cbn in *; congruence. }
  subst j. apply (remove_all_in s2 (P2 _ _ I2)) in Ii. apply (remove_all_in s (P1 _ _ I)) in Ij. destruct Ii as [Ii Mi], Ij as [Ij Mj]. apply (Mi i Ij). assert (B := P1 _ _ I i Ii). unfold meets. lia.
Qed.

(** ** The whole *)
Lemma touched_intervals t : exists d, touched_by true [] t = Ok d /\ fine (merged d) /\ (forall k s, In (k, s) (merged d) -> apart_ivs s) /\
  forall x p, held (merged d) x p <-> exists o, p = Z.of_N o /\ touched t x o.
Proof.
  destruct (touched_by_ok t [] fine_nil) as (d & E & F & H). exists d. split; [exact E|]. destruct (merged_ok d F) as (Fm & Hm & A). split; [exact Fm|]. split; [exact A|].
  intros x p. rewrite Hm, H. split; [|now right]. intros [(k & s & [] & _)|K]. exact K.
Qed.
Lemma diff_bytes_ok t1 t2 : exists a b, touched_by true [] t1 = Ok a /\ touched_by true [] t2 = Ok b /\
  diff_bytes true t1 t2 = Ok (only (merged a) (merged b), only (merged b) (merged a)).
Proof.
  destruct (touched_intervals t1) as (a & Ea & Fa & _). destruct (touched_intervals t2) as (b & Eb & Fb & _). exists a, b. split; [exact Ea|]. split; [exact Eb|].
  unfold diff_bytes. rewrite Ea, Eb. cbn [bind]. cbv zeta. now rewrite (assertion_ok _ _ Fa Fb).
Qed.
Lemma chunks_covered d x o : (forall k s i, In (k, s) d -> In i s -> (0 <= iv_begin i)%Z) ->
  (covered (chunks d) x o <-> exists i, (exists k s, In (k, s) d /\ same_input x k /\ In i s) /\ covers i (Z.of_N o)).
Proof.
  intros B. unfold chunks. split.
  - intros (r & I & W). apply in_flat_map in I. destruct I as ((k & s) & I & J). cbn [fst snd] in J. apply in_map_iff in J. destruct J as (i & <- & J). apply (proj1 (P_PyTree.sorted_in _ _)) in J.
    assert (N := B k s i I J). destruct W as (X & W). cbn [rg_source rg_offset rg_length] in *. exists i. split; [now exists k, s|]. unfold P_PyTree.covers. lia.
  - intros (i & (k & s & I & X & J) & C). assert (N := B k s i I J). unfold P_PyTree.covers in C. exists (mkRegion k (Z.to_N (iv_begin i)) (Z.to_N (iv_end i - iv_begin i))). split.
    + apply in_flat_map. exists (k, s). split; [exact I|]. cbn [fst snd]. apply in_map_iff. exists i. split; [reflexivity|]. apply (proj2 (P_PyTree.sorted_in _ _)). exact J.
    + split; [exact X|]. cbn [rg_offset rg_length]. lia.
Qed.
Lemma touched_nonneg t d : touched_by true [] t = Ok d -> forall k s i, In (k, s) (merged d) -> In i s -> (0 <= iv_begin i)%Z.
Proof.
  intros E k s i I J. destruct (touched_intervals t) as (d' & E' & F & _ & H). rewrite E in E'. inversion E'; subst d'. destruct F as [_ P]. assert (L := P k s I i J).
  destruct (proj1 (H k (iv_begin i))) as (o & Q & _); [|lia]. exists k, s. split; [exact I|]. split; [apply same_refl|]. exists i. split; [exact J|]. unfold P_PyTree.covers. lia.
Qed.
Lemma only_sub d1 d2 k s i : fine d1 -> fine d2 -> In (k, s) (only d1 d2) -> In i s -> exists s1, In (k, s1) d1 /\ In i s1.
Proof.
  intros [D1 P1] [D2 P2] I J. apply only_in in I. destruct I as [(s1 & s2 & I & E & ->)|[I E]]; [|eauto]. destruct (get_some _ _ _ E) as (k2 & I2 & _). apply (remove_all_in s2 (P2 _ _ I2)) in J. destruct J as [J _]. eauto.
Qed.
(** One direction of the difference. *)
Lemma only_chunks t1 t2 a b : touched_by true [] t1 = Ok a -> touched_by true [] t2 = Ok b -> forall x o,
  covered (chunks (only (merged a) (merged b))) x o <->
  exists i, (exists k s, In (k, s) (merged a) /\ same_input x k /\ In i s) /\ covers i (Z.of_N o) /\
    forall k s j, In (k, s) (merged b) -> same_input x k -> In j s -> ~ meets i j.
Proof.
  intros Ea Eb x o. destruct (touched_intervals t1) as (a' & Ea' & Fa & _). rewrite Ea in Ea'. inversion Ea'; subst a'. destruct (touched_intervals t2) as (b' & Eb' & Fb & _). rewrite Eb in Eb'. inversion Eb'; subst b'.
  rewrite chunks_covered.
  - split.
    + intros (i & I & C). apply (proj1 (only_interval _ _ Fa Fb x i)) in I. destruct I as [I M]. eauto.
    + intros (i & I & C & M). exists i. split; [|exact C]. apply only_interval; auto.
  - intros k s i I J. destruct (only_sub _ _ _ _ _ Fa Fb I J) as (s1 & I1 & J1). exact (touched_nonneg _ _ Ea k s1 i I1 J1).
Qed.
Lemma only_sound t1 t2 a b : touched_by true [] t1 = Ok a -> touched_by true [] t2 = Ok b -> forall x o,
  covered (chunks (only (merged a) (merged b))) x o -> touched t1 x o /\ ~ touched t2 x o.
Proof.
  intros Ea Eb x o H. apply (proj1 (only_chunks t1 t2 a b Ea Eb x o)) in H. destruct H as (i & (k & s & I & X & J) & C & M).
  destruct (touched_intervals t1) as (a' & Ea' & Fa & _ & Ha). rewrite Ea in Ea'. inversion Ea'; subst a'. destruct (touched_intervals t2) as (b' & Eb' & Fb & _ & Hb). rewrite Eb in Eb'. inversion Eb'; subst b'. split.
  - destruct (proj1 (Ha x (Z.of_N o))) as (o' & Q & T); [|assert (o = o') by lia; now subst o']. exists k, s. split; [exact I|]. split; [exact X|now exists i].
  - intros T. destruct (proj2 (Hb x (Z.of_N o))) as (k2 & s2 & I2 & X2 & j & J2 & C2); [now exists o|]. apply (M k2 s2 j I2 X2 J2). unfold meets, P_PyTree.covers in *. lia.
Qed.
Lemma only_complete t1 t2 a b : touched_by true [] t1 = Ok a -> touched_by true [] t2 = Ok b -> forall x o l u, l <= o < u ->
  (forall q, q + 1 = l -> ~ touched t1 x q) -> ~ touched t1 x u -> (forall q, l <= q < u -> ~ touched t2 x q) -> touched t1 x o ->
  covered (chunks (only (merged a) (merged b))) x o.
Proof.
  intros Ea Eb x o l u Lu Nl Nu N2 T. apply (proj2 (only_chunks t1 t2 a b Ea Eb x o)).
  destruct (touched_intervals t1) as (a' & Ea' & Fa & _ & Ha). rewrite Ea in Ea'. inversion Ea'; subst a'. destruct (touched_intervals t2) as (b' & Eb' & Fb & _ & Hb). rewrite Eb in Eb'. inversion Eb'; subst b'.
  destruct (proj2 (Ha x (Z.of_N o))) as (k & s & I & X & i & J & C); [now exists o|]. exists i. split; [now exists k, s|]. split; [exact C|].
  assert (In_t1 : forall p, covers i p -> exists q, p = Z.of_N q /\ touched t1 x q). { intros p Cp. apply Ha. exists k, s. split; [exact I|]. split; [exact X|now exists i]. }
  intros k2 s2 j I2 X2 J2 M. destruct (meets_point i j) as (p & P1 & P2); [exact (proj2 Fa k s I i J)|exact (proj2 Fb k2 s2 I2 j J2)|exact M|].
  destruct (In_t1 p P1) as (q & -> & Tq). assert (Tq2 : touched t2 x q). { destruct (proj1 (Hb x (Z.of_N q))) as (q' & Q & T'); [|assert (q = q') by lia; now subst q']. exists k2, s2. split; [exact I2|]. split; [exact X2|now exists j]. }
  unfold P_PyTree.covers in *. destruct (N.lt_ge_cases q l) as [B|B].
  - destruct (In_t1 (Z.of_N (l - 1))) as (q' & Q & T'); [unfold P_PyTree.covers; lia|]. apply (Nl q'); [lia|exact T'].
  - destruct (N.lt_ge_cases q u) as [B2|B2]; [now apply (N2 q)|]. destruct (In_t1 (Z.of_N u)) as (q' & Q & T'); [unfold P_PyTree.covers; lia|]. apply Nu. assert (u = q') by lia. now subst q'.
Qed.

(** ** Functions *)
Lemma func_set_in l : forall f, In f (func_set l) -> In f l.
Proof.
  unfold func_set. assert (G : forall s f, In f (fold_left (fun s f => if existsb (func_eqb f) s then s else s ++ [f]) l s) -> In f s \/ In f l); [|intros f H; destruct (G [] f H) as [[]|K]; exact K].
  induction l as [|g l IH]; cbn [fold_left]; intros s f H; [now left|]. destruct (IH _ _ H) as [K|K]; [|right; now right].
  destruct (existsb (func_eqb g) s); [now left|]. apply in_app_or in K. destruct K as [K|[->|[]]]; [now left|right; now left].
Qed.
Lemma func_set_runs l i : runs (func_set l) i <-> runs l i.
Proof.
  split; [intros (f & I & E); exists f; split; [now apply func_set_in|exact E]|].
  unfold func_set. assert (G : forall s, runs s i \/ runs l i -> runs (fold_left (fun s f => if existsb (func_eqb f) s then s else s ++ [f]) l s) i); [|intros H; apply G; now right].
  induction l as [|g l IH]; cbn [fold_left]; intros s H; [destruct H as [H|(f & [] & _)]; exact H|]. apply IH. destruct H as [(f & I & E)|(f & [->|I] & E)].
  - left. destruct (existsb (func_eqb g) s); exists f; (split; [try (apply in_or_app; left); exact I|exact E]).
  - left. destruct (existsb (func_eqb f) s) eqn:X; [|exists f; split; [apply in_or_app; right; now left|exact E]]. apply existsb_exists in X. destruct X as (h & Ih & Eh). apply N.eqb_eq in Eh. exists h. split; [exact Ih|congruence].
  - right. now exists f.
Qed.
Lemma func_set_nodup l : NoDup (map f_index (func_set l)).
Proof.
  unfold func_set. assert (G : forall s, NoDup (map f_index s) -> NoDup (map f_index (fold_left (fun s f => if existsb (func_eqb f) s then s else s ++ [f]) l s))); [|apply G; constructor].
  induction l as [|g l IH]; cbn [fold_left]; intros s H; [exact H|]. apply IH. destruct (existsb (func_eqb g) s) eqn:X; [exact H|]. rewrite map_app. cbn [map]. clear IH.
  assert (K : ~ In (f_index g) (map f_index s)). { intros I. apply in_map_iff in I. destruct I as (h & E & I). assert (existsb (func_eqb g) s = true); [|congruence]. apply existsb_exists. exists h. split; [exact I|]. apply N.eqb_eq. congruence. }
  clear X. induction s as [|h s IH]; cbn [map app]; [repeat constructor; intros []|]. inversion H as [|y z A B]; subst. constructor.
  - intros I. apply in_app_or in I. destruct I as [I|[E|[]]]; [exact (A I)|]. apply K. left. congruence.
  - apply IH; [exact B|]. intros I. apply K. now right.
Qed.
Lemma NoDup_map_filter {A B} (f : A -> B) (g : A -> bool) l : NoDup (map f l) -> NoDup (map f (filter g l)).
Proof.
  induction l as [|x l IH]; cbn [map filter]; intros H; [constructor|]. inversion H as [|y z K L]; subst. destruct (g x); cbn [map]; [|now apply IH]. constructor; [|now apply IH].
  intros I. apply K. apply in_map_iff in I. destruct I as (w & E & I). apply filter_In in I. apply in_map_iff. exists w. tauto.
Qed.
Lemma minus_in a b f : In f (func_minus a b) <-> In f a /\ ~ runs b (f_index f).
Proof.
  unfold func_minus. rewrite filter_In, negb_true_iff. split; intros [A B]; (split; [exact A|]).
  - intros (g & I & E). assert (existsb (func_eqb f) b = true); [|congruence]. apply existsb_exists. exists g. split; [exact I|]. apply N.eqb_eq. congruence.
  - destruct (existsb (func_eqb f) b) eqn:X; [|reflexivity]. exfalso. apply B. apply existsb_exists in X. destruct X as (g & I & E). apply N.eqb_eq in E. exists g. split; [exact I|congruence].
Qed.
Lemma only_first_in t1 t2 f : In f (only_in_first t1 t2) -> In f t1 /\ ~ runs t2 (f_index f).
Proof. unfold only_in_first. intros H. apply minus_in in H. destruct H as [A B]. split; [now apply func_set_in|]. intros R. apply B. now apply func_set_runs. Qed.
Lemma only_first_runs t1 t2 i : runs (only_in_first t1 t2) i <-> runs t1 i /\ ~ runs t2 i.
Proof.
  split.
  - intros (f & I & <-). destruct (only_first_in _ _ _ I) as [A B]. split; [now exists f|exact B].
  - intros [A B]. apply func_set_runs in A. destruct A as (f & I & <-). exists f. split; [|reflexivity]. unfold only_in_first. apply minus_in. split; [exact I|]. intros R. apply B. exact (proj1 (func_set_runs _ _) R).
Qed.
Lemma only_second_swap t1 t2 : only_in_second t1 t2 = only_in_first t2 t1. Proof. reflexivity. Qed.

Lemma name_set_spec l : NoDup (name_set l) /\ forall n, In n (name_set l) <-> In n l.
Proof.
  unfold name_set. assert (G : forall s, NoDup s -> NoDup (fold_left (fun s n => if existsb (N.eqb n) s then s else s ++ [n]) l s) /\
    forall n, In n (fold_left (fun s n => if existsb (N.eqb n) s then s else s ++ [n]) l s) <-> In n s \/ In n l).
  - induction l as [|m l IH]; cbn [fold_left]; intros s H; [split; [exact H|intros n; cbn; tauto]|]. destruct (existsb (N.eqb m) s) eqn:X.
    + destruct (IH s H) as [A B]. split; [exact A|]. intros n. rewrite B. cbn [In]. apply existsb_exists in X. destruct X as (q & I & E). apply N.eqb_eq in E. subst q. intuition congruence.
    + destruct (IH (s ++ [m])) as [A B].
      * assert (K : ~ In m s). { intros I. assert (existsb (N.eqb m) s = true); [|congruence]. apply existsb_exists. exists m. split; [exact I|apply N.eqb_refl]. }
        clear - H K. induction s as [|h s IH]; cbn [app]; [repeat constructor; intros []|]. inversion H as [|y z A B]; subst. constructor.
        -- intros I. apply in_app_or in I. destruct I as [I|[E|[]]]; [exact (A I)|]. apply K. now left.
        -- apply IH; [exact B|]. intros I. apply K. now right.
      * split; [exact A|]. intros n. rewrite B, in_app_iff. cbn [In]. intuition congruence.
  - destruct (G [] (NoDup_nil _)) as [A B]. split; [exact A|]. intros n. rewrite B. cbn. tauto.
Qed.
Lemma shared_in t1 t2 n : same_program t1 t2 -> (In n (shared_names t1 t2) <-> runs_named t1 n /\ runs_named t2 n).
Proof.
  intros S. unfold shared_names. rewrite (proj2 (name_set_spec _)), filter_In, negb_true_iff, in_map_iff. split.
  - intros [(f & E & I) X]. split; [now exists f|]. assert (R : runs t2 (f_index f)).
    { destruct (existsb (func_eqb f) t2) eqn:Y.
      - apply existsb_exists in Y. destruct Y as (g & Ig & Eg). apply N.eqb_eq in Eg. exists g. split; [exact Ig|congruence].
      - exfalso. destruct (proj2 (only_first_runs t1 t2 (f_index f))) as (g & Ig & Eg).
        + split; [now exists f|]. intros (g & Ig & Eg). assert (existsb (func_eqb f) t2 = true); [|congruence]. apply existsb_exists. exists g. split; [exact Ig|]. apply N.eqb_eq. congruence.
        + assert (K : existsb (N.eqb n) (map f_name (only_in_first t1 t2 ++ only_in_second t1 t2)) = true); [|congruence]. apply existsb_exists. exists n. split; [|apply N.eqb_refl]. apply in_map_iff. exists g. split; [|apply in_or_app; now left].
          rewrite <- E. apply (S g f); [apply in_or_app; left; exact (proj1 (only_first_in _ _ _ Ig))|apply in_or_app; now left|exact Eg]. }
    destruct R as (g & Ig & Eg). exists g. split; [exact Ig|]. rewrite <- E. apply (S g f); [apply in_or_app; now right|apply in_or_app; now left|exact Eg].
  - intros [(f & I & E) (g & Ig & Eg)]. split; [now exists f|]. destruct (existsb _ _) eqn:X; [|reflexivity]. exfalso. apply existsb_exists in X. destruct X as (m & Im & Em). apply N.eqb_eq in Em. subst m.
    apply in_map_iff in Im. destruct Im as (h & Eh & Ih). apply in_app_or in Ih. destruct Ih as [Ih|Ih].
    + apply only_first_in in Ih. destruct Ih as [A B]. apply B. exists g. split; [exact Ig|]. apply (S g h); [apply in_or_app; now right|apply in_or_app; now left|congruence].
    + rewrite only_second_swap in Ih. apply only_first_in in Ih. destruct Ih as [A B]. apply B. exists f. split; [exact I|]. apply (S f h); [apply in_or_app; now left|apply in_or_app; now right|congruence].
Qed.
Lemma get_function_ok t n : runs_named t n -> exists f, get_function t n = Ok f /\ In f t /\ f_name f = n.
Proof.
  intros (f & I & E). unfold get_function. destruct (find _ t) as [g|] eqn:F.
  - apply find_some in F. destruct F as [A B]. apply N.eqb_eq in B. eauto.
  - exfalso. assert (K := find_none _ _ F f I). cbn in K. apply N.eqb_neq in K. congruence.
Qed.
Lemma diff_names_ok t1 t2 ns : (forall n, In n ns -> runs_named t1 n /\ runs_named t2 n) -> exists r, diff_names t1 t2 ns = Ok r /\ map fst r = ns /\
  forall n d, In (n, d) r -> exists f g, In f t1 /\ f_name f = n /\ In g t2 /\ f_name g = n /\ d = taint_diff (taints_new (f_taints f)) (taints_new (f_taints g)).
Proof.
  induction ns as [|n ns IH]; intros H; [exists []; split; [reflexivity|]; split; [reflexivity|intros n d []]|]. cbn [diff_names].
  destruct (H n (or_introl eq_refl)) as [A B]. destruct (get_function_ok t1 n A) as (f & Ef & If & Nf). destruct (get_function_ok t2 n B) as (g & Eg & Ig & Ng). rewrite Ef, Eg. cbn [bind].
  destruct IH as (r & E & M & Q); [intros m I; apply H; now right|]. rewrite E. cbn [bind]. eexists. split; [reflexivity|]. cbn [map fst]. split; [now rewrite M|]. intros m d [X|I]; [|now apply Q]. inversion X; subst. exists f, g. auto.
Qed.

(** ** The order of the chunks *)
Lemma FOP_app {A} (R : A -> A -> Prop) l m : ForallOrdPairs R l -> ForallOrdPairs R m -> (forall x y, In x l -> In y m -> R x y) -> ForallOrdPairs R (l ++ m).
Proof.
  induction 1 as [|x l F D IH]; intros M C; cbn [app]; [exact M|]. constructor.
  - rewrite Forall_forall in *. intros y I. apply in_app_or in I. destruct I as [I|I]; [now apply F|]. apply C; [now left|exact I].
  - apply IH; [exact M|]. intros a b Ia Ib. apply C; [now right|exact Ib].
Qed.
Lemma FOP_flat {A B} (Q : A -> A -> Prop) (R : B -> B -> Prop) (f : A -> list B) l : ForallOrdPairs Q l ->
  (forall p q x y, In p l -> In q l -> Q p q -> In x (f p) -> In y (f q) -> R x y) -> (forall p, In p l -> ForallOrdPairs R (f p)) -> ForallOrdPairs R (flat_map f l).
Proof.
  induction 1 as [|p l F D IH]; intros H1 H2; cbn [flat_map]; [constructor|]. apply FOP_app.
  - apply H2. now left.
  - apply IH; [intros a b x y Ia Ib; apply H1; now right|intros a Ia; apply H2; now right].
  - intros x y Ix Iy. apply in_flat_map in Iy. destruct Iy as (q & Iq & Iy). rewrite Forall_forall in F. apply (H1 p q); [now left|now right|now apply F|exact Ix|exact Iy].
Qed.
Lemma only_differ d1 d2 : fine d1 -> fine d2 -> differ (only d1 d2).
Proof.
  intros [D1 P1] [D2 P2]. unfold differ, only. apply FOP_app.
  - apply (FOP_flat _ _ _ _ D1).
    + intros p q x y _ _ N Ix Iy. destruct (dict_get input_eqb d2 (fst p)), (dict_get input_eqb d2 (fst q)); try (now destruct Ix); try (now destruct Iy). destruct Ix as [<-|[]], Iy as [<-|[]]. exact N.
    + intros p _. destruct (dict_get input_eqb d2 (fst p)); repeat constructor.
  - apply (FOP_flat _ _ _ _ D1).
    + intros p q x y _ _ N Ix Iy. destruct (dict_get input_eqb d2 (fst p)), (dict_get input_eqb d2 (fst q)); try (now destruct Ix); try (now destruct Iy). destruct Ix as [<-|[]], Iy as [<-|[]]. exact N.
    + intros p _. destruct (dict_get input_eqb d2 (fst p)); repeat constructor.
  - intros x y Ix Iy S. apply in_flat_map in Ix. destruct Ix as (p & _ & Ix). apply in_flat_map in Iy. destruct Iy as (q & _ & Iy).
    destruct (dict_get input_eqb d2 (fst p)) eqn:E; [|destruct Ix]. destruct Ix as [<-|[]]. destruct (dict_get input_eqb d2 (fst q)) eqn:F; [destruct Iy|]. destruct Iy as [<-|[]]. cbn [fst] in S. rewrite (get_congr d2 _ _ D2 S) in E. congruence.
Qed.
Lemma apart_filter g t : apart_ivs t -> apart_ivs (filter g t).
Proof.
  induction t as [|i t IH]; [exact (fun H => H)|]. intros [A B]. cbn [filter]. destruct (g i); [|now apply IH]. split; [|now apply IH]. intros j J. apply filter_In in J. now apply A.
Qed.
Lemma apart_remove s : forall t, apart_ivs t -> apart_ivs (remove_all t s).
Proof.
  induction s as [|j s IH]; intros t A; [exact A|]. unfold remove_all. cbn [fold_left]. apply IH. unfold remove_overlap. destruct (iv_begin j <? iv_end j)%Z; [now apply apart_filter|exact A].
Qed.
Lemma sorted_apart t : proper t -> apart_ivs t -> iv_sorted t = t.
Proof.
  induction t as [|i t IH]; intros P A; [reflexivity|]. destruct A as [A B]. unfold iv_sorted. cbn [fold_right]. fold (iv_sorted t). rewrite IH; [|intros j J; apply P; now right|exact B].
  destruct t as [|j t]; [reflexivity|]. cbn [insert_iv]. assert (K := A j (or_introl eq_refl)). assert (L := P i (or_introl eq_refl)). unfold iv_leb. destruct (Z.eqb_spec (iv_begin i) (iv_begin j)); [lia|]. destruct (Z.ltb_spec (iv_begin i) (iv_begin j)); [reflexivity|lia].
Qed.
Lemma only_parts d1 d2 : fine d1 -> fine d2 -> (forall k s, In (k, s) d1 -> apart_ivs s) -> forall k s, In (k, s) (only d1 d2) -> proper s /\ apart_ivs s.
Proof.
  intros [D1 P1] [D2 P2] A k s I. apply only_in in I. destruct I as [(s1 & s2 & I & E & ->)|[I E]]; [|split; [exact (P1 k s I)|exact (A k s I)]].
  destruct (get_some _ _ _ E) as (k2 & I2 & _). split; [|apply apart_remove; exact (A k s1 I)]. intros i J. apply (remove_all_in s2 (P2 _ _ I2)) in J. exact (P1 k s1 I i (proj1 J)).
Qed.
Lemma chunks_order t1 t2 a b : touched_by true [] t1 = Ok a -> touched_by true [] t2 = Ok b ->
  ForallOrdPairs (fun r1 r2 => same_input (rg_source r1) (rg_source r2) -> rg_offset r1 + rg_length r1 <= rg_offset r2) (chunks (only (merged a) (merged b))) /\
  Forall (fun r => 0 < rg_length r) (chunks (only (merged a) (merged b))).
Proof.
  intros Ea Eb. destruct (touched_intervals t1) as (a' & Ea' & Fa & Aa & _). rewrite Ea in Ea'. inversion Ea'; subst a'. destruct (touched_intervals t2) as (b' & Eb' & Fb & _). rewrite Eb in Eb'. inversion Eb'; subst b'.
  assert (Q := only_parts _ _ Fa Fb Aa). assert (D := only_differ _ _ Fa Fb).
  assert (N : forall k s i, In (k, s) (only (merged a) (merged b)) -> In i s -> (0 <= iv_begin i)%Z). { intros k s i I J. destruct (only_sub _ _ _ _ _ Fa Fb I J) as (s1 & I1 & J1). exact (touched_nonneg _ _ Ea k s1 i I1 J1). }
  split.
  - unfold chunks. apply (FOP_flat _ _ _ _ D).
    + intros p q x y _ _ S Ix Iy. apply in_map_iff in Ix. destruct Ix as (i & <- & _). apply in_map_iff in Iy. destruct Iy as (j & <- & _). cbn [rg_source]. intros X. now destruct (S X).
    + intros [k s] I. cbn [fst snd]. destruct (Q k s I) as [P A]. rewrite (sorted_apart s P A). assert (N' := fun i J => N k s i I J). clear - P A N'. induction s as [|i s IH]; cbn [map]; [constructor|]. destruct A as [A B]. constructor.
      * rewrite Forall_forall. intros r J. apply in_map_iff in J. destruct J as (j & <- & J). cbn [rg_offset rg_length rg_source]. intros _. assert (K := A j J). assert (L := P i (or_introl eq_refl)). assert (M := N' i (or_introl eq_refl)). lia.
      * apply IH; [intros j J; apply P; now right|exact B|intros j J; apply N'; now right].
  - rewrite Forall_forall. intros r I. unfold chunks in I. apply in_flat_map in I. destruct I as ([k s] & I & J). cbn [fst snd] in J. apply in_map_iff in J. destruct J as (i & <- & J). apply (proj1 (P_PyTree.sorted_in _ _)) in J. cbn [rg_length]. assert (L := proj1 (Q k s I) i J). lia.
Qed.
Lemma has_chunks_iff d : has_chunks d = true <-> chunks d <> [].
Proof.
  unfold has_chunks, chunks. rewrite existsb_exists. split.
  - intros ([k s] & I & H) E. cbn [snd] in H. destruct s as [|i s]; [discriminate|]. assert (K : In (mkRegion k (Z.to_N (iv_begin i)) (Z.to_N (iv_end i - iv_begin i))) []); [|destruct K].
    rewrite <- E. apply in_flat_map. exists (k, i :: s). split; [exact I|]. cbn [fst snd]. apply in_map_iff. exists i. split; [reflexivity|]. apply (proj2 (P_PyTree.sorted_in _ _)). now left.
  - intros H. destruct (flat_map _ d) as [|r l] eqn:E; [now destruct H|]. assert (I : In r (r :: l)) by now left. rewrite <- E in I. apply in_flat_map in I. destruct I as ([k s] & I & J). exists (k, s). split; [exact I|]. cbn [fst snd] in *. destruct s; [destruct J|reflexivity].
Qed.
