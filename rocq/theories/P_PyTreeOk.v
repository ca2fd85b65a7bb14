(** The parse tree of a trace that reads its input from left to right. *)
From Coq Require Import NArith ZArith List Bool Lia.
From Verif Require Import M_Base M_PyGrammar M_PyTree S_Grammar S_Tree P_Base P_PyTree P_PyTreeRun.
Import ListNotations.
Open Scope Z_scope.

(** ** Verification succeeds on tiles *)
Fixpoint gapped (l : intervals) : Prop :=
  match l with [] => True | x :: r => (forall y, In y r -> iv_end x < iv_begin y) /\ gapped r end.
Lemma merge_loop_gapped : forall r low, proper (low :: r) -> by_begin (low :: r) ->
  gapped (merge_loop false low r) /\ (forall x, In x (merge_loop false low r) -> iv_begin low <= iv_begin x).
Proof.
  induction r as [|h r IH]; intros low P S; cbn.
  - split; [split; [intros y []|exact I]|]. intros x [<-|[]]. lia.
  - assert (Ph : iv_begin h < iv_end h) by (apply P; cbn; auto).
    assert (Pl : iv_begin low < iv_end low) by (apply P; cbn; auto).
    destruct S as [S1 S2]. assert (Sh : iv_begin low <= iv_begin h) by (apply S1; cbn; auto).
    destruct ((iv_begin h <? iv_end low) || (iv_begin h =? iv_end low)) eqn:E.
    + apply (IH (mkIv (iv_begin low) (Z.max (iv_end low) (iv_end h)) (Z.max (iv_data low) (iv_data h)))); [|split].
      * intros i [<-|H]; [cbn; lia|]. apply P. cbn. auto.
      * intros y H. cbn. apply S1. cbn. auto.
      * apply S2.
    + apply orb_false_iff in E. destruct E as [E1 E2]. apply Z.ltb_ge in E1. apply Z.eqb_neq in E2.
      destruct (IH h) as [A B]; [intros i H; apply P; cbn; cbn in H; tauto|exact S2|]. split.
      * cbn. split; [|exact A]. intros y H. specialize (B y H). lia.
      * intros x [<-|H]; [lia|]. specialize (B x H). lia.
Qed.
Lemma merge_one : forall t b e, proper t -> (forall p, cover t p <-> b <= p < e) ->
  match iv_merge false t with [] | [_] => True | _ => False end.
Proof.
  intros t b e P C. destruct (merge_ok false t P) as (Pm & _ & Cm). unfold iv_merge in *.
  pose proof (sorted_in t) as Si. pose proof (sorted_sorted t) as Ss. destruct (iv_sorted t) as [|i r]; [exact I|].
  destruct (merge_loop_gapped r i) as [G _]; [intros j H; apply P; apply Si; exact H|exact Ss|].
  destruct (merge_loop false i r) as [|x [|y l]]; [exact I|exact I|].
  destruct G as [G1 G2].
  assert (Px : iv_begin x < iv_end x) by (apply Pm; cbn; auto). assert (Py : iv_begin y < iv_end y) by (apply Pm; cbn; auto).
  assert (K1 : cover t (iv_begin x)) by (apply Cm; exists x; unfold covers; cbn; split; [auto|lia]).
  assert (K2 : cover t (iv_begin y)) by (apply Cm; exists y; unfold covers; cbn; split; [auto|lia]).
  apply C in K1. apply C in K2. pose proof (G1 y (or_introl eq_refl)) as Gy.
  assert (K3 : cover t (iv_end x)) by (apply C; lia). apply Cm in K3. destruct K3 as (z & [<-|Z] & Cz); unfold covers in Cz; [lia|].
  specialize (G1 z Z). lia.
Qed.
Lemma chain_check : forall b e cs, chain b e cs -> forall a cov, a <= b -> proper cov -> (forall p, cover cov p <-> a <= p < b) ->
  exists cov', check_overlap cov (map d_range cs) = Ok cov' /\ proper cov' /\ (forall p, cover cov' p <-> a <= p < e).
Proof.
  intros b e cs H. induction H as [b|v b m e sub r L H IH]; intros a cov A P C; [exists cov; auto|].
  cbn [map check_overlap]. change (d_range (Done v b m sub)) with (b, m). cbv beta iota.
  replace (iv_overlaps cov b m) with false.
  2: { symmetry. unfold iv_overlaps. rewrite (proj2 (Z.ltb_lt b m) L). cbn [andb]. apply not_true_is_false. intros K.
       apply existsb_exists in K. destruct K as (i & K1 & K2). apply andb_true_iff in K2. rewrite !Z.ltb_lt in K2.
       pose proof (P i K1). assert (Q : cover cov (Z.max b (iv_begin i))) by (exists i; unfold covers; split; [exact K1|lia]).
       apply C in Q. lia. }
  rewrite (proj2 (Z.ltb_lt b m) L). apply IH; [lia| |].
  - intros i K. apply In_add in K. destruct K as [K| ->]; [auto|exact L].
  - intros p. rewrite cover_add by exact L. rewrite C. lia.
Qed.
Lemma chain_bounds_ok : forall b e cs, chain b e cs -> verify_bounds b e (map d_range cs) = Ok tt.
Proof.
  intros b e cs H. unfold verify_bounds.
  destruct (chain_check b e cs H b []) as (cov & E & P & C); [lia|intros i []|intros p; split; [intros (i & [] & _)|lia]|].
  rewrite E. cbn [bind]. destruct cs as [|c r]; [reflexivity|]. cbn [map].
  assert (L : b < e) by (inversion H; subst; match goal with K : chain _ _ _ |- _ => apply chain_bounds in K end; lia).
  destruct (same_bounds cov [mkIv b e 0]) as [F1 F2]; [exact P|intros i [<-|[]]; exact L| |].
  { intros p. rewrite C. split; [intros K; exists (mkIv b e 0); split; [cbn; auto|exact K]|intros (i & [<-|[]] & K); exact K]. }
  cbn in F1, F2. rewrite F1, F2, !Z.eqb_refl. cbn [andb negb].
  pose proof (merge_one cov b e P C) as M. destruct (iv_merge false cov) as [|x [|y l]]; [reflexivity|reflexivity|destruct M].
Qed.
Lemma starts_with_firstn : forall k l, starts_with l (firstn k l) = true.
Proof. induction k as [|k IH]; intros [|x l]; cbn; auto. now rewrite N.eqb_refl, IH. Qed.
Lemma skipn_firstn_length : forall k (l : list N), skipn (length (firstn k l)) l = skipn k l.
Proof. induction k as [|k IH]; intros [|x l]; cbn; auto. Qed.
Lemma tiles_verify : forall input d, tiles input d -> verify (skipn (Z.to_nat (d_begin d)) input) d = Ok (skipn (Z.to_nat (d_end d)) input).
Proof.
  intros input d. induction d as [v b e cs IH] using done_ind'. intros T. rewrite verify_eq.
  inversion T as [? ? L E1|? ? ? ? Hv L C Ft]; subst.
  - cbn [map d_begin d_end verify_bounds check_overlap bind verify_all]. unfold bytes. rewrite starts_with_firstn. cbn [bind verify_all].
    rewrite skipn_firstn_length, <- skipn_plus. do 2 f_equal. lia.
  - rewrite (chain_bounds_ok b e cs C). cbn [bind d_begin d_end].
    assert (V : verify_all (skipn (Z.to_nat b) input) cs = Ok (skipn (Z.to_nat e) input)).
    { clear T Hv L. induction C as [b|w b m e sub r Lt C IHc]; [reflexivity|].
      inversion_clear IH as [|? ? I1 I2]. inversion_clear Ft as [|? ? F1 F2]. cbn [verify_all]. specialize (I1 F1). cbn [d_begin d_end] in I1.
      rewrite I1. cbn [bind]. now apply IHc. }
    destruct v; [exact V|exact V|]. now destruct (Hv b0).
Qed.

(** ** The first pass *)
Fixpoint n_all (n : node) : intervals := let 'INode _ ivs cs := n in ivs ++ flat_map n_all cs.
Definition full (t : intervals) : bool := match t with [] => false | _ => true end.
Fixpoint following (ps : list intervals) : Prop :=
  match ps with
  | p :: (q :: _) as rest => iv_last p <= iv_first q /\ following rest
  | _ => True
  end.
Definition usable (t : intervals) : Prop := forall i, In i t -> 0 <= iv_begin i < iv_end i /\ 0 <= iv_data i.
Inductive neat : node -> Prop :=
| neat_node : forall n bb ivs cs, usable ivs -> Forall neat cs -> following (filter full (map n_all cs)) ->
    neat (INode (VEvent n bb) ivs cs).
(** After the first pass. *)
Inductive good : node -> Prop :=
| good_node : forall v ivs cs, (forall t, v <> VTerminal t) -> single ivs -> usable ivs -> Forall good cs ->
    following (map n_ivs cs) -> (forall c, In c cs -> n_ivs c <> [] /\ iv_first ivs <= n_first c /\ n_last c <= iv_last ivs) ->
    good (INode v ivs cs).
Fixpoint ranged (n : node) : done := let 'INode v ivs cs := n in Done v (iv_first ivs) (iv_last ivs) (map ranged cs).
Fixpoint expected (n : node) : done :=
  let 'INode v ivs cs := n in
  Done v (iv_first (n_all n)) (iv_last (n_all n)) (flat_map (fun c => if full (n_all c) then [expected c] else []) cs).

Lemma usable_fine : forall t, usable t -> fine t.
Proof. intros t H i A. apply (H i A). Qed.
Lemma usable_proper : forall t, usable t -> proper t.
Proof. intros t H i A. apply (H i A). Qed.
Lemma neat_usable : forall n, neat n -> usable (n_all n).
Proof.
  intros n. induction n as [v ivs cs IH] using node_ind'. intros H. inversion H as [? ? ? ? U F Fo]; subst. cbn [n_all].
  intros i A. apply in_app_iff in A. destruct A as [A|A]; [auto|]. apply in_flat_map in A. destruct A as (c & A & B).
  rewrite Forall_forall in IH, F. exact (IH c A (F c A) i B).
Qed.
Lemma cover_app : forall a b p, cover (a ++ b) p <-> cover a p \/ cover b p.
Proof.
  intros a b p. split.
  - intros (i & A & B). apply in_app_iff in A. destruct A; [left|right]; exists i; auto.
  - intros [(i & A & B)|(i & A & B)]; exists i; rewrite in_app_iff; auto.
Qed.
Lemma set_ivs_same : forall n, set_ivs n (n_ivs n) = n.
Proof. intros [v i cs]. reflexivity. Qed.
Lemma next_all_same : forall r c, following (map n_ivs (c :: r)) -> next_all c r = Ok (c :: r).
Proof.
  induction r as [|s r IH]; intros c H; [reflexivity|]. cbn [next_all]. cbn [map following] in H. destruct H as [H1 H2].
  assert (D : deconflict_sibling (n_ivs c) (n_ivs s) = Ok (n_ivs c, n_ivs s)).
  { unfold deconflict_sibling, best_partition, winners. rewrite (proj2 (Z.leb_le _ _) H1). reflexivity. }
  rewrite D. cbn [bind fst snd]. rewrite !set_ivs_same, IH by exact H2. reflexivity.
Qed.
Lemma following_after : forall ps p, following (p :: ps) -> (forall q, In q (p :: ps) -> proper q /\ q <> []) ->
  forall q, In q ps -> iv_last p <= iv_first q.
Proof.
  induction ps as [|a ps IH]; intros p H P q Q; [destruct Q|]. destruct H as [H1 H2]. destruct Q as [<-|Q]; [exact H1|].
  specialize (IH a H2 (fun x X => P x (or_intror X)) q Q). destruct (P a) as [Pa Na]; [cbn; auto|]. pose proof (first_lt_last a Pa Na). lia.
Qed.
Lemma check_following : forall (cs : list node) cov, following (map n_ivs cs) -> (forall c, In c cs -> proper (n_ivs c) /\ n_ivs c <> []) ->
  (forall i c, In i cov -> In c cs -> iv_end i <= n_first c) ->
  exists cov', check_overlap cov (map (fun c => (n_first c, n_last c)) cs) = Ok cov'.
Proof.
  induction cs as [|c r IH]; intros cov F P H; [cbn; eauto|]. cbn [map check_overlap].
  destruct (P c (or_introl eq_refl)) as [Pc Nc]. pose proof (first_lt_last _ Pc Nc) as L.
  replace (iv_overlaps cov (n_first c) (n_last c)) with false.
  2: { symmetry. unfold iv_overlaps. apply andb_false_iff. right. apply not_true_is_false. intros K. apply existsb_exists in K.
       destruct K as (i & K1 & K2). apply andb_true_iff in K2. rewrite !Z.ltb_lt in K2. specialize (H i c K1 (or_introl eq_refl)). lia. }
  apply IH.
  - cbn [map] in F. destruct r as [|s r]; [exact I|]. apply F.
  - intros d D. apply P. cbn. auto.
  - intros i d I D. assert (Q : n_last c <= n_first d).
    { apply (following_after (map n_ivs r) (n_ivs c) F); [|apply in_map; exact D]. intros q Q. change (n_ivs c :: map n_ivs r) with (map n_ivs (c :: r)) in Q.
      apply in_map_iff in Q. destruct Q as (x & <- & X). now apply P. }
    destruct (n_first c <? n_last c); [|apply H; [exact I|right; exact D]]. apply In_add in I. destruct I as [I| ->]; [apply H; [exact I|right; exact D]|exact Q].
Qed.
Lemma filter_all : forall (A : Type) (f : A -> bool) l, (forall x, In x l -> f x = true) -> filter f l = l.
Proof. induction l as [|x l IH]; intros H; cbn; [reflexivity|]. rewrite H by (cbn; auto). f_equal. apply IH. intros y Y. apply H. cbn. auto. Qed.

(** One node: [cs] are its children after their own pass. *)
Lemma pass_good : forall v own cs, (forall t, v <> VTerminal t) -> usable own ->
  Forall (fun c => good c \/ n_ivs c = []) cs -> following (filter full (map n_ivs cs)) ->
  exists n, bottom_up_pass v own cs = Ok n /\ good n /\
    (exists cs', n = INode v (n_ivs n) cs' /\ cs' = filter (fun c => full (n_ivs c)) cs) /\
    (forall p, cover (n_ivs n) p <-> cover (own ++ flat_map n_ivs cs) p).
Proof.
  intros v own cs Hv Uo G F.
  set (ks := filter (fun c => full (n_ivs c)) cs).
  assert (Gk : forall c, In c ks -> good c /\ n_ivs c <> []).
  { intros c H. apply filter_In in H. destruct H as [H1 H2]. rewrite Forall_forall in G. destruct (G c H1) as [K|K].
    - split; [exact K|]. intros E. rewrite E in H2. discriminate.
    - rewrite K in H2. discriminate. }
  assert (Uk : forall c, In c ks -> usable (n_ivs c)).
  { intros c H. destruct (Gk c H) as [K _]. inversion K; subst. assumption. }
  assert (Ef : filter (fun c => n_first c <? n_last c) cs = ks).
  { unfold ks. apply filter_ext_in. intros c H. rewrite Forall_forall in G. unfold n_first, n_last. destruct (G c H) as [K|K].
    - inversion K as [? ivs ? ? ? U]; subst. cbn [n_ivs]. destruct ivs as [|i r] eqn:E; [reflexivity|]. rewrite <- E in *. cbn [full].
      rewrite (proj2 (Z.ltb_lt _ _)); [rewrite E; reflexivity|]. apply first_lt_last; [now apply usable_proper|congruence].
    - rewrite K. reflexivity. }
  assert (Fk : following (map n_ivs ks)).
  { unfold ks. replace (map n_ivs (filter (fun c => full (n_ivs c)) cs)) with (filter full (map n_ivs cs)); [exact F|].
    clear. induction cs as [|c r IH]; cbn; [reflexivity|]. destruct (full (n_ivs c)); cbn; now rewrite IH. }
  unfold bottom_up_pass. rewrite Ef.
  assert (Es : siblings ks = Ok ks).
  { rewrite siblings_eq. destruct ks as [|c r]; [reflexivity|]. now apply next_all_same. }
  rewrite Es. cbn [bind].
  destruct (check_following ks [] Fk) as (cov & Ec); [intros c H; split; [now apply usable_proper, Uk|now apply Gk]|intros i c []|].
  rewrite Ec. cbn [bind]. set (all := fold_left (fun t c => iv_update t (n_ivs c)) ks own).
  assert (Ua : usable all).
  { intros i H. apply fold_update_in in H. destruct H as [H|(c & H & I)]; [auto|]. now apply (Uk c). }
  assert (Ca : forall p, cover all p <-> cover (own ++ flat_map n_ivs cs) p).
  { intros p. split.
    - intros (i & H & I). apply fold_update_in in H. exists i. split; [|exact I]. apply in_app_iff. destruct H as [H|(c & H & J)]; [auto|].
      right. apply in_flat_map. exists c. split; [|exact J]. apply filter_In in H. apply H.
    - intros (i & H & I). exists i. split; [|exact I]. apply fold_update_in. apply in_app_iff in H. destruct H as [H|H]; [auto|].
      right. apply in_flat_map in H. destruct H as (c & H & J). exists c. split; [|exact J]. apply filter_In. split; [exact H|].
      destruct (n_ivs c); [destruct J|reflexivity]. }
  destruct (merge_ok true (iv_split all) (split_proper all)) as (M1 & M2 & M3).
  eexists. split; [reflexivity|]. cbn [n_ivs].
  assert (Um : usable (iv_merge true (iv_split all))).
  { intros i H. split; [now apply (split_merge_fine all (usable_fine all Ua))|]. revert i H. apply merge_data. intros i H.
    apply split_data in H. destruct H as (j & H & ->). now apply Ua. }
  split; [|split].
  - apply good_node; auto.
    + now apply apart_single.
    + apply Forall_forall. intros c H. now apply Gk.
    + intros c H. split; [now apply Gk|].
      assert (K : forall p, cover (n_ivs c) p -> cover (iv_merge true (iv_split all)) p).
      { intros p (i & A & B). apply split_merge_cover. exists i. split; [|exact B]. apply fold_update_in. right. eauto. }
      pose proof (cover_range _ _ (K _ (cover_first _ (usable_proper _ (Uk c H)) (proj2 (Gk c H))))).
      pose proof (cover_range _ _ (K _ (cover_last _ (usable_proper _ (Uk c H)) (proj2 (Gk c H))))). unfold n_first, n_last. lia.
  - exists ks. auto.
  - intros p. rewrite split_merge_cover. apply Ca.
Qed.

Lemma usable_same : forall a b, usable a -> usable b -> (forall p, cover a p <-> cover b p) ->
  iv_first a = iv_first b /\ iv_last a = iv_last b /\ full a = full b.
Proof.
  intros a b A B C. destruct (same_bounds a b (usable_proper _ A) (usable_proper _ B) C) as [E1 E2]. split; [exact E1|]. split; [exact E2|].
  assert (K : forall x y, usable x -> (forall p, cover x p <-> cover y p) -> full x = true -> full y = true).
  { intros x y X C' F. destruct y as [|j y]; [|reflexivity]. exfalso.
    apply (same_nonempty x [] (usable_proper _ X)); [intros p; apply C'|destruct x; discriminate|reflexivity]. }
  destruct (full a) eqn:Fa, (full b) eqn:Fb; auto.
  - rewrite <- Fb. symmetry. now apply (K a b).
  - rewrite <- Fa. apply (K b a B); [intros p; symmetry; apply C|exact Fb].
Qed.
(** What the pass makes of a node. *)
Record passed (n n' : node) : Prop := {
  ps_good : good n' \/ n_ivs n' = [];
  ps_usable : usable (n_ivs n');
  ps_cover : forall p, cover (n_ivs n') p <-> cover (n_all n) p;
  ps_ranged : full (n_all n) = true -> ranged n' = expected n;
}.
Lemma passed_same : forall n n', neat n -> passed n n' ->
  iv_first (n_ivs n') = iv_first (n_all n) /\ iv_last (n_ivs n') = iv_last (n_all n) /\ full (n_ivs n') = full (n_all n).
Proof. intros n n' N [A B C D]. apply usable_same; [exact B|now apply neat_usable|exact C]. Qed.
Lemma passed_following : forall cs cs', Forall neat cs -> Forall2 passed cs cs' -> following (filter full (map n_all cs)) ->
  following (filter full (map n_ivs cs')).
Proof.
  assert (K : forall ps qs, Forall2 (fun p q => iv_first q = iv_first p /\ iv_last q = iv_last p) ps qs -> following ps -> following qs).
  { intros ps qs H. induction H as [|p q ps qs [A1 A2] H IH]; [auto|]. intros F. destruct H as [|p' q' ps qs [B1 B2] H]; [exact I|].
    destruct F as [F1 F2]. split; [rewrite A2, B1; exact F1|]. now apply IH. }
  intros cs cs' N H F. refine (K _ _ _ F). clear F. induction H as [|c c' cs cs' P H IH]; cbn; [constructor|].
  inversion_clear N as [|? ? N1 N2]. destruct (passed_same c c' N1 P) as (A & B & C). rewrite C. destruct (full (n_all c)); [|now apply IH].
  constructor; [auto|now apply IH].
Qed.
Lemma passed_cover : forall cs cs', Forall2 passed cs cs' -> forall p, cover (flat_map n_ivs cs') p <-> cover (flat_map n_all cs) p.
Proof.
  intros cs cs' H p. induction H as [|c c' cs cs' P H IH]; cbn [flat_map]; [tauto|]. rewrite !cover_app, IH, (ps_cover _ _ P). tauto.
Qed.
Lemma passed_ranged : forall cs cs', Forall neat cs -> Forall2 passed cs cs' ->
  map ranged (filter (fun c => full (n_ivs c)) cs') = flat_map (fun c => if full (n_all c) then [expected c] else []) cs.
Proof.
  intros cs cs' N H. induction H as [|c c' cs cs' P H IH]; cbn [filter flat_map map]; [reflexivity|].
  inversion_clear N as [|? ? N1 N2]. destruct (passed_same c c' N1 P) as (A & B & C). rewrite C. destruct (full (n_all c)) eqn:F; cbn [map app].
  - rewrite (ps_ranged _ _ P F), IH by exact N2. reflexivity.
  - now apply IH.
Qed.
Lemma up_neat : forall len n, neat n -> exists n', bottom_up len n = Ok n' /\ passed n n'.
Proof.
  intros len n. induction n as [v ivs cs IH] using node_ind'. intros N. pose proof (neat_usable _ N) as Ua.
  inversion N as [nm bb ? ? U Fn Fo]; subst.
  assert (A : exists cs', up_all len cs = Ok cs' /\ Forall2 passed cs cs').
  { clear N Fo Ua. induction cs as [|c r IHr]; [exists []; split; [reflexivity|constructor]|].
    inversion_clear IH as [|? ? I1 I2]. inversion_clear Fn as [|? ? F1 F2].
    destruct (I1 F1) as (c' & C1 & C2). destruct (IHr I2 F2) as (r' & R1 & R2). exists (c' :: r'). split; [|now constructor].
    cbn [up_all]. rewrite C1. cbn [bind]. fold (up_all len). rewrite R1. reflexivity. }
  destruct A as (cs' & A1 & A2). rewrite bottom_up_eq, A1. cbn [bind own_ivs].
  destruct (pass_good (VEvent nm bb) ivs cs') as (n' & B1 & B2 & (ks & B3 & B4) & B5); auto; [discriminate| | |].
  - clear -A2. induction A2 as [|c c' cs cs' P A2 IH]; constructor; [apply (ps_good _ _ P)|exact IH].
  - now apply (passed_following cs).
  - exists n'. split; [exact B1|].
    assert (Cv : forall p, cover (n_ivs n') p <-> cover (n_all (INode (VEvent nm bb) ivs cs)) p).
    { intros p. rewrite B5. cbn [n_all]. rewrite !cover_app, (passed_cover cs cs' A2). tauto. }
    assert (Un : usable (n_ivs n')) by (inversion B2; subst; assumption).
    constructor; auto. intros _. rewrite B3. cbn [ranged expected].
    destruct (usable_same _ _ Un Ua Cv) as (E1 & E2 & _). rewrite E1, E2. f_equal. subst ks. now apply passed_ranged.
Qed.

(** ** The second pass *)
Lemma fill_ordered : forall input e kids b, (forall k, In k kids -> b <= d_begin k /\ d_begin k < d_end k /\ d_end k <= e) -> b <= e ->
  (forall a x y r, kids = a ++ x :: y :: r -> d_end x <= d_begin y) -> chain b e (fill input b e kids).
Proof.
  intros input e. induction kids as [|k r IH]; intros b H L O; cbn [fill].
  - destruct (b <? e) eqn:Q; [apply Z.ltb_lt in Q; constructor; [exact Q|constructor]|apply Z.ltb_ge in Q; replace e with b by lia; constructor].
  - destruct (H k (or_introl eq_refl)) as (A & B & C).
    assert (S : chain (d_begin k) e (k :: fill input (d_end k) e r)).
    { apply (chain_trans (d_begin k) (d_end k)); auto. apply IH; [|lia|].
      - intros j J. destruct (H j (or_intror J)) as (J1 & J2 & J3). split; [|auto].
        clear IH. revert k J H O B C A. induction r as [|s r IHr]; intros k J H O B C A; [destruct J|].
        pose proof (O [] k s r eq_refl). destruct J as [<-|J]; [assumption|].
        assert (d_end s <= d_begin j).
        { destruct (H s) as (S1 & S2 & S3); [cbn; auto|]. apply IHr; auto.
          - intros x X. apply H. right. exact X.
          - intros a x y q E. apply (O (k :: a) x y q). rewrite E. reflexivity. }
        destruct (H s) as (S1 & S2 & S3); [cbn; auto|]. lia.
      - intros a x y q E. apply (O (k :: a) x y q). rewrite E. reflexivity. }
    destruct (b <? d_begin k) eqn:Q; cbn [app].
    + apply Z.ltb_lt in Q. constructor; [exact Q|exact S].
    + apply Z.ltb_ge in Q. replace b with (d_begin k) by lia. exact S.
Qed.
Lemma following_pairs : forall (ks : list done) (ps : list intervals), Forall2 (fun k p => d_begin k = iv_first p /\ d_end k = iv_last p) ks ps ->
  following ps -> forall a x y r, ks = a ++ x :: y :: r -> d_end x <= d_begin y.
Proof.
  intros ks ps H. induction H as [|k p ks ps [A B] H IH]; intros F a x y r E; [destruct a; discriminate|].
  destruct H as [|k' p' ks ps [A' B'] H]; [destruct a as [|? [|? ?]]; discriminate|]. destruct F as [F1 F2].
  destruct a as [|z a].
  - cbn in E. assert (k = x) by congruence. assert (k' = y) by congruence. subst x y. lia.
  - apply (IH F2 a x y r). cbn in E. congruence.
Qed.
Definition like (t i : intervals) : Prop := NoDup i /\ forall x, In x i <-> In x t.
Lemma like_bounds : forall t i, proper t -> like t i -> iv_first i = iv_first t /\ iv_last i = iv_last t /\ (t <> [] -> i <> []).
Proof.
  intros t i P [N H]. destruct (same_bounds i t) as [A B].
  - intros x X. apply P. now apply H.
  - exact P.
  - intros p. split; intros (j & J & K); exists j; split; auto; now apply H.
  - split; [exact A|]. split; [exact B|]. intros Nt ->. destruct t as [|x t]; [congruence|]. apply (H x). cbn. auto.
Qed.
Lemma child_same : forall b e t, single t -> usable t -> t <> [] -> 0 <= b -> b <= iv_first t -> iv_last t <= e ->
  exists i, top_down_child b e t = Ok i /\ like t i.
Proof.
  intros b e t S U Nt B0 B E. unfold top_down_child.
  assert (L : like t (iv_chop t 0 b)).
  { split; [apply NoDup_chop; apply S|]. intros x. apply chop_left_same. intros i A. pose proof (U i A). pose proof (first_le t i A). lia. }
  destruct (like_bounds t _ (usable_proper _ U) L) as (F1 & F2 & F3). rewrite F2.
  rewrite (proj2 (Z.ltb_ge e (iv_last t)) E). rewrite F1, F2.
  rewrite (proj2 (Z.ltb_lt _ _) (first_lt_last t (usable_proper _ U) Nt)).
  exists (iv_chop t 0 b). split; [|exact L]. apply parent_ok; [|auto|].
  - destruct L as [L1 L2]. now apply (single_same t).
  - intros i A. apply L in A. pose proof (U i A). pose proof (first_le t i A). lia.
Qed.
Lemma finish_good : forall input n, good n -> n_ivs n <> [] -> forall i, like (n_ivs n) i ->
  exists d, finish input n i = Ok d /\ d_begin d = n_first n /\ d_end d = n_last n /\ tiles input d /\ events d = ranged n /\ is_leaf d = false.
Proof.
  intros input n. induction n as [v ivs cs IH] using node_ind'. intros G Nn i L. cbn [n_ivs] in *.
  inversion G as [? ? ? Hv S U Gc Fo Hc]; subst.
  destruct (like_bounds ivs i (usable_proper _ U) L) as (F1 & F2 & _).
  pose proof (first_lt_last ivs (usable_proper _ U) Nn) as Lt. pose proof (fine_first _ (usable_fine _ U)) as F0.
  rewrite finish_eq, F1, F2. rewrite (proj2 (Z.leb_gt _ _) Lt). unfold n_first, n_last. cbn [n_ivs].
  assert (A : exists kids, finish_all input (iv_first ivs) (iv_last ivs) cs = Ok kids /\
    Forall2 (fun k c => d_begin k = n_first c /\ d_end k = n_last c /\ tiles input k /\ events k = ranged c /\ is_leaf k = false) kids cs).
  { clear Fo G. induction cs as [|c r IHr]; [exists []; split; [reflexivity|constructor]|].
    inversion_clear IH as [|? ? I1 I2]. inversion_clear Gc as [|? ? G1 G2].
    destruct IHr as (kids & K1 & K2); [exact I2|exact G2|intros x X; apply Hc; cbn; auto|].
    destruct (Hc c (or_introl eq_refl)) as (H1 & H2 & H3).
    assert (SU : single (n_ivs c) /\ usable (n_ivs c)) by (inversion G1; subst; auto). destruct SU as [Sc Uc].
    destruct (child_same (iv_first ivs) (iv_last ivs) (n_ivs c)) as (j & J1 & J2); auto.
    destruct (like_bounds _ _ (usable_proper _ Uc) J2) as (E1 & E2 & _).
    destruct (I1 G1 H1 j J2) as (d & D1 & D2). exists (d :: kids). split; [|constructor; assumption].
    cbn [finish_all]. rewrite J1. cbn [bind]. rewrite E1, E2, (proj2 (Z.leb_gt _ _) (first_lt_last _ (usable_proper _ Uc) H1)), D1. cbn [bind].
    fold (finish_all input (iv_first ivs) (iv_last ivs)). rewrite K1. reflexivity. }
  destruct A as (kids & K1 & K2). rewrite K1. cbn [bind].
  assert (Ch : chain (iv_first ivs) (iv_last ivs) (fill input (iv_first ivs) (iv_last ivs) kids)).
  { apply fill_ordered; [|lia|].
    - intros k Hk. assert (Q : exists c, In c cs /\ d_begin k = n_first c /\ d_end k = n_last c).
      { clear -K2 Hk. induction K2 as [|k' c ks cs P K IH]; [destruct Hk|]. destruct Hk as [<-|Hk]; [exists c; cbn; tauto|].
        destruct (IH Hk) as (c' & A & B). exists c'. cbn. tauto. }
      destruct Q as (c & Q1 & Q2 & Q3). destruct (Hc c Q1) as (H1 & H2 & H3). rewrite Q2, Q3. split; [exact H2|]. split; [|exact H3].
      rewrite Forall_forall in Gc. specialize (Gc c Q1). inversion Gc as [? ? ? ? ? Uc]; subst. apply first_lt_last; [now apply usable_proper|exact H1].
    - apply (following_pairs kids (map n_ivs cs)); [|exact Fo].
      clear -K2. induction K2 as [|k c ks cs P K IH]; constructor; [unfold n_first, n_last in P; tauto|exact IH]. }
  assert (Nf : fill input (iv_first ivs) (iv_last ivs) kids <> []).
  { intros Q. rewrite Q in Ch. inversion Ch. lia. }
  destruct (fill input (iv_first ivs) (iv_last ivs) kids) as [|x r] eqn:Q; [congruence|]. rewrite <- Q in *. clear Q x r.
  eexists. split; [reflexivity|]. split; [reflexivity|]. split; [reflexivity|].
  assert (Fl : forall k, In k kids -> is_leaf k = false /\ tiles input k).
  { intros k Hk. clear -K2 Hk. induction K2 as [|k' c ks cs P K IH]; [destruct Hk|]. destruct Hk as [<-|Hk]; [tauto|auto]. }
  split; [|split].
  - apply tiles_node; auto; try lia. apply Forall_forall. intros k Hk. pose proof Hk as Hk'. apply fill_in in Hk. destruct Hk as [Hk|(b' & e' & Lb & ->)]; [now apply Fl|].
    apply tiles_leaf. apply chain_bounds in Ch. destruct Ch as [_ Ch]. specialize (Ch _ Hk'). cbn in Ch. lia.
  - cbn [events ranged]. rewrite fill_events by (intros k Hk; now apply Fl). f_equal.
    clear -K2. induction K2 as [|k c ks cs P K IH]; cbn; [reflexivity|]. f_equal; [tauto|exact IH].
  - destruct v; [reflexivity|reflexivity|]. now destruct (Hv b).
Qed.

(** ** The tree of a trace *)
Lemma fold_min_r : forall l o, let k := fold_right Z.min o l in (k = o \/ In k l) /\ k <= o /\ forall x, In x l -> k <= x.
Proof.
  induction l as [|y l IH]; intros o; cbn; [repeat split; try lia; tauto|].
  destruct (IH o) as (A & B & C). repeat apply conj; [|lia|intros x [<-|X]; [lia|specialize (C x X); lia]].
  destruct (Z.le_gt_cases y (fold_right Z.min o l)) as [L|L]; [rewrite Z.min_l by lia; auto|rewrite Z.min_r by lia; tauto].
Qed.
Lemma fold_max_r : forall l o, let k := fold_right Z.max o l in (k = o \/ In k l) /\ o <= k /\ forall x, In x l -> x <= k.
Proof.
  induction l as [|y l IH]; intros o; cbn; [repeat split; try lia; tauto|].
  destruct (IH o) as (A & B & C). repeat apply conj; [|lia|intros x [<-|X]; [lia|specialize (C x X); lia]].
  destruct (Z.le_gt_cases (fold_right Z.max o l) y) as [L|L]; [rewrite Z.max_l by lia; auto|rewrite Z.max_r by lia; tauto].
Qed.
Lemma first_of_spec : forall rs, rs <> [] -> (exists l, In (first_of rs, l) rs) /\ forall o l, In (o, l) rs -> first_of rs <= o.
Proof.
  intros [|[o0 l0] r] H; [congruence|]. unfold first_of. destruct (fold_min_r (map fst r) o0) as (A & B & C). cbn zeta in *. split.
  - destruct A as [A|A]; [rewrite A; exists l0; cbn; auto|]. apply in_map_iff in A. destruct A as ([o l] & A & D). cbn [fst] in A. rewrite <- A. exists l. cbn. auto.
  - intros o l [E|E]; [injection E as <- <-; exact B|]. apply C. apply (in_map fst) in E. exact E.
Qed.
Lemma last_of_spec : forall rs, rs <> [] -> (exists o l, In (o, l) rs /\ last_of rs = o + l) /\ forall o l, In (o, l) rs -> o + l <= last_of rs.
Proof.
  intros [|[o0 l0] r] H; [congruence|]. unfold last_of. destruct (fold_max_r (map (fun x => fst x + snd x) r) (o0 + l0)) as (A & B & C). cbn zeta in *. split.
  - destruct A as [A|A]; [rewrite A; exists o0, l0; cbn; auto|]. apply in_map_iff in A. destruct A as ([o l] & A & D). cbn [fst snd] in A. rewrite <- A. exists o, l. cbn. auto.
  - intros o l [E|E]; [injection E as <- <-; exact B|]. apply C. apply (in_map (fun x => fst x + snd x)) in E. exact E.
Qed.
(** The regions [rs] are those of the intervals [t]. *)
Definition same_regions (rs : list (Z * Z)) (t : intervals) : Prop :=
  (forall o l, In (o, l) rs -> exists d, In (mkIv o (o + l) d) t) /\ (forall i, In i t -> exists l, In (iv_begin i, l) rs /\ iv_end i = iv_begin i + l).
Lemma same_hull : forall rs t, same_regions rs t -> first_of rs = iv_first t /\ last_of rs = iv_last t /\ (full t = true <-> rs <> []).
Proof.
  intros rs t [A B]. destruct rs as [|r rs'] eqn:Er.
  - destruct t as [|i t]; [cbn; split; [reflexivity|]; split; [reflexivity|]; split; [discriminate|congruence]|]. destruct (B i) as (l & [] & _). cbn. auto.
  - rewrite <- Er in *. assert (Nr : rs <> []) by congruence. clear Er r rs'.
    assert (Nt : t <> []) by (destruct rs as [|[o l] rs]; [congruence|]; destruct (A o l) as (d & D); [cbn; auto|]; intros ->; destruct D).
    destruct (first_of_spec rs Nr) as [(l1 & F1) F2]. destruct (last_of_spec rs Nr) as [(o2 & l2 & L1 & L2) L3].
    destruct (first_in t Nt) as (i & I1 & I2). destruct (last_in t Nt) as (j & J1 & J2).
    destruct (A _ _ F1) as (d1 & D1). apply first_le in D1. cbn in D1. destruct (A _ _ L1) as (d2 & D2). apply last_ge in D2. cbn in D2.
    destruct (B i I1) as (l3 & B1 & B2). apply F2 in B1. destruct (B j J1) as (l4 & B3 & B4). apply L3 in B3.
    split; [lia|]. split; [lia|]. destruct t; [congruence|]. cbn. tauto.
Qed.
Lemma touched_regions : forall f, touched f = true <-> regions_of f <> [].
Proof.
  intros f. induction f as [name bs IH] using call_ind. cbn [touched regions_of]. induction bs as [|[[[bb uid] rs] called] r IHr].
  - cbn. split; [discriminate|congruence].
  - cbn [existsb flat_map]. rewrite orb_true_iff, IHr by (intros bb' uid' rs' g H; apply (IH bb' uid' rs' g); right; exact H). clear IHr.
    destruct rs as [|x rs]; cbn [app]; [|split; [discriminate|auto]].
    destruct called as [g|].
    + rewrite (IH bb uid [] g (or_introl eq_refl)). destruct (regions_of g); cbn [app]; [intuition congruence|split; [discriminate|intros _; left; discriminate]].
    + cbn. intuition congruence.
Qed.
Lemma consumed_regions : forall uid rs, same_regions rs (consumed uid rs).
Proof.
  intros uid rs. split.
  - intros o l H. exists uid. apply consumed_in. eauto.
  - intros i H. apply consumed_in in H. destruct H as (o & l & H & ->). cbn. eauto.
Qed.
Lemma same_app : forall a b t u, same_regions a t -> same_regions b u -> same_regions (a ++ b) (t ++ u).
Proof.
  intros a b t u [A1 A2] [B1 B2]. split.
  - intros o l H. apply in_app_iff in H. destruct H as [H|H]; [destruct (A1 o l H) as (d & D)|destruct (B1 o l H) as (d & D)]; exists d; apply in_app_iff; auto.
  - intros i H. apply in_app_iff in H. destruct H as [H|H]; [destruct (A2 i H) as (l & D & E)|destruct (B2 i H) as (l & D & E)]; exists l; rewrite in_app_iff; auto.
Qed.
Lemma same_nil : same_regions [] [].
Proof. split; [intros o l []|intros i []]. Qed.
Definition kid_nodes (b : N * Z * list (Z * Z) * option invocation) : list node :=
  match b with (bb, uid, regions, called) =>
    INode (VEvent bb true) (consumed uid regions) [] ::
    match called with Some g => if touched g then [function_node g] else [] | None => [] end end.
Lemma function_node_eq : forall name bs, function_node (Invocation name bs) = INode (VEvent name false) [] (flat_map kid_nodes bs).
Proof. reflexivity. Qed.
Lemma function_regions : forall f, same_regions (regions_of f) (n_all (function_node f)).
Proof.
  intros f. induction f as [name bs IH] using call_ind. rewrite function_node_eq. cbn [regions_of n_all app].
  induction bs as [|[[[bb uid] rs] called] r IHr]; [exact same_nil|]. cbn [flat_map]. rewrite flat_map_app. apply same_app.
  2: { apply IHr. intros bb' uid' rs' g H. apply (IH bb' uid' rs' g). right. exact H. }
  cbn [kid_nodes flat_map n_all]. rewrite app_nil_r. apply same_app; [apply consumed_regions|].
  destruct called as [g|]; [|exact same_nil]. specialize (IH bb uid rs g (or_introl eq_refl)).
  destruct (touched g) eqn:T; [cbn [flat_map]; rewrite app_nil_r; exact IH|].
  destruct (regions_of g) eqn:R; [exact same_nil|]. assert (K : touched g = true) by (apply touched_regions; congruence). congruence.
Qed.
Lemma same_full : forall rs t, same_regions rs t -> full t = match rs with [] => false | _ => true end.
Proof.
  intros rs t H. destruct (same_hull rs t H) as (_ & _ & K). destruct rs as [|x l].
  - destruct (full t); [destruct (proj1 K eq_refl); reflexivity|reflexivity].
  - apply K. discriminate.
Qed.
Lemma function_neat : forall f, counted f -> sound (regions_of f) -> left_to_right f -> neat (function_node f).
Proof.
  intros f. induction f as [name bs IH] using call_ind. intros C S L. rewrite function_node_eq.
  inversion C as [? ? C1]; subst. inversion L as [? ? L1 L2]; subst. constructor; [intros i []| |].
  - apply Forall_forall. intros n H. apply in_flat_map in H. destruct H as ([[[bb uid] rs] called] & H & K).
    assert (Sb : forall o l, In (o, l) (rs ++ match called with Some g => regions_of g | None => [] end) -> 0 <= o /\ 0 < l).
    { intros o l Q. apply S. cbn [regions_of]. apply in_flat_map. eexists. split; [exact H|exact Q]. }
    destruct (C1 bb uid rs called H) as [Cu Cg]. destruct K as [<-|K].
    + constructor; [|constructor|exact I]. intros i Q. apply consumed_in in Q. destruct Q as (o & l & Q & ->).
      destruct (Sb o l) as [S1 S2]; [apply in_app_iff; auto|]. cbn. lia.
    + destruct called as [g|]; [|destruct K]. destruct (touched g); [|destruct K]. destruct K as [<-|[]].
      apply (IH bb uid rs g H); [now apply Cg|intros o l Q; apply Sb; apply in_app_iff; auto|now apply (L2 bb uid rs g)].
  - assert (K : Forall2 same_regions (parts bs) (filter full (map n_all (flat_map kid_nodes bs)))).
    { clear. unfold parts. induction bs as [|[[[bb uid] rs] called] r IHr]; [constructor|]. cbn [flat_map]. rewrite map_app, !filter_app.
      apply Forall2_app; [|exact IHr]. cbn [kid_nodes map]. cbn [n_all flat_map]. rewrite app_nil_r.
      pose proof (consumed_regions uid rs) as Q. pose proof (same_full _ _ Q) as Qf.
      assert (T : Forall2 same_regions
        (filter (fun rs0 : list (Z * Z) => match rs0 with [] => false | _ => true end) match called with Some g => [regions_of g] | None => [] end)
        (filter full (map n_all match called with Some g => if touched g then [function_node g] else [] | None => [] end))).
      { destruct called as [g|]; [|constructor]. pose proof (function_regions g) as G. pose proof (same_full _ _ G) as Gf. pose proof (touched_regions g) as Tg.
        destruct (regions_of g) as [|x l] eqn:R.
        - destruct (touched g); [destruct (proj1 Tg eq_refl); reflexivity|constructor].
        - rewrite (proj2 Tg) by discriminate. cbn [map filter]. rewrite Gf. constructor; [exact G|constructor]. }
      destruct rs as [|x l]; cbn [filter]; rewrite Qf; [exact T|constructor; [exact Q|exact T]]. }
    clear -K L1. revert L1. induction K as [|p q ps qs H K IH]; [auto|]. intros L1. destruct K as [|p' q' ps qs H' K]; [exact I|].
    destruct L1 as [A B]. destruct (same_hull _ _ H) as (E1 & E2 & _). destruct (same_hull _ _ H') as (E3 & E4 & _).
    split; [lia|]. now apply IH.
Qed.
Lemma function_expected : forall f, (if full (n_all (function_node f)) then [expected (function_node f)] else []) = call_event f.
Proof.
  intros f. induction f as [name bs IH] using call_ind.
  pose proof (function_regions (Invocation name bs)) as R. rewrite (same_full _ _ R). destruct (same_hull _ _ R) as (H1 & H2 & _).
  cbn [call_event]. rewrite function_node_eq in *. cbn [expected]. rewrite <- H1, <- H2.
  destruct (regions_of (Invocation name bs)) eqn:E; [reflexivity|]. f_equal. f_equal.
  clear E R H1 H2. induction bs as [|[[[bb uid] rs] called] r IHr]; [reflexivity|].
  cbn [flat_map]. rewrite flat_map_app, IHr by (intros bb' uid' rs' g H; apply (IH bb' uid' rs' g); right; exact H). f_equal.
  cbn [kid_nodes flat_map]. f_equal.
  - pose proof (consumed_regions uid rs) as Q. cbn [n_all flat_map expected]. rewrite app_nil_r, (same_full _ _ Q).
    destruct (same_hull _ _ Q) as (E1 & E2 & _). rewrite <- E1, <- E2. destruct rs; reflexivity.
  - destruct called as [g|]; [|reflexivity]. rewrite <- (IH bb uid rs g (or_introl eq_refl)). destruct (touched g) eqn:T; [cbn [flat_map]; now rewrite app_nil_r|].
    rewrite (same_full _ _ (function_regions g)). destruct (regions_of g) eqn:Rg; [reflexivity|].
    assert (K : touched g = true) by (apply touched_regions; congruence). congruence.
Qed.
Theorem extract_ordered : forall input f, input <> [] -> counted f -> within (Z.of_nat (length input)) (regions_of f) -> left_to_right f ->
  exists d, trace_to_non_generalized_tree input f = Ok d /\ events d = Done VStart 0 (Z.of_nat (length input)) (call_event f).
Proof.
  intros input f Ni C W L. assert (S : sound (regions_of f)) by (intros o l H; destruct (W o l H) as (A & B & _); auto).
  pose proof (function_neat f C S L) as N. set (len := Z.of_nat (length input)) in *.
  assert (Lp : 0 < len) by (destruct input; [congruence|cbn in len; lia]).
  unfold trace_to_non_generalized_tree, extract, trace_tree. fold len.
  destruct (up_neat len (function_node f) N) as (fn & U & P). rewrite bottom_up_eq. cbn [up_all]. rewrite U. cbn [bind own_ivs].
  rewrite (proj2 (Z.ltb_lt 0 len) Lp). cbn [bind iv_add existsb app].
  destruct (passed_same _ _ N P) as (E1 & E2 & E3).
  destruct (pass_good VStart [mkIv 0 len 0] [fn]) as (n' & B1 & B2 & (ks & B3 & B4) & B5).
  - discriminate.
  - intros i [<-|[]]. cbn. lia.
  - constructor; [apply (ps_good _ _ P)|constructor].
  - cbn [map filter]. destruct (full (n_ivs fn)); exact I.
  - rewrite B1. cbn [bind]. assert (Un : usable (n_ivs n')) by (inversion B2; subst; assumption).
    assert (Cv : forall p, cover (n_ivs n') p <-> 0 <= p < len).
    { intros p. rewrite B5. split.
      - intros (i & [<-|H] & K); [exact K|]. cbn [flat_map] in H. rewrite app_nil_r in H.
        assert (Q : cover (n_all (function_node f)) p) by (apply (ps_cover _ _ P); exists i; auto).
        destruct Q as (j & J1 & J2). destruct (function_regions f) as [_ R]. destruct (R j J1) as (l & R1 & R2). apply W in R1. unfold covers in J2. lia.
      - intros H. exists (mkIv 0 len 0). split; [left; reflexivity|exact H]. }
    destruct (usable_same (n_ivs n') [mkIv 0 len 0] Un) as (F1 & F2 & F3); [intros i [<-|[]]; cbn; lia| |].
    { intros p. rewrite Cv. split; [intros H; exists (mkIv 0 len 0); split; [left; reflexivity|exact H]|intros (i & [<-|[]] & H); exact H]. }
    cbn in F1, F2, F3.
    destruct (finish_good input n' B2) with (i := n_ivs n') as (d & D1 & D2 & D3 & D4 & D5 & _).
    + intros Q. rewrite Q in F3. discriminate.
    + split; [|tauto]. inversion B2 as [? ? ? ? Sg]; subst. apply Sg.
    + rewrite D1. cbn [bind]. unfold n_first, n_last in D2, D3. rewrite F1 in D2. rewrite F2 in D3.
      pose proof (tiles_verify input d D4) as V. rewrite D2 in V. cbn [Z.to_nat skipn] in V. rewrite V. cbn [bind].
      exists d. split; [reflexivity|]. rewrite D5, B3. cbn [ranged]. rewrite F1, F2. f_equal. subst ks. rewrite <- function_expected, <- E3.
      cbn [filter]. destruct (full (n_ivs fn)) eqn:Ff; [|reflexivity]. cbn [map]. f_equal. apply (ps_ranged _ _ P). congruence.
Qed.
