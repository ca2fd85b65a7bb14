(** Proofs about M_PyPlugins. *)
From Coq Require Import NArith List Bool Lia Arith.
From Verif Require Import M_Base M_PyPlugins S_Plugins P_Base.
Import ListNotations.
Open Scope N_scope.

Lemma name_eqb_iff : forall a b, name_eqb a b = true <-> a = b.
Proof.
  induction a as [|x a IH]; destruct b as [|y b]; cbn; try (split; congruence).
  rewrite andb_true_iff, N.eqb_eq, IH. split; [intros [-> ->]; reflexivity|intro H; inversion H; auto].
Qed.
Lemma lookup_none : forall d n, lookup d n = None <-> ~ In n (map fst d).
Proof.
  induction d as [|[k v] d IH]; intro n; cbn; [tauto|]. destruct (name_eqb k n) eqn:E.
  - apply name_eqb_iff in E. split; [discriminate|]. intro H. exfalso. apply H. left. assumption.
  - rewrite IH. split; [|tauto]. intros H [X|X]; [|tauto]. apply name_eqb_iff in X. congruence.
Qed.
Lemma assign_new : forall d n v, ~ In n (map fst d) -> assign d n v = d ++ [(n, v)].
Proof.
  induction d as [|[k w] d IH]; intros n v H; cbn; [reflexivity|]. destruct (name_eqb k n) eqn:E.
  - apply name_eqb_iff in E. exfalso. apply H. left. assumption.
  - rewrite IH; [reflexivity|]. intro X. apply H. right. assumption.
Qed.
Lemma lookup_in : forall d n i, lookup d n = Some i -> In (n, i) d.
Proof.
  induction d as [|[k w] d IH]; intros n i H; cbn in *; [discriminate|]. destruct (name_eqb k n) eqn:E; [|right; auto].
  apply name_eqb_iff in E. left. congruence.
Qed.
Lemma in_lookup : forall d n i, NoDup (map fst d) -> In (n, i) d -> lookup d n = Some i.
Proof.
  induction d as [|[k w] d IH]; intros n i D H; cbn in *; [contradiction|]. inversion D as [|? ? D1 D2]; subst. destruct H as [H|H].
  - inversion H; subst. rewrite (proj2 (name_eqb_iff n n) eq_refl). reflexivity.
  - destruct (name_eqb k n) eqn:E; [|auto]. apply name_eqb_iff in E. subst. exfalso. apply D1. apply (in_map fst) in H. exact H.
Qed.

Lemma define_all_snoc : forall ds r c, define_all r (ds ++ [c]) =
  let '(r1, o1) := define_all r ds in let '(r2, o2) := define r1 c in (r2, o1 && o2).
Proof.
  induction ds as [|d ds IH]; intros r c; cbn [define_all app].
  - destruct (define r c) as [r1 o1]. rewrite andb_true_r. reflexivity.
  - destruct (define r d) as [r1 o1]. rewrite IH. destruct (define_all r1 ds) as [r2 o2]. destruct (define r2 c) as [r3 o3].
    rewrite andb_assoc. reflexivity.
Qed.
Lemma documented_prefix : forall ds c, documented (ds ++ [c]) -> documented ds.
Proof.
  intros ds c D i x H. assert (L : (i < length ds)%nat) by (apply nth_error_Some; congruence).
  destruct (D i x) as (A & B & C); [rewrite nth_error_app1; assumption|]. split; [assumption|]. split; [assumption|].
  destruct (ckind x); [assumption| |]; destruct C as (p & pc & C1 & C2 & C3 & C4); exists p, pc; rewrite nth_error_app1 in C3 by lia; auto.
Qed.
Lemma documented_last : forall ds c, documented (ds ++ [c]) -> cplugin c = None /\ chelp c = true /\
    match ckind c with
    | KCommand => cparent c = None
    | _ => exists p pc, cparent c = Some p /\ (p < length ds)%nat /\ nth_error ds p = Some pc /\ ckind pc <> KExtension
    end.
Proof.
  intros ds c D. destruct (D (length ds) c) as (A & B & C); [rewrite nth_error_app2, Nat.sub_diag by lia; reflexivity|].
  split; [assumption|]. split; [assumption|].
  destruct (ckind c); [assumption| |]; destruct C as (p & pc & C1 & C2 & C3 & C4); exists p, pc; rewrite nth_error_app1 in C3 by lia; auto.
Qed.
Lemma parent_before : forall ds i c p, documented ds -> nth_error ds i = Some c -> cparent c = Some p -> (p < i)%nat.
Proof.
  intros ds i c p D H E. destruct (D i c H) as (_ & _ & C). destruct (ckind c); [congruence| |];
    destruct C as (q & pc & C1 & C2 & _); assert (q = p) by congruence; subst; assumption.
Qed.
Lemma key_app : forall ds d c, (forall p, cparent c = Some p -> (p < length ds)%nat) -> plugin_key (ds ++ [d]) c = plugin_key ds c.
Proof.
  intros ds d c H. unfold plugin_key. destruct (cplugin c); [reflexivity|]. destruct (cparent c) as [p|]; [|reflexivity].
  rewrite nth_error_app1 by (apply H; reflexivity). reflexivity.
Qed.
Lemma extensions_app : forall ds c n i, extensions_from n (ds ++ [c]) i = extensions_from n ds i ++
  match ckind c, cparent c with KExtension, Some p => if Nat.eqb p i then [(n + length ds)%nat] else [] | _, _ => [] end.
Proof.
  induction ds as [|d ds IH]; intros c n i; cbn [app extensions_from length].
  - rewrite Nat.add_0_r. destruct (ckind c), (cparent c) as [p|]; reflexivity.
  - rewrite IH. replace (S n + length ds)%nat with (n + S (length ds))%nat by lia.
    destruct (ckind d), (cparent d) as [p|]; try reflexivity. destruct (Nat.eqb p i); reflexivity.
Qed.

Record inv (ds : list cls) (r : registry) : Prop := {
  iv_classes : classes r = ds;
  iv_keys : map fst (plugins r) = map (plugin_key ds) ds;
  iv_nodup : NoDup (map fst (plugins r));
  iv_commands : forall n i, In (n, i) (commands r) <-> exists c, nth_error ds i = Some c /\ ckind c = KCommand /\ cname c = n;
  iv_once : NoDup (map fst (commands r));
  iv_subs : forall p j, In j (sub_types r p) <-> exists c, nth_error ds j = Some c /\ ckind c = KSubcommand /\ cparent c = Some p;
  iv_exts : forall p, ext_types r p = extensions ds p }.

Lemma key_in : forall ds i c, nth_error ds i = Some c -> In (plugin_key ds c) (map (plugin_key ds) ds).
Proof. intros ds i c H. apply in_map. eapply nth_error_In. eassumption. Qed.
Lemma nth_last : forall (ds : list cls) c i x, nth_error (ds ++ [c]) i = Some x <-> nth_error ds i = Some x \/ (i = length ds /\ x = c).
Proof.
  intros ds c i x. split.
  - intro H. destruct (Nat.lt_ge_cases i (length ds)) as [L|L].
    + rewrite nth_error_app1 in H by assumption. auto.
    + rewrite nth_error_app2 in H by assumption. destruct (i - length ds)%nat as [|k] eqn:E; [|destruct k; discriminate].
      right. cbn in H. split; [lia|congruence].
  - intros [H|[-> ->]].
    + rewrite nth_error_app1; [assumption|]. apply nth_error_Some. congruence.
    + rewrite nth_error_app2, Nat.sub_diag by lia. reflexivity.
Qed.

Lemma define_true : forall ds r c, inv ds r -> documented (ds ++ [c]) ->
  (snd (define r c) = true <-> ~ In (plugin_key ds c) (map (plugin_key ds) ds)).
Proof.
  intros ds r c V D. unfold define. rewrite (iv_classes _ _ V). rewrite <- (iv_keys _ _ V), <- lookup_none.
  destruct (documented_last ds c D) as (_ & H & _). rewrite H.
  destruct (lookup _ _); [cbn; split; discriminate|]. destruct (ckind c); cbn; tauto.
Qed.
Lemma define_inv : forall ds r c r', inv ds r -> documented (ds ++ [c]) -> define r c = (r', true) -> inv (ds ++ [c]) r'.
Proof.
  intros ds r c r' V D E.
  assert (K : ~ In (plugin_key ds c) (map (plugin_key ds) ds)) by (apply (define_true ds r c V D); rewrite E; reflexivity).
  destruct (documented_last ds c D) as (Hp & Hh & Hk). pose proof (documented_prefix ds c D) as D0.
  assert (Kc : plugin_key (ds ++ [c]) c = plugin_key ds c).
  { apply key_app. intros p Q. destruct (ckind c); [congruence| |]; destruct Hk as (q & pc & Q1 & Q2 & _); assert (q = p) by congruence; subst; assumption. }
  assert (Km : map (plugin_key (ds ++ [c])) (ds ++ [c]) = map (plugin_key ds) ds ++ [plugin_key ds c]).
  { rewrite map_app. cbn [map]. rewrite Kc. f_equal. apply map_ext_in. intros x Hx. apply In_nth_error in Hx. destruct Hx as [i Hi].
    apply key_app. intros p Q. pose proof (parent_before ds i x p D0 Hi Q). assert (i < length ds)%nat by (apply nth_error_Some; congruence). lia. }
  unfold define in E. rewrite (iv_classes _ _ V) in E.
  rewrite <- (iv_keys _ _ V) in K. rewrite (proj2 (lookup_none _ _) K) in E. rewrite Hh in E. rewrite (assign_new _ _ _ K) in E.
  assert (N1 : NoDup (map fst (plugins r ++ [(plugin_key ds c, length ds)]))).
  { rewrite map_app. cbn [map fst]. pose proof (iv_nodup _ _ V) as R. apply NoDup_rev in R. rewrite <- (rev_involutive (_ ++ _)). apply NoDup_rev.
    rewrite rev_app_distr. cbn. constructor; [rewrite <- in_rev; assumption|assumption]. }
  assert (G : classes r' = ds ++ [c] /\ plugins r' = plugins r ++ [(plugin_key ds c, length ds)] /\
    commands r' = (match ckind c with KCommand => assign (commands r) (cname c) (length ds) | _ => commands r end) /\
    sub_types r' = (match ckind c, cparent c with KSubcommand, Some p => push (sub_types r) p (length ds) | _, _ => sub_types r end) /\
    ext_types r' = (match ckind c, cparent c with KExtension, Some p => push (ext_types r) p (length ds) | _, _ => ext_types r end)).
  { destruct (ckind c); inversion E; cbn; auto. }
  destruct G as (G1 & G2 & G3 & G4 & G5).
  assert (New : ckind c = KCommand -> ~ In (cname c) (map fst (commands r))).
  { intros Ek X. rewrite Ek in Hk. apply in_map_iff in X. destruct X as ((n & i) & X1 & X2). cbn in X1. subst n.
    apply (iv_commands _ _ V) in X2. destruct X2 as (x & X2 & X3 & X4). apply K. rewrite (iv_keys _ _ V).
    replace (plugin_key ds c) with (plugin_key ds x) by (
      destruct (D0 i x X2) as (P1 & _ & P2); rewrite X3 in P2; unfold plugin_key; rewrite P1, P2, Hp, Hk; assumption).
    eapply key_in. eassumption. }
  constructor.
  - assumption.
  - rewrite G2, Km, map_app, (iv_keys _ _ V). reflexivity.
  - rewrite G2. assumption.
  - intros n i. rewrite G3. destruct (ckind c) eqn:Ek.
    + rewrite assign_new by (apply New; reflexivity). rewrite in_app_iff, (iv_commands _ _ V). cbn [In]. split.
      * intros [(x & A)|[A|[]]].
        -- exists x. destruct A as (A1 & A2 & A3). split; [apply nth_last; auto|auto].
        -- inversion A; subst. exists c. split; [apply nth_last; auto|auto].
      * intros (x & A & B & C). apply nth_last in A. destruct A as [A|[-> ->]]; [left; exists x; auto|right; left; congruence].
    + rewrite (iv_commands _ _ V). split; intros (x & A & B & C); exists x; (split; [|auto]); [apply nth_last; auto|].
      apply nth_last in A. destruct A as [A|[-> ->]]; [assumption|congruence].
    + rewrite (iv_commands _ _ V). split; intros (x & A & B & C); exists x; (split; [|auto]); [apply nth_last; auto|].
      apply nth_last in A. destruct A as [A|[-> ->]]; [assumption|congruence].
  - rewrite G3. destruct (ckind c) eqn:Ek; try apply (iv_once _ _ V). rewrite assign_new by (apply New; reflexivity).
    rewrite map_app. cbn [map fst]. pose proof (iv_once _ _ V) as R. apply NoDup_rev in R. rewrite <- (rev_involutive (_ ++ _)). apply NoDup_rev.
    rewrite rev_app_distr. cbn. constructor; [rewrite <- in_rev; apply New; reflexivity|assumption].
  - intros p j. rewrite G4.
    assert (Same : ~ (ckind c = KSubcommand /\ cparent c = Some p) ->
      ((exists x, nth_error ds j = Some x /\ ckind x = KSubcommand /\ cparent x = Some p) <->
       exists x, nth_error (ds ++ [c]) j = Some x /\ ckind x = KSubcommand /\ cparent x = Some p)).
    { intro No. split; intros (x & A & B & C); exists x; (split; [|auto]); [apply nth_last; auto|].
      apply nth_last in A. destruct A as [A|[-> ->]]; [assumption|tauto]. }
    destruct (ckind c) eqn:Ek; try (rewrite (iv_subs _ _ V); apply Same; intros [? ?]; congruence).
    destruct (cparent c) as [q|] eqn:Eq; [|rewrite (iv_subs _ _ V); apply Same; intros [? ?]; congruence].
    unfold push. destruct (Nat.eqb_spec p q) as [->|Nq]; [|rewrite (iv_subs _ _ V); apply Same; intros [? ?]; congruence].
    rewrite in_app_iff, (iv_subs _ _ V). cbn [In]. split.
    + intros [(x & A & B)|[<-|[]]]; [exists x; split; [apply nth_last; auto|assumption]|exists c; split; [apply nth_last; auto|auto]].
    + intros (x & A & B). apply nth_last in A. destruct A as [A|[-> ->]]; [left; exists x; auto|right; left; reflexivity].
  - intro p. rewrite G5. unfold extensions. rewrite extensions_app, Nat.add_0_l. fold (extensions ds p).
    destruct (ckind c) eqn:Ek; try (rewrite app_nil_r; apply (iv_exts _ _ V)).
    destruct (cparent c) as [q|]; [|rewrite app_nil_r; apply (iv_exts _ _ V)].
    unfold push. rewrite (Nat.eqb_sym q p). destruct (Nat.eqb p q); rewrite (iv_exts _ _ V); [reflexivity|rewrite app_nil_r; reflexivity].
Qed.
Lemma define_all_inv : forall ds r, documented ds -> define_all no_classes ds = (r, true) -> inv ds r.
Proof.
  induction ds as [|c ds IH] using rev_ind; intros r D E.
  - cbn in E. inversion E; subst. constructor; cbn; try reflexivity; try constructor; try contradiction;
      intros (c & H & _); destruct i || destruct j; discriminate.
  - rewrite define_all_snoc in E. destruct (define_all no_classes ds) as [r1 o1] eqn:E1. destruct (define r1 c) as [r2 o2] eqn:E2.
    inversion E as [[H1 H2]]. apply andb_true_iff in H2. destruct H2 as [-> ->]. subst r2.
    eapply define_inv; [apply IH; [eapply documented_prefix; eassumption|reflexivity]|assumption|assumption].
Qed.

(** ** The command line *)
Section Run.
Variables (ds : list cls) (r : registry).
Hypotheses (D : documented ds) (V : inv ds r).

Lemma keys_distinct : forall i j c d, nth_error ds i = Some c -> nth_error ds j = Some d -> plugin_key ds c = plugin_key ds d -> i = j.
Proof.
  intros i j c d A B E. pose proof (iv_nodup _ _ V) as N1. rewrite (iv_keys _ _ V) in N1. rewrite NoDup_nth_error in N1.
  apply N1.
  - rewrite map_length. apply nth_error_Some. congruence.
  - rewrite (map_nth_error (plugin_key ds) i ds A), (map_nth_error (plugin_key ds) j ds B). congruence.
Qed.
Lemma find_sub_some : forall ids n j, find_sub r ids n = Some j -> In j ids /\ exists c, nth_error ds j = Some c /\ cname c = n.
Proof.
  induction ids as [|i ids IH]; intros n j H; cbn in H; [discriminate|].
  destruct (find_sub r ids n) as [k|] eqn:E.
  - inversion H; subst. destruct (IH n j E) as (A & B). split; [right; assumption|assumption].
  - rewrite (iv_classes _ _ V) in H. destruct (nth_error ds i) as [c|] eqn:Ei; [|discriminate]. destruct (name_eqb (cname c) n) eqn:En; [|discriminate].
    inversion H; subst. apply name_eqb_iff in En. split; [left; reflexivity|exists c; auto].
Qed.
Lemma find_sub_none : forall ids n j c, find_sub r ids n = None -> In j ids -> nth_error ds j = Some c -> cname c <> n.
Proof.
  induction ids as [|i ids IH]; intros n j c H I E; cbn in *; [contradiction|].
  destruct (find_sub r ids n) as [k|] eqn:F; [discriminate|]. destruct I as [->|I]; [|eapply IH; eauto].
  rewrite (iv_classes _ _ V), E in H. destruct (name_eqb (cname c) n) eqn:En; [discriminate|]. intro X. apply name_eqb_iff in X. congruence.
Qed.
Lemma find_sub_iff : forall p n j, find_sub r (sub_types r p) n = Some j <->
  exists c, nth_error ds j = Some c /\ ckind c = KSubcommand /\ cparent c = Some p /\ cname c = n.
Proof.
  intros p n j. split.
  - intro H. apply find_sub_some in H. destruct H as (A & c & B & C). apply (iv_subs _ _ V) in A. destruct A as (d & A1 & A2 & A3).
    assert (d = c) by congruence. subst. exists c. auto.
  - intros (c & A & B & C & E). assert (I : In j (sub_types r p)) by (apply (iv_subs _ _ V); exists c; auto).
    destruct (find_sub r (sub_types r p) n) as [k|] eqn:F.
    + apply find_sub_some in F. destruct F as (G & d & G1 & G2). apply (iv_subs _ _ V) in G. destruct G as (d' & G3 & G4 & G5).
      assert (d' = d) by congruence. subst d'. f_equal. apply (keys_distinct k j d c G1 A).
      destruct (D k d G1) as (P1 & _). destruct (D j c A) as (P2 & _). unfold plugin_key. rewrite P1, P2, G5, C, G2, E. reflexivity.
    + exfalso. exact (find_sub_none _ _ _ _ F I A E).
Qed.
Lemma descend_snoc : forall words i n, descend r i (words ++ [n]) =
  match descend r i words with Some j => find_sub r (sub_types r j) n | None => None end.
Proof.
  induction words as [|w words IH]; intros i n; cbn.
  - destruct (find_sub r (sub_types r i) n); reflexivity.
  - destruct (find_sub r (sub_types r i) w); [apply IH|reflexivity].
Qed.
Lemma resolve_snoc : forall words n, words <> [] -> resolve r (words ++ [n]) =
  match resolve r words with Some j => find_sub r (sub_types r j) n | None => None end.
Proof.
  intros [|w words] n H; [contradiction|]. cbn. destruct (lookup (commands r) w); [apply descend_snoc|reflexivity].
Qed.
Lemma called_nonempty : forall i words, called ds i words -> words <> [].
Proof. intros i words [i0 c A B|i0 c p ws A B C E]; [discriminate|]. destruct ws; discriminate. Qed.
Lemma resolve_called : forall words i, resolve r words = Some i <-> called ds i words.
Proof.
  intros words i. split.
  - revert i. induction words as [|n words IH] using rev_ind; intros i H; [discriminate|].
    destruct words as [|w words'].
    + cbn in H. destruct (lookup (commands r) n) as [k|] eqn:E; [|discriminate]. cbn in H. inversion H; subst. apply lookup_in in E.
      apply (iv_commands _ _ V) in E. destruct E as (c & A & B & <-). cbn. constructor; assumption.
    + rewrite resolve_snoc in H by discriminate. destruct (resolve r (w :: words')) as [k|] eqn:E; [|discriminate].
      apply find_sub_iff in H. destruct H as (c & A & B & C & <-). eapply called_sub; eauto.
  - induction 1 as [i c A B|i c p ws A B C Hc IH].
    + cbn. rewrite (in_lookup (commands r) (cname c) i); [reflexivity|apply (iv_once _ _ V)|]. apply (iv_commands _ _ V). exists c. auto.
    + rewrite resolve_snoc by (eapply called_nonempty; eassumption). rewrite IH. apply find_sub_iff. exists c. auto.
Qed.
Lemma parsers_ok : forall fuel i c, nth_error ds i = Some c -> (length ds - i < fuel)%nat -> parsers fuel r i = true.
Proof.
  induction fuel as [|f IH]; intros i c H L; [lia|]. cbn. rewrite (iv_classes _ _ V), H. destruct (D i c H) as (_ & -> & _). cbn.
  apply forallb_forall. intros j Hj. apply (iv_subs _ _ V) in Hj. destruct Hj as (d & A & _ & B).
  pose proof (parent_before ds j d i D A B). assert (j < length ds)%nat by (apply nth_error_Some; congruence). apply (IH j d A). lia.
Qed.
Lemma built : forall fuel, (length ds < fuel)%nat -> forallb (fun e => parsers fuel r (snd e)) (commands r) = true.
Proof.
  intros fuel L. apply forallb_forall. intros [n i] H. apply (iv_commands _ _ V) in H. destruct H as (c & A & _).
  apply (parsers_ok fuel i c A). cbn. lia.
Qed.
End Run.

Lemma stack_called : forall ds i words, documented ds -> called ds i words -> forall fuel, (i < fuel)%nat -> stack_names fuel ds i = rev words.
Proof.
  intros ds i words D. induction 1 as [i c A B|i c p ws A B C Hc IH]; intros [|f] L; try lia; cbn [stack_names]; rewrite A.
  - destruct (D i c A) as (_ & _ & P). rewrite B in P. rewrite P. reflexivity.
  - rewrite C, IH; [rewrite rev_app_distr; reflexivity|]. pose proof (parent_before ds i c p D A C). lia.
Qed.

(** ** Which histories succeed *)
Lemma split_underscore : forall a b x y : list N, ~ In 95 a -> ~ In 95 b -> a ++ [95] ++ x = b ++ [95] ++ y -> a = b /\ x = y.
Proof.
  induction a as [|u a IH]; destruct b as [|v b]; intros x y A B E; cbn in E.
  - inversion E. auto.
  - inversion E; subst. exfalso. apply B. left. reflexivity.
  - inversion E; subst. exfalso. apply A. left. reflexivity.
  - inversion E; subst. destruct (IH b x y) as [-> ->]; auto; intro X; [apply A|apply B]; right; assumption.
Qed.
Lemma key_names : forall ds i j c d, documented ds -> (forall k e, nth_error ds k = Some e -> ~ In 95 (cname e)) ->
  nth_error ds i = Some c -> nth_error ds j = Some d -> plugin_key ds c = plugin_key ds d -> names_of ds c = names_of ds d.
Proof.
  intros ds i j c d D U A B. destruct (D i c A) as (P1 & _ & Q1). destruct (D j d B) as (P2 & _ & Q2).
  unfold plugin_key, names_of. rewrite P1, P2.
  assert (X : forall k e, nth_error ds k = Some e -> cparent e = None \/ exists p pc, cparent e = Some p /\ nth_error ds p = Some pc /\ cplugin pc = None).
  { intros k e H. destruct (D k e H) as (_ & _ & Q). destruct (ckind e); [auto| |]; destruct Q as (p & pc & R1 & _ & R2 & _); right; exists p, pc;
      split; try assumption; split; try assumption; apply (D p pc R2). }
  assert (Ni : forall (a b x : list N), ~ In 95 a -> b ++ [95] ++ x <> a).
  { intros a b x N E. apply N. rewrite <- E. apply in_or_app. right. left. reflexivity. }
  destruct (X i c A) as [->|(p & pc & E1 & E2 & E3)]; destruct (X j d B) as [->|(q & qc & F1 & F2 & F3)]; intro H.
  - rewrite H. reflexivity.
  - rewrite F1, F2, F3 in H. exfalso. apply (Ni (cname c) _ _ (U i c A) (eq_sym H)).
  - rewrite E1, E2, E3 in H. exfalso. apply (Ni (cname d) _ _ (U j d B) H).
  - rewrite E1, E2, E3, F1, F2, F3 in H. apply split_underscore in H; [|apply (U p pc E2)|apply (U q qc F2)]. destruct H as [H1 H2].
    rewrite E1, E2, F1, F2. cbn. rewrite H1, H2. reflexivity.
Qed.
Lemma names_app : forall ds d c, (forall p, cparent c = Some p -> (p < length ds)%nat) -> names_of (ds ++ [d]) c = names_of ds c.
Proof.
  intros ds d c H. unfold names_of. destruct (cparent c) as [p|]; [|reflexivity].
  rewrite nth_error_app1 by (apply H; reflexivity). reflexivity.
Qed.
Lemma all_defined : forall ds, documented ds -> (forall k e, nth_error ds k = Some e -> ~ In 95 (cname e)) ->
  NoDup (map (names_of ds) ds) -> snd (define_all no_classes ds) = true.
Proof.
  induction ds as [|c ds IH] using rev_ind; intros D U N1; [reflexivity|].
  pose proof (documented_prefix ds c D) as D0. pose proof (documented_last ds c D) as Dl.
  assert (Pc : forall p, cparent c = Some p -> (p < length ds)%nat).
  { intros p E. destruct Dl as (_ & _ & Q). destruct (ckind c); [congruence| |]; destruct Q as (q & pc & Q1 & Q2 & _); assert (q = p) by congruence; subst; assumption. }
  assert (Px : forall x, In x ds -> forall p, cparent x = Some p -> (p < length ds)%nat).
  { intros x Hx p E. apply In_nth_error in Hx. destruct Hx as [i Hi]. pose proof (parent_before ds i x p D0 Hi E).
    assert (i < length ds)%nat by (apply nth_error_Some; congruence). lia. }
  assert (M : map (names_of (ds ++ [c])) (ds ++ [c]) = map (names_of ds) ds ++ [names_of ds c]).
  { rewrite map_app. cbn [map]. rewrite (names_app ds c c Pc). f_equal. apply map_ext_in. intros x Hx. apply names_app. apply Px. assumption. }
  rewrite M in N1. apply NoDup_remove in N1. rewrite app_nil_r in N1. destruct N1 as [N1 N2].
  specialize (IH D0). rewrite define_all_snoc. destruct (define_all no_classes ds) as [r1 o1] eqn:E1. cbn [snd] in IH.
  assert (o1 = true) by (apply IH; [intros k e H; apply (U k e); apply nth_last; auto|assumption]). subst o1.
  pose proof (define_all_inv ds r1 D0 E1) as V. pose proof (define_true ds r1 c V D) as T.
  destruct (define r1 c) as [r2 o2]. cbn [snd] in *. cbn [andb]. apply T. intro X. apply N2.
  apply in_map_iff in X. destruct X as (x & X1 & X2). apply in_map_iff. exists x. split; [|assumption].
  apply In_nth_error in X2. destruct X2 as [i Hi].
  rewrite <- (names_app ds c x) by (apply Px; eapply nth_error_In; eassumption). rewrite <- (names_app ds c c Pc).
  apply (key_names (ds ++ [c]) i (length ds) x c D U); [apply nth_last; auto|apply nth_last; auto|].
  rewrite (key_app ds c x) by (apply Px; eapply nth_error_In; eassumption). rewrite (key_app ds c c Pc). assumption.
Qed.
