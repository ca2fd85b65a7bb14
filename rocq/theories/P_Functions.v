From Coq Require Import Arith NArith List Bool Lia.
From Verif Require Import M_Base M_Memory M_Section M_StringTable M_Sources M_PySections M_Functions
  S_Section S_Strings S_Functions P_Base P_Memory P_Section P_PyBase P_Strings.
Import ListNotations.
Open Scope N_scope.

Lemma bytes_eqb_spec a b : bytes_eqb a b = true <-> a = b.
Proof.
  revert b. induction a as [|x a IH]; destruct b as [|y b]; cbn; split; intros; try congruence; try discriminate.
  - apply andb_prop in H as [H1 H2]. apply N.eqb_eq in H1. apply IH in H2. congruence.
  - inversion H; subst. rewrite N.eqb_refl. cbn. now apply IH.
Qed.

Definition disjoint (s t : sect) : Prop := send s <= sbeg t \/ send t <= sbeg s.

(** [offs] are the string offsets of [names] in a string table holding [acc]. *)
Definition named (acc names : list (list N)) (offs : list N) : Prop :=
  Forall2 (fun x o => exists a b, acc = a ++ x :: b /\ o = len (st_bytes a)) names offs.

Definition fn_bytes (offs : list N) : list N := concat (map (le_bytes 4) offs).

Record fn_inv (m : mem) (st fs : sect) (f : fn_map) (names acc : list (list N)) (offs : list N) : Prop := {
  fi_st : holds m st (st_bytes acc);
  fi_fs : holds m fs (fn_bytes offs);
  fi_named : named acc names offs;
  fi_find : forall x i, fn_find f x = Some i <-> get names i = Some x;
  fi_dis : disjoint st fs;
  fi_stb : send st - sbeg st < two32;
  fi_fsb : send fs - sbeg fs <= fn_allocation_size;
  fi_strs : Forall str_ok acc
}.

Lemma named_ext acc names offs ext : named acc names offs -> named (acc ++ ext) names offs.
Proof.
  intros H. induction H as [|x o names offs (a & b & -> & ->) H IH]; constructor; auto.
  exists a, (b ++ ext). rewrite <- app_assoc. auto.
Qed.

Lemma recs_le4 offs : recs_ok 4 (map (le_bytes 4) offs).
Proof. apply Forall_forall. intros r H. apply in_map_iff in H as (x & <- & _). apply len_le_bytes. Qed.

Lemma len_fn_bytes offs : len (fn_bytes offs) = 4 * len offs.
Proof. unfold fn_bytes. rewrite (len_concat 4) by apply recs_le4. now rewrite len_map. Qed.

Lemma fn_bytes_snoc offs o : fn_bytes (offs ++ [o]) = fn_bytes offs ++ le_bytes 4 o.
Proof. unfold fn_bytes. rewrite map_app, concat_app. cbn [map concat]. now rewrite app_nil_r. Qed.

Lemma Forall2_len {A B} (R : A -> B -> Prop) l m : Forall2 R l m -> len l = len m.
Proof. induction 1; [reflexivity|]. rewrite !len_cons. congruence. Qed.

Lemma find_none_not_in m st fs f names acc offs x : fn_inv m st fs f names acc offs ->
  fn_find f x = None -> ~ In x names.
Proof.
  intros I E H. apply In_nth_error in H as (i & Hi).
  assert (G : get names (N.of_nat i) = Some x) by (unfold get; now rewrite Nat2N.id).
  apply (fi_find _ _ _ _ _ _ _ I) in G. congruence.
Qed.

Lemma get_snoc {A} (l : list A) x i y : get (l ++ [x]) i = Some y <->
  (get l i = Some y \/ (i = len l /\ y = x)).
Proof.
  destruct (N.ltb_spec i (len l)) as [L|L].
  - rewrite get_app_l by assumption. split; [auto|]. intros [H|[-> _]]; [auto|lia].
  - rewrite get_app_r by assumption. destruct (N.eqb_spec i (len l)) as [->|E].
    + rewrite N.sub_diag. cbn. split; [intros H; inversion H; auto|].
      intros [H|[_ ->]]; [apply get_some in H; lia|reflexivity].
    + rewrite get_cons_S by lia. rewrite get_nil. split; [discriminate|].
      intros [H|[-> _]]; [apply get_some in H; lia|lia].
Qed.

Definition st_room (st : sect) (acc : list (list N)) (x : list N) : Prop :=
  sbeg st + len (st_bytes acc) + allocated_len (len x) <= send st.

Lemma add_mapping_spec m st fs f names acc offs x :
  fn_inv m st fs f names acc offs -> str_ok x ->
  exists o m' st' fs' f' names' acc' offs',
    add_mapping m st fs f x = Ok (o, m', st', fs', f') /\
    fn_inv m' st' fs' f' names' acc' offs' /\
    sbeg st' = sbeg st /\ send st' = send st /\ sbeg fs' = sbeg fs /\ send fs' = send fs /\
    (forall a, (a < sbeg st \/ send st <= a) -> (a < sbeg fs \/ send fs <= a) -> m' a = m a) /\
    (exists ext, acc' = acc ++ ext /\ (ext = [] \/ ext = [x])) /\
    ((exists i, o = Some i /\ get names i = Some x /\ names' = names) \/
     (~ In x names /\ o = Some (len names) /\ names' = names ++ [x]) \/
     (~ In x names /\ o = None /\ names' = names /\
        (~ st_room st acc x \/ send fs < sbeg fs + 4 * (len names + 1)))).
Proof.
  intros I X. pose proof I as [Hst Hfs Hn Hf Hd Hb1 Hb2 Hk]. unfold add_mapping.
  destruct (fn_find f x) as [i|] eqn:E.
  { exists (Some i), m, st, fs, f, names, acc, offs. split; [reflexivity|]. split; [exact I|].
    repeat (split; [solve [auto]|]). split; [exists []; rewrite app_nil_r; auto|]. left. exists i.
    repeat split; auto. now apply Hf. }
  assert (NI := find_none_not_in _ _ _ _ _ _ _ _ I E).
  destruct (add_string_spec m st acc x Hst Hb1 X) as [Fit Full].
  destruct (N.leb_spec (sbeg st + len (st_bytes acc) + allocated_len (len x)) (send st)) as [L|L].
  2:{ rewrite (Full L). cbn [bind]. exists None, m, st, fs, f, names, acc, offs. split; [reflexivity|].
      split; [exact I|]. repeat (split; [solve [auto]|]). split; [exists []; rewrite app_nil_r; auto|].
      right; right. repeat split; auto. left. unfold st_room. lia. }
  destruct (Fit L) as (m1 & st1 & -> & H1 & S1 & S2 & F1). cbn [bind].
  assert (Hfs1 : holds m1 fs (fn_bytes offs)).
  { eapply holds_other; [exact Hfs|exact F1|]. unfold disjoint in Hd. lia. }
  assert (Ln : len names = len offs) by (eapply Forall2_len; exact Hn).
  assert (S4 : len (le_bytes 4 (len (st_bytes acc))) < two64) by (rewrite len_le_bytes; reflexivity).
  destruct (construct m1 fs (le_bytes 4 (len (st_bytes acc)))) as [[[p m2] fs2]|] eqn:C.
  - destruct (construct_some _ _ _ _ _ _ _ Hfs1 S4 C)
      as (P & B1 & B2 & H2 & F2 & R).
    rewrite len_le_bytes in R. rewrite len_fn_bytes in P, R.
    rewrite (holds_index fs2 fn_entry_size p (len offs)) by (unfold fn_entry_size; try lia).
    cbn [bind].
    assert (SM : len offs mod two16 = len offs).
    { apply N.mod_small. unfold two16, fn_allocation_size, fn_entry_size in *. lia. }
    rewrite SM.
    exists (Some (len offs)), m2, st1, fs2, ((x, len offs) :: f), (names ++ [x]), (acc ++ [x]), (offs ++ [len (st_bytes acc)]).
    split; [reflexivity|]. split.
    { constructor.
      - eapply holds_other; [exact H1|exact F2|]. unfold disjoint in Hd. lia.
      - rewrite fn_bytes_snoc. exact H2.
      - apply Forall2_app; [now apply named_ext|]. constructor; [|constructor].
        exists acc, []. auto.
      - intros y i. rewrite get_snoc. cbn [fn_find]. destruct (bytes_eqb x y) eqn:Q.
        + apply bytes_eqb_spec in Q. subst y. split.
          * intros G. inversion G; subst. right. split; [lia|reflexivity].
          * intros [G|[-> _]]; [|congruence]. exfalso. apply NI. unfold get in G. eapply nth_error_In; eauto.
        + rewrite Hf. split; [auto|]. intros [G|[_ ->]]; [exact G|].
          exfalso. assert (bytes_eqb x x = true) by now apply bytes_eqb_spec. congruence.
      - unfold disjoint in *. lia.
      - now rewrite S1, S2.
      - now rewrite B1, B2.
      - apply Forall_app. split; auto. }
    repeat (split; [congruence|]). split; [|split].
    + intros a A1 A2. rewrite F2, F1; auto.
    + exists [x]; auto.
    + right; left. rewrite Ln. auto.
  - apply (construct_none m1 fs _ _ Hfs1 S4) in C.
    rewrite len_le_bytes, len_fn_bytes in C.
    exists None, m1, st1, fs, f, names, (acc ++ [x]), offs. split; [reflexivity|]. split.
    { constructor; auto.
      - now apply named_ext.
      - unfold disjoint in *. lia.
      - now rewrite S1, S2.
      - apply Forall_app. split; auto. }
    repeat (split; [congruence|]). split; [|split].
    + intros a A1 A2. now apply F1.
    + exists [x]; auto.
    + right; right. repeat split; auto. right. rewrite Ln. lia.
Qed.

(** Reading back. *)
Lemma py_functions_spec offs : Forall (fun o => o < two32) offs -> py_functions (fn_bytes offs) = Ok offs.
Proof.
  intros K. unfold py_functions, fn_bytes. rewrite py_enumerate_concat by (try lia; apply recs_le4).
  cbn [bind]. f_equal. rewrite map_map. rewrite <- (map_id offs) at 2. apply map_ext_in.
  intros o H. rewrite Forall_forall in K. apply le_round. apply K in H. exact H.
Qed.

Lemma named_small m st acc names offs : holds m st (st_bytes acc) -> send st - sbeg st < two32 ->
  named acc names offs -> Forall (fun o => o < two32) offs.
Proof.
  intros ((K1 & K2 & K3) & W & _) B N. induction N as [|x o names offs (a & b & -> & ->) N IH]; constructor; auto.
  assert (len (st_bytes a) <= len (st_bytes (a ++ x :: b))).
  { unfold st_bytes. rewrite map_app, concat_app, len_app. lia. }
  lia.
Qed.

Lemma named_get acc names offs i x : named acc names offs -> get names i = Some x ->
  exists a b, acc = a ++ x :: b /\ get offs i = Some (len (st_bytes a)).
Proof.
  unfold get. intros N. revert i. generalize dependent offs. induction names as [|y names IH]; intros offs N i G.
  - destruct (N.to_nat i); discriminate.
  - inversion N as [|? o ? offs' (a & b & E1 & E2) N']; subst. destruct (N.to_nat i) as [|k] eqn:Hi.
    + cbn in G. inversion G; subst. exists a, b. auto.
    + cbn in *. specialize (IH _ N' (N.of_nat k)). rewrite Nat2N.id in IH. apply IH. exact G.
Qed.

(** ** Runs *)
Lemma map_names_spec calls : forall m st fs f names acc offs,
  fn_inv m st fs f names acc offs -> NoDup names -> Forall str_ok calls ->
  exists answers m' st' fs' f' names' acc' offs',
    map_names m st fs f calls = Ok (answers, m', st', fs') /\
    fn_inv m' st' fs' f' names' acc' offs' /\ NoDup names' /\
    (exists ext, names' = names ++ ext) /\ length answers = length calls /\
    (forall k x i, get calls k = Some x -> get answers k = Some (Some i) -> get names' i = Some x) /\
    (forall a, (a < sbeg st \/ send st <= a) -> (a < sbeg fs \/ send fs <= a) -> m' a = m a) /\
    (Forall (fun o => o <> None) answers -> forall pre, distinct_names pre names -> distinct_names (pre ++ calls) names') /\
    (len (st_bytes acc) + names_size calls <= send st - sbeg st ->
     4 * (len names + len calls) <= send fs - sbeg fs -> Forall (fun o => o <> None) answers).
Proof.
  induction calls as [|x calls IH]; intros m st fs f names acc offs I D K.
  - exists [], m, st, fs, f, names, acc, offs. cbn [map_names]. repeat (split; [solve [auto]|]).
    split; [exists []; now rewrite app_nil_r|]. split; [reflexivity|]. split; [|split].
    + intros k x i G. rewrite get_nil in G. discriminate.
    + auto.
    + split; [|constructor]. intros _ pre P. rewrite app_nil_r. exact P.
  - inversion K; subst.
    destruct (add_mapping_spec m st fs f names acc offs x I H1)
      as (o & m1 & st1 & fs1 & f1 & n1 & a1 & o1 & E1 & I1 & B1 & B2 & B3 & B4 & F1 & (xa & X1 & X1') & Cs).
    assert (D1 : NoDup n1 /\ (exists ext, n1 = names ++ ext) /\ (forall i, o = Some i -> get n1 i = Some x) /\
      len n1 <= len names + 1 /\
      (len (st_bytes acc) + (2 + len x + len x mod 2) <= send st - sbeg st ->
       4 * (len names + 1) <= send fs - sbeg fs -> o <> None) /\
      (o <> None -> forall pre, distinct_names pre names -> distinct_names (pre ++ [x]) n1)).
    { destruct Cs as [(i & -> & G & ->)|[(NI & -> & ->)|(NI & -> & -> & H)]].
      - split; [auto|]. split; [exists []; now rewrite app_nil_r|]. split; [intros j Ej; congruence|].
        split; [lia|]. split; [discriminate|].
        intros _ pre P. apply dn_old; auto. unfold get in G. eapply nth_error_In; eauto.
      - split; [|split; [eexists; reflexivity|]].
        + apply (NoDup_Add (a := x) (l := names)); [|split; auto]. rewrite <- (app_nil_r names) at 1. apply Add_app.
        + split; [intros j Ej; inversion Ej; apply get_app_last|].
          split; [rewrite len_app, len_cons, len_nil; lia|]. split; [discriminate|]. intros _ pre P. now apply dn_new.
      - split; [auto|]. split; [exists []; now rewrite app_nil_r|]. split; [discriminate|].
        split; [lia|]. split; [|congruence].
        destruct I as [((Q1 & Q2 & Q3) & _) ((Q4 & Q5 & Q6) & _) _ _ _ _ _ _].
        intros R1 R2. unfold st_room in H. rewrite allocated_len_spec in H. lia. }
    destruct D1 as (D1 & (e1 & X2) & G1 & LN1 & NR1 & DN1).
    destruct (IH m1 st1 fs1 f1 n1 a1 o1 I1 D1 H2)
      as (ans & m2 & st2 & fs2 & f2 & n2 & a2 & o2 & E2 & I2 & D2 & (e2 & X3) & Ln & G2 & F2 & DN2 & NR2).
    exists (o :: ans), m2, st2, fs2, f2, n2, a2, o2.
    cbn [map_names]. rewrite E1. cbn [bind]. rewrite E2. cbn [bind].
    split; [reflexivity|]. split; [auto|]. split; [auto|].
    split; [exists (e1 ++ e2); subst; now rewrite app_assoc|]. split; [cbn; congruence|]. split; [|split; [|split]].
    + intros k y i Gc Ga. destruct (N.eqb_spec k 0) as [->|Hk].
      * cbn in Gc, Ga. inversion Gc; inversion Ga; subst. specialize (G1 i eq_refl).
        rewrite get_app_l; auto. eapply get_some; eauto.
      * rewrite get_cons_S in Gc by lia. rewrite get_cons_S in Ga by lia. eauto.
    + intros a A1 A2. rewrite F2, F1; auto; rewrite ?B1, ?B2, ?B3, ?B4; auto.
    + intros NN pre P. inversion NN; subst. replace (pre ++ x :: calls) with ((pre ++ [x]) ++ calls)
        by (rewrite <- app_assoc; reflexivity). apply DN2; auto.
    + intros R1 R2. cbn [names_size] in R1. rewrite len_cons in R2. constructor; [apply NR1; lia|].
      apply NR2; rewrite ?B1, ?B2, ?B3, ?B4; [|lia]. destruct X1' as [->| ->]; subst a1.
      * rewrite app_nil_r. lia.
      * rewrite st_bytes_snoc, len_app, len_entry, allocated_len_spec. lia.
Qed.

(** ** Function trace *)
Definition ev_rec (e : N * event_kind * N) : list N := let '(pad, k, fn) := e in event_bytes pad k fn.
Lemma len_ev_rec e : len (ev_rec e) = 4.
Proof. destruct e as [[pad k] fn]. unfold ev_rec, event_bytes. rewrite len_app, len_le_bytes. reflexivity. Qed.

Lemma recs_ev evs : recs_ok 4 (map ev_rec evs).
Proof. apply Forall_forall. intros r H. apply in_map_iff in H as (e & <- & _). apply len_ev_rec. Qed.
Definition ev_bytes (evs : list (N * event_kind * N)) : list N := concat (map ev_rec evs).
Lemma len_ev_bytes evs : len (ev_bytes evs) = 4 * len evs.
Proof. unfold ev_bytes. rewrite (len_concat 4) by apply recs_ev. now rewrite len_map. Qed.

Lemma log_fn_event_spec m s evs pad k fn : holds m s (ev_bytes evs) ->
  (sbeg s + 4 * (len evs + 1) <= send s ->
   exists m' s', log_fn_event pad m s k fn = Ok (m', s') /\
     holds m' s' (ev_bytes (evs ++ [(pad, k, fn)])) /\ sbeg s' = sbeg s /\ send s' = send s /\ frame s m m') /\
  (send s < sbeg s + 4 * (len evs + 1) -> log_fn_event pad m s k fn = Exit).
Proof.
  intros H. unfold log_fn_event. assert (L := len_ev_rec (pad, k, fn)). cbn [ev_rec] in L.
  assert (S4 : len (event_bytes pad k fn) < two64) by (rewrite L; reflexivity).
  destruct (construct m s (event_bytes pad k fn)) as [[[p m'] s']|] eqn:E.
  - destruct (construct_some _ _ _ _ _ _ _ H S4 E) as (P & B1 & B2 & H' & F & R).
    rewrite L, len_ev_bytes in R. split; [|lia]. intros _. exists m', s'. repeat (split; [solve [auto]|]); auto.
    unfold ev_bytes. rewrite map_app, concat_app. cbn [map concat]. now rewrite app_nil_r.
  - apply (construct_none _ _ _ _ H S4) in E. rewrite L, len_ev_bytes in E.
    split; [lia|auto].
Qed.

Lemma log_events_spec evs : forall m s old, holds m s (ev_bytes old) ->
  sbeg s + 4 * (len old + len evs) <= send s ->
  exists m' s', log_events m s evs = Ok (m', s') /\ holds m' s' (ev_bytes (old ++ evs)) /\
    sbeg s' = sbeg s /\ send s' = send s /\ frame s m m'.
Proof.
  induction evs as [|[[pad k] fn] evs IH]; intros m s old H C.
  - exists m, s. cbn. rewrite app_nil_r. repeat (split; [solve [auto]|]). apply frame_refl.
  - rewrite len_cons in C. destruct (log_fn_event_spec m s old pad k fn H) as [Fit _].
    destruct (Fit ltac:(lia)) as (m1 & s1 & E & H1 & B1 & B2 & F1). cbn [log_events]. rewrite E. cbn [bind].
    destruct (IH m1 s1 _ H1) as (m2 & s2 & E2 & H2 & B3 & B4 & F2).
    { rewrite B1, B2, len_app, len_cons, len_nil. lia. }
    exists m2, s2. split; [exact E2|]. rewrite <- app_assoc in H2. cbn [app] in H2.
    split; [auto|]. split; [congruence|]. split; [congruence|].
    intros a A. rewrite F2, F1; auto. rewrite B1, B2. auto.
Qed.

Lemma py_events_spec evs : Forall (fun e => snd e < two16) evs ->
  py_events (ev_bytes evs) = Ok (map (fun e => (kind_code (snd (fst e)), snd e)) evs).
Proof.
  intros K. unfold py_events, ev_bytes. rewrite py_enumerate_concat by (try lia; apply recs_ev).
  cbn [bind]. f_equal. rewrite map_map. apply map_ext_in. intros [[pad k] fn] H.
  rewrite Forall_forall in K. apply K in H. cbn [snd fst] in *.
  unfold ev_rec, event_bytes, py_event_of. f_equal.
  - pose proof (slice_mid [] [kind_code k] ([pad] ++ le_bytes 2 fn) 0 1 eq_refl eq_refl) as S.
    cbn [app] in *. rewrite S. cbn [le_val]. now rewrite N.mul_0_r, N.add_0_r.
  - pose proof (slice_mid [kind_code k; pad] (le_bytes 2 fn) [] 2 4 eq_refl) as S.
    rewrite app_nil_r in S. rewrite S by (rewrite len_le_bytes; reflexivity).
    apply le_round. exact H.
Qed.
