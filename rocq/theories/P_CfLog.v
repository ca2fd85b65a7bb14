From Coq Require Import Arith NArith List Bool Lia.
From Verif Require Import M_Base M_Memory M_Section M_Sources M_CfLog M_PySections
  S_Section S_CallStack P_Base P_Memory P_Section P_PyBase.
Import ListNotations.
Open Scope N_scope.

(** ** Variable length integers *)
Lemma lor_step val v s :
  N.lor (N.lor val (N.shiftl (N.land v 127) s)) (N.shiftl (N.shiftr v 7) (s + 7)) =
  N.lor val (N.shiftl v s).
Proof.
  apply N.bits_inj. intros i. rewrite !N.lor_spec. rewrite <- orb_assoc. f_equal.
  destruct (N.ltb_spec i s) as [L|L].
  { rewrite !N.shiftl_spec_low by lia. reflexivity. }
  rewrite (N.shiftl_spec_high' (N.land v 127)), (N.shiftl_spec_high' v) by lia.
  rewrite N.land_spec. change 127 with (N.ones 7).
  destruct (N.ltb_spec i (s + 7)) as [L2|L2].
  - rewrite N.ones_spec_low by lia. rewrite N.shiftl_spec_low by lia. now rewrite andb_true_r, orb_false_r.
  - rewrite N.ones_spec_high by lia. rewrite N.shiftl_spec_high' by lia. rewrite N.shiftr_spec by lia.
    rewrite andb_false_r. cbn. f_equal. lia.
Qed.

Lemma land_127_lor v : N.land (N.lor 128 (N.land v 127)) 127 = N.land v 127.
Proof.
  apply N.bits_inj. intros i. rewrite !N.land_spec, N.lor_spec, N.land_spec.
  change 127 with (N.ones 7). destruct (N.ltb_spec i 7).
  - rewrite N.ones_spec_low by lia. rewrite !andb_true_r.
    replace (N.testbit 128 i) with false; [reflexivity|].
    change 128 with (2 ^ 7). rewrite N.pow2_bits_false by lia. reflexivity.
  - rewrite N.ones_spec_high by lia. now rewrite !andb_false_r.
Qed.

Lemma land_128_lor v : N.land (N.lor 128 (N.land v 127)) 128 = 128.
Proof.
  apply N.bits_inj. intros i. rewrite N.land_spec, N.lor_spec. 
  destruct (N.testbit 128 i); cbn; [reflexivity|]. now rewrite andb_false_r.
Qed.

Lemma land_127_small v : v < 128 -> N.land v 127 = v.
Proof. intros H. change 127 with (N.ones 7). rewrite N.land_ones. apply N.mod_small. exact H. Qed.
Lemma land_128_small v : v < 128 -> N.land (N.land v 127) 128 = 0.
Proof.
  intros H. rewrite land_127_small by assumption. apply N.bits_inj. intros i. rewrite N.bits_0, N.land_spec.
  change 128 with (2 ^ 7). rewrite N.pow2_bits_eqb. destruct (N.eqb_spec 7 i) as [<-|E]; [|apply andb_false_r].
  rewrite andb_true_r. destruct (N.eqb_spec v 0) as [->|Nz]; [apply N.bits_0|].
  apply N.bits_above_log2. apply N.log2_lt_pow2; [lia|exact H].
Qed.

Lemma varint_loop_decode f : forall v s val rest, v < 2 ^ (7 * (N.of_nat f + 1)) ->
  py_varint s val (varint_loop f v ++ rest) = (N.lor val (N.shiftl v s), rest).
Proof.
  induction f as [|f IH]; intros v s val rest H.
  - change (2 ^ (7 * (N.of_nat 0 + 1))) with 128 in H. cbn [varint_loop app py_varint].
    rewrite land_128_small by assumption. cbn. rewrite !land_127_small; auto; rewrite land_127_small; auto.
  - cbn [varint_loop]. destruct (N.leb_spec 128 v) as [L|L].
    + cbn [app py_varint]. rewrite land_128_lor, land_127_lor. cbn [N.eqb].
      rewrite IH. { f_equal. apply lor_step. }
      rewrite N.shiftr_div_pow2. apply N.div_lt_upper_bound; [lia|].
      rewrite <- N.pow_add_r. replace (7 + 7 * (N.of_nat f + 1)) with (7 * (N.of_nat (S f) + 1)) by lia. exact H.
    + cbn [app py_varint]. rewrite land_128_small by assumption. cbn.
      rewrite !land_127_small; auto; rewrite land_127_small; auto.
Qed.

Lemma varint_decode v rest : v < two32 -> py_decode_varint (varint_encode v ++ rest) = (v, rest).
Proof.
  intros H. unfold py_decode_varint, varint_encode. rewrite varint_loop_decode.
  - now rewrite N.lor_0_l, N.shiftl_0_r.
  - eapply N.lt_trans; [exact H|reflexivity].
Qed.

Lemma varint_len v : v < two32 -> len (varint_encode v) = number_size v.
Proof.
  intros H. unfold varint_encode, number_size.
  Local Ltac st := cbn [varint_loop]; match goal with |- context [128 <=? ?x] => destruct (N.leb_spec 128 x) end.
  assert (S : forall x, N.shiftr x 7 = x / 128) by (intros; apply N.shiftr_div_pow2).
  assert (D : forall x, x / 128 * 128 <= x /\ x < (x / 128 + 1) * 128).
  { intros x. pose proof (N.div_mod x 128 ltac:(lia)). pose proof (N.mod_lt x 128 ltac:(lia)). lia. }
  change (2 ^ 7) with 128. change (2 ^ 14) with 16384. change (2 ^ 21) with 2097152. change (2 ^ 28) with 268435456.
  unfold two32 in H.
  pose proof (D v). pose proof (D (v / 128)). pose proof (D (v / 128 / 128)). pose proof (D (v / 128 / 128 / 128)).
  st; [rewrite S; st; [rewrite S; st; [rewrite S; st; [rewrite S; st|]|]|]|];
  rewrite ?len_cons, ?len_nil;
  repeat match goal with |- context [?a <? ?b] => destruct (N.ltb_spec a b) end; try lia.
Qed.

(** ** The log *)
Definition cf_bytes (es : list cf_event) : list N := concat (map cf_buffer es).

Lemma cf_buffer_len e : cf_ok e -> len (cf_buffer e) = event_size e.
Proof.
  destruct e; cbn [cf_ok cf_buffer event_size]; intros H; rewrite len_cons, ?len_app, ?varint_len; auto; try tauto. lia.
Qed.

Lemma number_size_bound v : 1 <= number_size v <= 5.
Proof. unfold number_size. repeat match goal with |- context [?a <? ?b] => destruct (a <? b) end; lia. Qed.

Lemma event_size_bound e : event_size e <= cf_buffer_size e.
Proof.
  destruct e as [f|f|l f]; cbn [event_size cf_buffer_size]; pose proof (number_size_bound f); try lia.
  pose proof (number_size_bound l). lia.
Qed.

Lemma cf_log_spec m s c e : holds m s c -> cf_ok e ->
  (sbeg s + len c + event_size e <= send s ->
   exists m' s', cf_log m s e = Ok (m', s') /\ holds m' s' (c ++ cf_buffer e) /\
     sbeg s' = sbeg s /\ send s' = send s /\ frame s m m') /\
  (send s < sbeg s + len c + event_size e -> cf_log m s e = Exit).
Proof.
  intros H K. unfold cf_log. rewrite (cf_buffer_len e K).
  pose proof (event_size_bound e) as B.
  destruct (N.ltb_spec (cf_buffer_size e) (event_size e)); [lia|].
  assert (B2 : event_size e < two64) by (destruct e; cbn [cf_buffer_size] in B; unfold two64; lia).
  pose proof H as (Ks & W & _).
  destruct (sect_write s (event_size e)) as [[p s']|] eqn:E.
  - destruct (holds_append m s c _ p s' (cf_buffer e) H B2 E) as (P & S1 & S2 & H' & F & R).
    { rewrite cf_buffer_len by assumption. lia. }
    split; [|lia]. intros _. exists (store m p (cf_buffer e)), s'. split; [reflexivity|].
    rewrite cf_buffer_len, N.sub_diag, zeros_0, app_nil_r in H' by assumption. auto.
  - apply sect_write_none in E; auto. split; [lia|auto].
Qed.

Lemma cf_log_all_spec es : forall m s old, holds m s (cf_bytes old) -> Forall cf_ok es ->
  sbeg s + len (cf_bytes old) + log_size es <= send s ->
  exists m' s', cf_log_all m s es = Ok (m', s') /\ holds m' s' (cf_bytes (old ++ es)) /\
    sbeg s' = sbeg s /\ send s' = send s /\ frame s m m'.
Proof.
  induction es as [|e es IH]; intros m s old H K C.
  - exists m, s. cbn. rewrite app_nil_r. repeat (split; [solve [auto]|]). apply frame_refl.
  - inversion K; subst. cbn [log_size fold_right] in C.
    destruct (cf_log_spec m s (cf_bytes old) e H H2) as [Fit _].
    destruct (Fit ltac:(fold (log_size es) in C; lia)) as (m1 & s1 & E & H1 & B1 & B2 & F1). cbn [cf_log_all]. rewrite E. cbn [bind].
    assert (Eq : cf_bytes old ++ cf_buffer e = cf_bytes (old ++ [e])).
    { unfold cf_bytes. rewrite map_app, concat_app. cbn [map concat]. now rewrite app_nil_r. }
    rewrite Eq in H1.
    destruct (IH m1 s1 _ H1 H3) as (m2 & s2 & E2 & H2' & B3 & B4 & F2).
    { rewrite B1, B2, <- Eq, len_app, cf_buffer_len by assumption. fold (log_size es) in C. lia. }
    exists m2, s2. split; [exact E2|]. rewrite <- app_assoc in H2'. cbn [app] in H2'.
    split; [auto|]. split; [congruence|]. split; [congruence|].
    intros a A. rewrite F2, F1; auto. rewrite B1, B2. auto.
Qed.

(** ** Decoding *)
Lemma cf_bytes_inj es : forall es', Forall cf_ok es -> Forall cf_ok es' ->
  cf_bytes es = cf_bytes es' -> es = es'.
Proof.
  induction es as [|e es IH]; intros [|e' es'] K K' H; auto.
  - exfalso. apply (f_equal (@len N)) in H. unfold cf_bytes in H. cbn [map concat] in H. rewrite len_app in H.
    destruct e'; cbn [cf_buffer] in H; rewrite len_cons, len_nil in H; lia.
  - exfalso. apply (f_equal (@len N)) in H. unfold cf_bytes in H. cbn [map concat] in H. rewrite len_app in H.
    destruct e; cbn [cf_buffer] in H; rewrite len_cons, len_nil in H; lia.
  - inversion K; inversion K'; subst. unfold cf_bytes in H. cbn [map concat] in H.
    fold (cf_bytes es) in H. fold (cf_bytes es') in H.
    assert (D : forall v v' r r', v < two32 -> v' < two32 ->
      varint_encode v ++ r = varint_encode v' ++ r' -> v = v' /\ r = r').
    { intros v v' r r' V V' Q. pose proof (varint_decode v r V) as A1. rewrite Q, varint_decode in A1 by assumption.
      inversion A1; auto. }
    destruct e, e'; cbn [cf_buffer app] in H; inversion H as [Q]; cbn [cf_ok] in *.
    + apply D in Q as [-> Q]; auto. f_equal. auto.
    + apply D in Q as [-> Q]; auto. f_equal. auto.
    + rewrite <- !app_assoc in Q. destruct H2 as [X1 X2], H6 as [Y1 Y2].
      apply D in Q as [-> Q]; auto. apply D in Q as [-> Q]; auto. f_equal. auto.
Qed.

Section Iter.
  Context {A : Type} (eqb : A -> A -> bool) (translate : N -> option A).
  Hypothesis eqb_ok : forall x y, eqb x y = true <-> x = y.

  Notation loop := (py_cf_loop eqb translate).
  Notation align := (py_align eqb).

  Lemma eqb_refl x : eqb x x = true.
  Proof. now apply eqb_ok. Qed.
  Lemma eqb_neq x y : x <> y -> eqb x y = false.
  Proof. intros H. destruct (eqb x y) eqn:E; auto. apply eqb_ok in E. congruence. Qed.

  (** The fuel does not matter as long as it covers the buffer. *)
  Lemma py_varint_shorter b : forall s v, (length (snd (py_varint s v b)) <= length b)%nat.
  Proof.
    induction b as [|x b IH]; intros s v; cbn [py_varint]; [cbn; lia|].
    destruct (N.land x 128 =? 0); cbn [snd length]; [lia|]. specialize (IH (s + 7) (N.lor v (N.shiftl (N.land x 127) s))). lia.
  Qed.

  Lemma loop_fuel f : forall f' b st, (length b <= f)%nat -> (length b <= f')%nat -> loop f b st = loop f' b st.
  Proof.
    induction f as [|f IH]; intros f' b st L L'.
    - destruct b; [|cbn in L; lia]. destruct f'; reflexivity.
    - destruct b as [|e b]; [destruct f'; reflexivity|]. destruct f' as [|f']; [cbn in L'; lia|].
      cbn [py_cf_loop length] in *. unfold py_decode_varint.
      pose proof (py_varint_shorter b 0 0) as S1. destruct (py_varint 0 0 b) as [fid b1]. cbn [snd] in S1.
      destruct (translate fid) as [fn|]; [|reflexivity].
      destruct (e =? 0). { rewrite (IH f') by lia. reflexivity. }
      destruct (e =? 1).
      { destruct (align fn st) as [es s]. destruct s; [reflexivity|]. rewrite (IH f') by lia. reflexivity. }
      destruct (align fn st) as [es s]. pose proof (py_varint_shorter b1 0 0) as S2.
      destruct (py_varint 0 0 b1) as [l b2]. cbn [snd] in S2. rewrite (IH f') by lia. reflexivity.
  Qed.

  Definition iter (b : list N) (st : list A) : Res (list (py_cf_event A)) := loop (length b) b st.
  Lemma loop_iter f b st : (length b <= f)%nat -> loop f b st = iter b st.
  Proof. intros H. apply loop_fuel; auto. Qed.

  Lemma iter_enter f b st : f < two32 -> iter (cf_buffer (CfEnter f) ++ b) st =
    match translate f with
    | None => Exit
    | Some g => do r <- iter b (g :: st); Ok (PyEnter (rev (g :: st)) :: r)
    end.
  Proof.
    intros H. cbn [cf_buffer app]. unfold iter at 1. cbn [length py_cf_loop].
    rewrite varint_decode by assumption. cbn [N.eqb]. destruct (translate f); [|reflexivity].
    rewrite loop_iter; [reflexivity|]. rewrite app_length. lia.
  Qed.
  Lemma iter_leave f b st : f < two32 -> iter (cf_buffer (CfLeave f) ++ b) st =
    match translate f with
    | None => Exit
    | Some g => let (es, s) := align g st in
                match s with
                | [] => Exit
                | _ :: s' => do r <- iter b s'; Ok (es ++ PyLeave (rev s) :: r)
                end
    end.
  Proof.
    intros H. cbn [cf_buffer app]. unfold iter at 1. cbn [length py_cf_loop].
    rewrite varint_decode by assumption. cbn [N.eqb]. destruct (translate f); [|reflexivity].
    change (1 =? 1) with true. cbv iota.
    destruct (align a st) as [es [|x s]]; [reflexivity|].
    rewrite loop_iter; [reflexivity|]. rewrite app_length. lia.
  Qed.
  Lemma iter_tainted l f b st : l < two32 -> f < two32 -> iter (cf_buffer (CfTainted l f) ++ b) st =
    match translate f with
    | None => Exit
    | Some g => let (es, s) := align g st in
                do r <- iter b s; Ok (es ++ PyTainted (rev s) l :: r)
    end.
  Proof.
    intros Hl H. cbn [cf_buffer app]. unfold iter at 1. cbn [length py_cf_loop]. rewrite <- app_assoc.
    rewrite varint_decode by assumption. cbn [N.eqb]. destruct (translate f); [|reflexivity].
    change (2 =? 1) with false. cbv iota.
    destruct (align a st) as [es s]. rewrite varint_decode by assumption.
    rewrite loop_iter; [reflexivity|]. rewrite !app_length. lia.
  Qed.
  Lemma iter_nil st : iter [] st = Ok (py_drain st).
  Proof. reflexivity. Qed.

  Lemma cf_bytes_cons e es : cf_bytes (e :: es) = cf_buffer e ++ cf_bytes es.
  Proof. reflexivity. Qed.

  Lemma align_skip g h st : g <> h -> align g (h :: st) =
    (PyLeave (rev (h :: st)) :: fst (align g st), snd (align g st)).
  Proof. intros N. cbn [py_align]. rewrite eqb_neq by congruence. now destruct (align g st). Qed.

  Lemma align_found g st : In g st -> exists t, snd (align g st) = g :: t.
  Proof.
    induction st as [|h st IH]; [contradiction|]. intros [->|I]; cbn [py_align].
    - rewrite eqb_refl. cbn. eauto.
    - destruct (eqb h g) eqn:E.
      + apply eqb_ok in E. subst. cbn. eauto.
      + destruct (IH I) as (t & T). destruct (align g st). cbn in *. eauto.
  Qed.
  Lemma align_missing g st : ~ In g st -> snd (align g st) = [].
  Proof.
    induction st as [|h st IH]; intros N; [reflexivity|]. rewrite align_skip.
    - cbn. apply IH. intros I. apply N. now right.
    - intros ->. apply N. now left.
  Qed.

  (** Skipping a frame that vanished is what reading the next event does anyway. *)
  Lemma iter_unwind s h g e es rest : cf_ok e -> concerns translate e g -> g <> h -> In g s ->
    iter (cf_bytes (e :: es) ++ rest) (rev (s ++ [h])) =
    do r <- iter (cf_bytes (e :: es) ++ rest) (rev s); Ok (PyLeave (s ++ [h]) :: r).
  Proof.
    intros K C N I. rewrite cf_bytes_cons, <- app_assoc. rewrite rev_app_distr. cbn [rev app].
    assert (Ir : In g (rev s)) by now apply -> in_rev.
    assert (R : rev (h :: rev s) = s ++ [h]) by (cbn; now rewrite rev_involutive).
    destruct e as [f|f|l f]; cbn [concerns cf_ok] in *; [contradiction| |].
    - rewrite !iter_leave by assumption. rewrite C. rewrite align_skip by assumption. rewrite R.
      destruct (align_found g (rev s) Ir) as (t & T). destruct (align g (rev s)) as [x y]. cbn [fst snd] in *. subst y.
      destruct (iter (cf_bytes es ++ rest) t); reflexivity.
    - destruct K as [K1 K2]. rewrite !iter_tainted by assumption. rewrite C. rewrite align_skip by assumption. rewrite R.
      destruct (align g (rev s)) as [x y]. cbn [fst snd].
      destruct (iter (cf_bytes es ++ rest) y); reflexivity.
  Qed.

  Lemma align_top g s : align g (rev (s ++ [g])) = ([], rev (s ++ [g])).
  Proof. rewrite rev_app_distr. cbn. now rewrite eqb_refl. Qed.

  Lemma run_iter s es rs s' : run_stack translate s es rs s' -> Forall cf_ok es -> forall rest,
    iter (cf_bytes es ++ rest) (rev s) = do r <- iter rest (rev s'); Ok (rs ++ r).
  Proof.
    induction 1 as [s|s f g es rs s' T R IH|s f g es rs s' T R IH|s f g l es rs s' T R IH|s h g e es rs s' C N I R IH];
      intros K rest.
    - cbn [cf_bytes map concat app]. now destruct (iter rest (rev s)).
    - inversion K; subst. rewrite cf_bytes_cons, <- app_assoc, iter_enter by assumption. rewrite T.
      replace (g :: rev s) with (rev (s ++ [g])) by (rewrite rev_app_distr; reflexivity).
      rewrite IH by assumption. rewrite rev_involutive. now destruct (iter rest (rev s')).
    - inversion K; subst. rewrite cf_bytes_cons, <- app_assoc, iter_leave by assumption. rewrite T.
      rewrite align_top. rewrite rev_app_distr. cbn [rev app].
      rewrite IH by assumption. rewrite rev_involutive. now destruct (iter rest (rev s')).
    - inversion K; subst. destruct H1. rewrite cf_bytes_cons, <- app_assoc, iter_tainted by assumption. rewrite T.
      rewrite align_top. rewrite IH by assumption. rewrite rev_involutive. now destruct (iter rest (rev s')).
    - pose proof K as K0. inversion K0; subst. rewrite iter_unwind with (g := g) by assumption. rewrite IH by assumption.
      now destruct (iter rest (rev s')).
  Qed.

  Lemma drain_leave_all (s : list A) : py_drain (rev s) = leave_all s.
  Proof.
    unfold leave_all. induction (rev s) as [|g r IH]; [reflexivity|]. cbn [py_drain leave_all_rev]. now rewrite IH.
  Qed.

  Lemma run_reported s es rs s' : run_stack translate s es rs s' -> Forall cf_ok es ->
    iter (cf_bytes es) (rev s) = Ok (rs ++ leave_all s').
  Proof.
    intros R K. pose proof (run_iter s es rs s' R K []) as H. rewrite app_nil_r, iter_nil in H. cbn [bind] in H.
    now rewrite drain_leave_all in H.
  Qed.

  Lemma unmatched_leave s es rs s' f g es2 : run_stack translate s es rs s' -> Forall cf_ok es -> f < two32 ->
    translate f = Some g -> ~ In g s' ->
    iter (cf_bytes (es ++ CfLeave f :: es2)) (rev s) = Exit.
  Proof.
    intros R K Kf T N. unfold cf_bytes. rewrite map_app, concat_app. fold (cf_bytes es).
    rewrite (run_iter s es rs s' R K). cbn [map concat]. rewrite iter_leave by assumption. rewrite T.
    rewrite (surjective_pairing (align g (rev s'))), align_missing; [reflexivity|].
    intros I. apply N. now apply in_rev.
  Qed.
End Iter.

Lemma nested_run s es : nested_in s es -> exists rs s', run_stack Some (rev s) es rs s' /\
  map reported rs = map Some es.
Proof.
  induction 1 as [s|s f es N (rs & s' & R & M)|s f es N (rs & s' & R & M)|s f l es N (rs & s' & R & M)];
    cbn [rev] in *.
  - exists [], (rev s). split; constructor.
  - eexists _, s'. split; [eapply run_enter; [reflexivity|exact R]|]. cbn [map reported].
    rewrite rev_app_distr. cbn. now rewrite M.
  - eexists _, s'. split; [eapply run_leave; [reflexivity|exact R]|]. cbn [map reported].
    rewrite rev_app_distr. cbn. now rewrite M.
  - eexists _, s'. split; [eapply run_tainted; [reflexivity|exact R]|]. cbn [map reported].
    rewrite rev_app_distr. cbn. now rewrite M.
Qed.
