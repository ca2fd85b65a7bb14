(** Proofs about command line tainting. *)
From Coq Require Import NArith ZArith List Bool Lia.
From Verif Require Import M_Base M_Memory M_Encoding M_Labels M_Bitmap M_Section M_StringTable M_Sources M_Functions M_CfLog M_OutputFile
  M_Dfsan M_PySections M_Api M_Runtime
  S_Section S_Provenance S_Labels S_Strings S_Functions S_CallStack S_OutputFile S_Bitmap S_Dfsan S_Api S_History S_Runtime
  P_Base P_Labels P_History P_Bitmap P_ApiMem P_Api P_ApiRun P_Runtime.
Import ListNotations.
Open Scope N_scope.

(** ** Decimal numbers *)
Lemma decimal_snoc ds c : decimal_value (ds ++ [c]) = 10 * decimal_value ds + (c - 48).
Proof. unfold decimal_value. now rewrite fold_left_app. Qed.

Lemma digits_spec fuel : forall n acc, n < 10 ^ N.of_nat fuel -> (0 < fuel)%nat ->
  exists ds, digits fuel n acc = ds ++ acc /\ decimal ds n /\ (length ds <= fuel)%nat /\ (0 < n -> hd 0 ds <> 48).
Proof.
  induction fuel as [|f IH]; intros n acc L F; [lia|]. cbn [digits]. cbv zeta.
  assert (M10 := N.mod_lt n 10 ltac:(lia)). assert (D10 := N.div_mod n 10 ltac:(lia)).
  destruct (N.ltb_spec n 10) as [Sm|Sm].
  - exists [48 + n mod 10]. rewrite N.mod_small by lia. split; [reflexivity|]. split; [|split; [cbn; lia|cbn [hd]; lia]].
    split; [repeat constructor; unfold digit; lia|]. split; [discriminate|]. split; [cbn [hd]; intros ->; reflexivity|].
    unfold decimal_value. cbn [fold_left]. lia.
  - destruct f as [|f]; [cbn in L; lia|].
    assert (L' : n / 10 < 10 ^ N.of_nat (S f)).
    { apply N.div_lt_upper_bound; [lia|]. replace (N.of_nat (S (S f))) with (N.succ (N.of_nat (S f))) in L by lia.
      rewrite N.pow_succ_r' in L. exact L. }
    destruct (IH (n / 10) ((48 + n mod 10) :: acc) L' ltac:(lia)) as (ds & E & (D1 & D2 & D3 & D4) & Ln & Hd).
    exists (ds ++ [48 + n mod 10]). split; [rewrite E, <- app_assoc; reflexivity|].
    assert (P : 0 < n / 10) by (apply N.div_str_pos; lia).
    assert (H0 : hd 0 (ds ++ [48 + n mod 10]) = hd 0 ds) by (destruct ds; [congruence|reflexivity]).
    split; [|split; [rewrite app_length; cbn [length]; lia|intros _; rewrite H0; auto]].
    split; [apply Forall_app; split; [exact D1|repeat constructor; unfold digit; lia]|].
    split; [destruct ds; discriminate|]. split; [rewrite H0; intros X; exfalso; exact (Hd P X)|].
    rewrite decimal_snoc, D4. lia.
Qed.

Lemma to_string_spec n : n < 10 ^ 20 -> decimal (to_string n) n /\ (length (to_string n) <= 20)%nat.
Proof.
  intros H. unfold to_string. destruct (digits_spec 20 n [] H ltac:(lia)) as (ds & E & D & L & _). rewrite E, app_nil_r. auto.
Qed.

Lemma argv_name_spec i : i < 2 ^ 31 -> is_argv_name i (argv_name i) /\ name_ok (argv_name i).
Proof.
  intros H. destruct (to_string_spec i) as (D & L). { change (10 ^ 20) with 100000000000000000000. lia. }
  split; [exists (to_string i); split; [exact D|reflexivity]|].
  unfold argv_name. split.
  - repeat (apply Forall_app; split); try (repeat constructor; lia).
    destruct D as (D & _). eapply Forall_impl; [|exact D]. unfold digit. intros c Hc. cbv beta. lia.
  - rewrite !len_app, !len_cons, !len_nil. unfold len. lia.
Qed.

(** ** One named source *)
Lemma create_taint_tab base r s g idx addr o n f la r' : mapped base shipped -> api_inv base r s g -> idx < len (a_regs s) -> o + n <= 2 ^ 54 ->
  create_source_taint r idx addr n o = Ok (f, la, r') ->
  f = len (r_tab r) /\ la + 1 = f + n /\ len (r_tab r') = f + n /\
  (forall a, r_shadow r' a = if (addr <=? a) && (a <? addr + n) then f + (a - addr) else r_shadow r a).
Proof.
  intros M A Hi Ho E. unfold create_source_taint in E.
  destruct (new_source_labels r idx o n) as [[[f0 la0] r1]| | |] eqn:C; try discriminate. cbn [bind] in E.
  destruct (new_labels_tab base r s g idx o n f0 la0 r1 M A Hi Ho C) as (T1 & T2 & T3).
  assert (Sh : r_shadow r1 = r_shadow r).
  { unfold new_source_labels in C. destruct (create_source_labels _ _ _ _) as [[[f1 la1] t']| | |]; try discriminate. cbn [bind] in C.
    destruct (bm_set_range _ _ _ _) as [b| | |]; try discriminate. cbn [bind] in C. inversion C. reflexivity. }
  injection E as E1 E2 E3. rewrite <- E1, <- E2, <- E3. cbn [set_shadow r_tab r_shadow]. split; [exact T1|]. split; [exact T2|]. split; [exact T3|].
  intros a. rewrite label_bytes_spec, Sh. rewrite Nnat.N2Nat.id. reflexivity.
Qed.

Definition with_named (s : ast) (name : list N) (addr n : N) : ast :=
  with_mem (with_reg s (mkReg name None None) (a_open s)) (add_bytes (a_mem s) addr (len (a_regs s)) 0 n).

Lemma named_inv base h r s name addr n x r' : mapped base shipped -> api_run base h r s -> name_ok name -> n <= 2 ^ 54 ->
  within_limits (with_named s name addr n) -> rt_named r name addr n = Ok (x, r') -> room r' 0 ->
  exists f la, x = Some (f, la) /\ len (r_tab r') = len (r_tab r) + n /\
    (forall a, a < addr \/ addr + n <= a -> r_shadow r' a = r_shadow r a) /\
    api_run base (h ++ [(CNamed name addr n, RRange (Some (f, la)))]) r' (astep s (CNamed name addr n) (RRange (Some (f, la)))).
Proof.
  intros M R K2 K3 L H Rm. destruct (api_run_inv base h r s M R) as (g & A).
  assert (Rg : reg_ok (mkReg name None None)) by (split; cbn; discriminate).
  destruct (inv_reg base r s g (mkReg name None None) (a_open s) M A K2 Rg L (fun z I => or_introl I))
      as (m & st & src & g' & E & A').
  assert (H0 := H). unfold rt_named in H.
  unfold fd_value, size_value in E. cbn [reg_name reg_fd reg_size] in E. rewrite E in H. cbn [bind] in H.
  destruct (create_source_taint (set_files r m src st) (len (a_regs s)) addr n 0) as [[[f la] r2]| | |] eqn:C; try discriminate. cbn [bind] in H.
  inversion H; subst x r2. clear H. exists f, la. split; [reflexivity|].
  destruct (create_taint_tab base _ (with_reg s (mkReg name None None) (a_open s)) g' (len (a_regs s)) addr 0 n f la r' M A' ltac:(cbn [with_reg a_regs]; rewrite len_app, len_cons, len_nil; lia) ltac:(lia) C) as (T1 & T2 & T3 & Sh).
  cbn [set_files r_tab r_shadow] in T1, Sh. split; [lia|]. split.
  { intros a Ha. rewrite Sh. destruct (N.leb_spec addr a), (N.ltb_spec a (addr + n)); cbn [andb]; try reflexivity; lia. }
  apply ar_call with r; [exact R|exact (conj K2 K3)|constructor; exact H0| |exact L].
  cbn [ret_ok]. unfold room in Rm. change (2 ^ 31 - 64) with 2147483584 in *. lia.
Qed.

Lemma named_total base h r s name addr n : mapped base shipped -> api_run base h r s -> name_ok name -> n <= 2 ^ 54 ->
  within_limits (with_named s name addr n) -> room r n ->
  exists f la r', rt_named r name addr n = Ok (Some (f, la), r') /\ room r' 0 /\ len (r_tab r') = len (r_tab r) + n.
Proof.
  intros M R K2 K3 L Rm. destruct (api_run_inv base h r s M R) as (g & A).
  assert (Rg : reg_ok (mkReg name None None)) by (split; cbn; discriminate).
  destruct (inv_reg base r s g (mkReg name None None) (a_open s) M A K2 Rg L (fun z I => or_introl I))
      as (m & st & src & g' & E & A').
  unfold rt_named. unfold fd_value, size_value in E. cbn [reg_name reg_fd reg_size] in E. rewrite E. cbn [bind].
  destruct (new_labels_total base (set_files r m src st) _ g' (len (a_regs s)) 0 n M A' ltac:(lia)) as (f & la & r1 & C); [exact Rm|].
  assert (C' : create_source_taint (set_files r m src st) (len (a_regs s)) addr n 0 =
               Ok (f, la, set_shadow r1 (label_bytes (r_shadow r1) addr f (N.to_nat n)))).
  { unfold create_source_taint. rewrite C. reflexivity. }
  rewrite C'. cbn [bind].
  destruct (create_taint_tab base _ (with_reg s (mkReg name None None) (a_open s)) g' (len (a_regs s)) addr 0 n f la _ M A' ltac:(cbn [with_reg a_regs]; rewrite len_app, len_cons, len_nil; lia) ltac:(lia) C') as (T1 & T2 & T3 & _).
  cbn [set_files r_tab] in T1. exists f, la. eexists. split; [reflexivity|]. unfold room in *. split; [lia|]. rewrite T1 in T3. exact T3.
Qed.

(** ** The loop *)
Lemma p_args_app args : forall s i, exists gs, a_regs (p_args s i args) = a_regs s ++ gs /\
  a_open (p_args s i args) = a_open s /\ a_rd (p_args s i args) = a_rd s /\ a_wr (p_args s i args) = a_wr s /\
  a_out (p_args s i args) = a_out s /\ a_cf (p_args s i args) = a_cf s /\ a_names (p_args s i args) = a_names s /\
  a_events (p_args s i args) = a_events s.
Proof.
  induction args as [|[a n] args IH]; intros s i; cbn [p_args]; [exists []; rewrite app_nil_r; auto 10|]. cbv zeta.
  destruct (IH (with_named s (argv_name i) a n) (i + 1)) as (gs & E1 & E2 & E3 & E4 & E5 & E6 & E7 & E8).
  unfold with_named in *. exists (mkReg (argv_name i) None None :: gs). rewrite E1, E2, E3, E4, E5, E6, E7, E8.
  cbn [with_mem with_reg a_regs a_open a_rd a_wr a_out a_cf a_names a_events]. rewrite <- app_assoc. auto 10.
Qed.

Lemma p_args_limits args s i : within_limits (p_args s i args) -> within_limits s.
Proof.
  destruct (p_args_app args s i) as (gs & E1 & _ & _ & _ & E5 & _ & E7 & _). unfold within_limits, strings_of.
  rewrite E1, E5, E7, map_app, <- app_assoc, !names_size_app, len_app. intros (L1 & L2 & L3 & L4). repeat split; lia.
Qed.

(** Two plain states that only differ in the labels and the label log. *)
Record alike (s s' : ast) : Prop := {
  al_regs : a_regs s = a_regs s'; al_open : a_open s = a_open s';
  al_rd : forall i, a_rd s i = a_rd s' i; al_wr : forall i, a_wr s i = a_wr s' i;
  al_mem : forall a, same (a_mem s a) (a_mem s' a);
  al_out : Forall2 (fun x y => fst x = fst y /\ same (snd x) (snd y)) (a_out s) (a_out s');
  al_cf : same (a_cf s) (a_cf s'); al_names : a_names s = a_names s'; al_events : a_events s = a_events s' }.

Lemma same_refl {A} (x : list A) : same x x.
Proof. intros b. tauto. Qed.
Lemma Forall2_self {A} (P : A -> A -> Prop) l : (forall x, P x x) -> Forall2 P l l.
Proof. intros H. induction l; constructor; auto. Qed.
Lemma Forall2_len {A B} (P : A -> B -> Prop) l l' : Forall2 P l l' -> length l = length l'.
Proof. induction 1; cbn; congruence. Qed.
Lemma alike_refl s : alike s s.
Proof. constructor; auto using same_refl. apply Forall2_self. auto using same_refl. Qed.

Lemma alike_trans s1 s2 s3 : alike s1 s2 -> alike s2 s3 -> alike s1 s3.
Proof.
  intros [A1 A2 A3 A4 A5 A6 A7 A8 A9] [B1 B2 B3 B4 B5 B6 B7 B8 B9]. constructor; [congruence|congruence| | | | | |congruence|congruence].
  - intros x. now rewrite A3.
  - intros x. now rewrite A4.
  - intros x b. rewrite (A5 x b). apply B5.
  - clear - A6 B6. revert B6. generalize (a_out s3). induction A6 as [|x y l1 l2 [E1 E2] H1 IH]; intros l3 H2;
      inversion H2 as [|y' z l2' l3' [E3 E4] H3]; subst; constructor; [|now apply IH].
    split; [congruence|]. intros b. rewrite (E2 b). apply E4.
  - intros b. rewrite (A7 b). apply B7.
Qed.

Lemma args_alike args : forall s s' i, alike s s' -> alike (p_args s i args) (p_args s' i args).
Proof.
  induction args as [|[a n] args IH]; intros s s' i E; cbn [p_args]; [exact E|]. cbv zeta. apply IH. destruct E.
  constructor; cbn [with_mem with_reg a_regs a_open a_rd a_wr a_mem a_out a_cf a_names a_events]; auto; try congruence.
  intros x. unfold add_bytes. rewrite al_regs0. destruct (_ && _); auto using same_refl.
Qed.

Lemma argv_loop base app fuel args : mapped base shipped -> forall i h r s r',
  api_run base h r s -> i + len args < 2 ^ 31 ->
  Forall (fun an => c_string app (fst an) (snd an) /\ snd an <= 2 ^ 54) args ->
  within_limits (p_args s i args) -> taint_argv_loop fuel app r i (map fst args) = Ok r' -> room r' 0 ->
  exists h' s', api_run base (h ++ h') r' s' /\ a_mem s' = a_mem (p_args s i args) /\ alike (p_args s i args) s' /\
    len (r_tab r) <= len (r_tab r') /\
    (forall x, (forall k a n, get args k = Some (a, n) -> x < a \/ a + n <= x) -> r_shadow r' x = r_shadow r x) /\
    Forall (fun c => exists nm a n, fst c = CNamed nm a n) h'.
Proof.
  intros M. induction args as [|[a n] args IH]; intros i h r s r' R Li F L E Rm.
  - cbn [map taint_argv_loop] in E. inversion E; subst r'. exists [], s. rewrite app_nil_r. cbn [p_args]. auto 10 using alike_refl, N.le_refl.
  - cbn [map fst taint_argv_loop] in E. inversion F as [|x l [Fa Fn] F']; subst. cbn [fst snd] in Fa, Fn.
    destruct (c_strlen fuel app a) as [k| | |] eqn:C; try discriminate. cbn [bind] in E.
    apply c_strlen_ok in C as [C _].
    assert (k = n).
    { destruct C as [C1 C2], Fa as [F1 F2]. destruct (N.lt_trichotomy k n) as [Q|[Q|Q]]; [|exact Q|]; exfalso.
      - exact (F2 k Q C1).
      - exact (C2 n Q F1). }
    subst k. destruct (rt_named r (argv_name i) a n) as [[x r1]| | |] eqn:H; try discriminate. cbn [bind snd] in E.
    rewrite len_cons in Li. cbn [p_args] in L |- *. cbv zeta in L |- *.
    assert (L1 : within_limits (with_named s (argv_name i) a n)) by (apply p_args_limits with args (i + 1); exact L).
    destruct (argv_name_spec i ltac:(lia)) as (_ & Nk).
    (* labels only grow *)
    assert (G : forall args i r r', taint_argv_loop fuel app r i args = Ok r' -> len (r_tab r) <= len (r_tab r')).
    { clear. induction args as [|a args IH]; intros i r r' E; cbn [taint_argv_loop] in E; [inversion E; lia|].
      destruct (c_strlen fuel app a) as [k| | |]; try discriminate. cbn [bind] in E.
      destruct (rt_named r (argv_name i) a k) as [[x r1]| | |] eqn:H; try discriminate. cbn [bind snd] in E. apply IH in E.
      enough (len (r_tab r) <= len (r_tab r1)) by lia. clear - H. unfold rt_named in H.
      destruct (add_source _ _ _ _ _ _) as [[[[o m] st] src]| | |]; try discriminate. cbn [bind] in H.
      destruct o as [idx|]; [|inversion H; subst; cbn [set_files r_tab]; lia].
      unfold create_source_taint, new_source_labels in H. cbn [set_files r_tab] in H.
      destruct (create_source_labels (r_tab r) idx 0 k) as [[[f la] t]| | |] eqn:C; try discriminate. cbn [bind] in H.
      destruct (bm_set_range _ _ _ _) as [b| | |]; try discriminate. cbn [bind] in H. inversion H; subst.
      cbn [set_shadow set_bm set_tab r_tab]. unfold create_source_labels in C.
      destruct (_ <=? _); [|discriminate]. destruct (_ <? _); [|discriminate]. inversion C; subst. rewrite len_app. lia. }
    assert (Rm1 : room r1 0). { apply G in E. unfold room in *. lia. }
    destruct (named_inv base h r s (argv_name i) a n x r1 M R Nk Fn L1 H Rm1) as (f & la & -> & Tb & Sh & R1).
    set (s1 := astep s (CNamed (argv_name i) a n) (RRange (Some (f, la)))) in *.
    assert (Ae : alike (with_named s (argv_name i) a n) s1).
    { unfold s1, with_named. cbn [astep]. constructor; cbn [with_mem with_lab with_reg a_regs a_open a_rd a_wr a_mem a_out a_cf a_names a_events];
        auto using same_refl. apply Forall2_self. auto using same_refl. }
    assert (L2 : within_limits (p_args s1 (i + 1) args)).
    { assert (X := args_alike args _ _ (i + 1) Ae). destruct X. unfold with_named in *.
      unfold within_limits, strings_of in L |- *. rewrite <- al_regs0, <- al_names0.
      assert (Lo : len (a_out (p_args s1 (i + 1) args)) = len (a_out (p_args (with_named s (argv_name i) a n) (i + 1) args))).
      { clear - al_out0. unfold len. f_equal. symmetry. exact (Forall2_len _ _ _ al_out0). }
      rewrite Lo. exact L. }
    destruct (IH (i + 1) _ r1 s1 r' R1 ltac:(lia) F' L2 E Rm) as (h' & s' & R' & Em & Al & Ln & Sh' & Nq).
    exists ((CNamed (argv_name i) a n, RRange (Some (f, la))) :: h'), s'. split; [rewrite <- app_assoc in R'; exact R'|].
    assert (X := args_alike args _ _ (i + 1) Ae). split.
    { rewrite Em. clear. assert (Y : a_mem s1 = a_mem (with_named s (argv_name i) a n)) by reflexivity.
      assert (Z : a_regs s1 = a_regs (with_named s (argv_name i) a n)) by reflexivity.
      fold (with_named s (argv_name i) a n). revert Y Z. generalize (with_named s (argv_name i) a n). generalize s1. generalize (i + 1). clear.
      induction args as [|[a n] args IH]; intros i s s' Y Z; cbn [p_args]; [exact Y|]. cbv zeta. apply IH.
      - cbn [with_mem with_reg a_mem]. congruence.
      - cbn [with_mem with_reg a_regs]. congruence. }
    split.
    { exact (alike_trans _ _ _ X Al). }
    split; [lia|].
    split; [|constructor; [exists (argv_name i), a, n; reflexivity|exact Nq]].
    intros y Hy. rewrite Sh', Sh; [reflexivity| |].
    + apply (Hy 0). reflexivity.
    + intros k a' n' Gk. apply (Hy (k + 1)). now rewrite get_cons_succ.
Qed.

Lemma argv_total base app fuel args : mapped base shipped -> forall i h r s,
  api_run base h r s -> i + len args < 2 ^ 31 ->
  Forall (fun an => c_string app (fst an) (snd an) /\ snd an <= 2 ^ 54 /\ (N.to_nat (snd an) < fuel)%nat) args ->
  within_limits (p_args s i args) -> room r (fold_right N.add 0 (map snd args)) ->
  exists r', taint_argv_loop fuel app r i (map fst args) = Ok r' /\ room r' 0.
Proof.
  intros M. induction args as [|[a n] args IH]; intros i h r s R Li F L Rm.
  - cbn [map taint_argv_loop]. exists r. split; [reflexivity|]. exact Rm.
  - inversion F as [|x l (Fa & Fn & Fu) F']; subst. cbn [fst snd] in Fa, Fn, Fu. cbn [map fst snd taint_argv_loop fold_right] in *.
    rewrite (proj2 (c_strlen_ok app fuel a n) (conj Fa Fu)). cbn [bind].
    rewrite len_cons in Li. cbn [p_args] in L. cbv zeta in L.
    assert (L1 : within_limits (with_named s (argv_name i) a n)) by (apply p_args_limits with args (i + 1); exact L).
    destruct (argv_name_spec i ltac:(lia)) as (_ & Nk).
    destruct (named_total base h r s (argv_name i) a n M R Nk Fn L1) as (f & la & r1 & H & Rm1 & Tb); [unfold room in *; lia|].
    rewrite H. cbn [bind snd].
    destruct (named_inv base h r s (argv_name i) a n _ r1 M R Nk Fn L1 H Rm1) as (f' & la' & Ex & _ & _ & R1).
    inversion Ex; subst f' la'. clear Ex.
    set (s1 := astep s (CNamed (argv_name i) a n) (RRange (Some (f, la)))) in *.
    assert (Ae : alike (with_named s (argv_name i) a n) s1).
    { unfold s1, with_named. cbn [astep]. constructor; cbn [with_mem with_lab with_reg a_regs a_open a_rd a_wr a_mem a_out a_cf a_names a_events];
        auto using same_refl. apply Forall2_self. auto using same_refl. }
    assert (L2 : within_limits (p_args s1 (i + 1) args)).
    { assert (X := args_alike args _ _ (i + 1) Ae). destruct X. unfold with_named in *.
      unfold within_limits, strings_of in L |- *. rewrite <- al_regs0, <- al_names0.
      assert (Lo : len (a_out (p_args s1 (i + 1) args)) = len (a_out (p_args (with_named s (argv_name i) a n) (i + 1) args))).
      { clear - al_out0. unfold len. f_equal. symmetry. exact (Forall2_len _ _ _ al_out0). }
      rewrite Lo. exact L. }
    apply (IH (i + 1) _ r1 s1 R1 ltac:(lia) F' L2). unfold room in *. lia.
Qed.
