(** The runtime serves every event while its resources last. *)
From Coq Require Import NArith ZArith List Bool Lia.
From Verif Require Import M_Base M_Memory M_Encoding M_Labels M_Bitmap M_Section M_StringTable M_Sources M_Functions M_CfLog M_OutputFile
  M_Dfsan M_PySections M_Api M_Runtime M_Llvm M_DfsanPass M_DfsanRun
  S_Section S_Provenance S_Labels S_Strings S_Functions S_CallStack S_OutputFile S_Bitmap S_Dfsan S_Api S_History S_Runtime S_DataFlow S_Demand
  P_Base P_Labels P_ControlFlow P_CfLog P_Functions P_History P_Bitmap P_Dfsan P_ApiMem P_Api P_ApiRun P_Runtime P_Argv P_ProcRun P_DfsanCode P_DfsanFlow P_DfsanSim.
Import ListNotations.
Open Scope N_scope.

Lemma index_of_snoc x l : index_of x l = None -> index_of x (l ++ [x]) = Some (len l).
Proof.
  induction l as [|y l IH]; cbn [index_of app].
  - intros _. now rewrite (proj2 (bytes_eqb_spec x x) eq_refl).
  - destruct (bytes_eqb y x); [discriminate|]. destruct (index_of x l); cbn [option_map]; [discriminate|]. intros _.
    rewrite (IH eq_refl). cbn [option_map]. rewrite len_cons. f_equal. lia.
Qed.

Section Up.
Variables (base : N) (fl : list flow).
Hypothesis M : mapped base shipped.

Lemma den_known r s s' l bs g : up base fl r s s' -> api_inv base r s' g -> den s' l bs -> S_Dfsan.known (r_tab r) l.
Proof. intros U A [[->|K] _]; [now left|]. right. now apply (ai_lab _ _ _ _ A). Qed.

Lemma union_ne_total r s s' a b ba bb : up base fl r s s' -> den s' a ba -> den s' b bb -> room r 1 ->
  exists l t, dfsan_union_ne true (r_tab r) a b = Ok (l, t) /\ len t <= len (r_tab r) + 1.
Proof.
  intros U Da Db Rm. assert (U0 := U). destruct U0 as (h & R & _). destruct (api_run_inv base h r s' M R) as (g & A).
  assert (Ka := den_known _ _ _ _ _ _ U A Da). assert (Kb := den_known _ _ _ _ _ _ U A Db). assert (Rt := ai_tr _ _ _ _ A).
  destruct (dfsan_union_total _ _ _ Rt Ka Kb) as [(l & t & E)|(E & C)].
  - exists l, t. split; [exact E|]. exact (proj1 (proj2 (dfsan_union_ok _ _ _ _ _ Rt Ka Kb E))).
  - exfalso. unfold room in Rm. change label_capacity with (2 ^ 31) in C. change (2 ^ 31 - 64) with 2147483584 in Rm. change (2 ^ 31) with 2147483648 in C. lia.
Qed.
Lemma union_code_total r s s' c a b ba bb : up base fl r s s' -> den s' a ba -> den s' b bb -> room r 1 ->
  exists l t, union_code c true (r_tab r) a b = Ok (l, t) /\ len t <= len (r_tab r) + 1.
Proof.
  intros U Da Db Rm. assert (G : exists l t, (if a =? b then Ok (a, r_tab r) else dfsan_union_ne true (r_tab r) a b) = Ok (l, t) /\ len t <= len (r_tab r) + 1).
  { destruct (a =? b); [exists a, (r_tab r); split; [reflexivity|lia]|]. now apply union_ne_total with s s' ba bb. }
  unfold union_code, dfsan_union. destruct c; exact G.
Qed.

Lemma union_loop_total n : forall r s s' sh la acc a, up base fl r s s' -> den s' la acc ->
  (forall k, k < N.of_nat n -> den s' (sh (a + k)) (a_mem s (a + k))) -> room r (N.of_nat n) ->
  exists l t, union_loop true (r_tab r) sh la a n = Ok (l, t) /\ len t <= len (r_tab r) + N.of_nat n.
Proof.
  induction n as [|n IH]; intros r s s' sh la acc a U Dl Dn Rm.
  - cbn [union_loop]. exists la, (r_tab r). split; [reflexivity|lia].
  - cbn [union_loop]. assert (D0 := Dn 0 ltac:(lia)). rewrite N.add_0_r in D0.
    destruct (union_code_total r s s' false la (sh a) _ _ U Dl D0 ltac:(unfold room in *; lia)) as (l1 & t1 & E1 & L1).
    unfold union_code in E1. rewrite E1. cbn [bind fst snd].
    destruct (up_union_code base fl M r s s' false la (sh a) l1 t1 acc (a_mem s a) U Dl D0 E1) as (s1 & U1 & K1 & D1).
    destruct (IH (set_tab r t1) s s1 sh l1 _ (a + 1) U1 D1) as (l & t & E & L).
    + intros k Hk. apply K1. replace (a + 1 + k) with (a + (1 + k)) by lia. apply Dn. lia.
    + unfold room in *. cbn [set_tab r_tab]. lia.
    + cbn [set_tab r_tab] in E, L. exists l, t. split; [exact E|lia].
Qed.
Lemma union_bytes_total r s s' a n : up base fl r s s' -> 0 < n -> room r (n - 1) ->
  exists l t, union_bytes true (r_tab r) (r_shadow r) a n = Ok (l, t) /\ len t <= len (r_tab r) + (n - 1).
Proof.
  intros U P Rm. unfold union_bytes.
  destruct (union_loop_total (N.to_nat (n - 1)) r s s' (r_shadow r) (r_shadow r a) (a_mem s a) (a + 1) U) as (l & t & E & L).
  - now apply (den_shadow base fl M r).
  - intros k _. now apply (den_shadow base fl M r).
  - rewrite N2Nat.id. exact Rm.
  - rewrite N2Nat.id in L. eauto.
Qed.
Lemma load_total r s s' avoid a n : up base fl r s s' -> 0 < n -> room r (n - 1) ->
  exists l t, load_labels avoid true (r_tab r) (r_shadow r) a n = Ok (l, t) /\ len t <= len (r_tab r) + (n - 1).
Proof.
  intros U P Rm. unfold load_labels. destruct (N.eqb_spec n 1) as [->|N1].
  { exists (r_shadow r a), (r_tab r). split; [reflexivity|lia]. }
  destruct (N.eqb_spec n 2) as [->|N2].
  { apply union_code_total with s s' (a_mem s a) (a_mem s (a + 1)); auto; now apply (den_shadow base fl M r). }
  destruct (negb avoid && ((n * SHADOW_BYTES) mod 8 =? 0)); [|now apply union_bytes_total with s s'].
  unfold load_fast. destruct (_ && _) ; [|now apply union_bytes_total with s s'].
  eexists _, (r_tab r). split; [reflexivity|lia].
Qed.

(** ** Shadow code *)
Definition able (e : regs) (i : sinstr) : Prop :=
  let def o := exists v, value e o = Ok v in
  match i with
  | TLoad _ ptr _ | TStore ptr _ _ => def ptr
  | TSelect c _ _ => def c
  | TSetLabel ptr n _ => def ptr /\ def n
  | TMove dst src n => def dst /\ def src /\ def n
  | _ => True
  end.
Definition si_labels (i : sinstr) : N := match i with TUnion _ _ _ => 1 | TLoad _ _ n => n - 1 | _ => 0 end.
Fixpoint code_labels (c : list sinstr) : N := match c with [] => 0 | i :: c => si_labels i + code_labels c end.
Lemma code_labels_app c c' : code_labels (c ++ c') = code_labels c + code_labels c'.
Proof. induction c as [|i c IH]; cbn [app code_labels]; [reflexivity|]. rewrite IH. lia. Qed.

Lemma set_labels_tab l addrs : forall r, r_tab (set_labels r l addrs) = r_tab r.
Proof. induction addrs as [|a addrs IH]; intros r; [reflexivity|]. unfold set_labels in *. cbn [fold_left]. now rewrite IH. Qed.
Lemma copy_labels_tab ps : forall r, r_tab (M_DfsanRun.copy_labels r ps) = r_tab r.
Proof. induction ps as [|a ps IH]; intros r; [reflexivity|]. unfold M_DfsanRun.copy_labels in *. cbn [fold_left]. now rewrite IH. Qed.

Lemma sx_total d e r s s' i : up base fl r s s' -> sized i -> able e i -> room r (si_labels i) ->
  exists r', sx true d e r i = Ok r' /\ len (r_tab r') <= len (r_tab r) + si_labels i.
Proof.
  intros U Sz Ab Rm. destruct i; cbn [sx si_labels able] in *; try (eexists; split; [reflexivity|cbn [rt_set_label set_shadow r_tab]; lia]).
  - destruct (union_code_total r s s' checked _ _ _ _ U (den_lab base fl M r s s' d a U) (den_lab base fl M r s s' d b U) Rm) as (l & t & E & L).
    rewrite E. cbn [bind fst snd]. eexists. split; [reflexivity|exact L].
  - destruct Ab as [p ->]. cbn [bind sized] in *. destruct (load_total r s s' avoid p size U Sz Rm) as (l & t & E & L).
    rewrite E. cbn [bind fst snd]. eexists. split; [reflexivity|exact L].
  - destruct Ab as [p ->]. cbn [bind]. eexists. split; [reflexivity|]. rewrite set_labels_tab. lia.
  - destruct Ab as [p ->]. cbn [bind]. eexists. split; [reflexivity|]. cbn [rt_set_label set_shadow r_tab]. lia.
  - destruct Ab as [[p ->] [k ->]]. cbn [bind]. eexists. split; [reflexivity|]. rewrite set_labels_tab. lia.
  - destruct Ab as ([p ->] & [q ->] & [k ->]). cbn [bind]. eexists. split; [reflexivity|]. unfold copy_all. rewrite !copy_labels_tab. lia.
Qed.

(** [p'] has at most [n] labels more than [p]. *)
Definition uses (p : proc) (n : N) (p' : proc) : Prop :=
  exists r r', p_tdag p = Live r /\ p_tdag p' = Live r' /\ len (r_tab r') <= len (r_tab r) + n.
Definition has (p : proc) (n : N) : Prop := exists r, p_tdag p = Live r /\ room r n.
Lemma uses_has p n p' k : uses p n p' -> has p (n + k) -> has p' k.
Proof. intros (r & r' & E & E' & L) (r0 & E0 & Rm). assert (r0 = r) as -> by congruence. exists r'. split; [exact E'|]. unfold room in *. lia. Qed.
Lemma uses_trans p n p1 k p2 : uses p n p1 -> uses p1 k p2 -> uses p (n + k) p2.
Proof. intros (r & r1 & E & E1 & L) (r0 & r2 & E0 & E2 & L2). assert (r0 = r1) as -> by congruence. exists r, r2. repeat split; auto. lia. Qed.
Lemma has_le p n k : has p n -> k <= n -> has p k.
Proof. intros (r & E & Rm) L. exists r. split; [exact E|]. unfold room in *. lia. Qed.
Lemma uses_le p n p' k : uses p n p' -> n <= k -> uses p k p'.
Proof. intros (r & r' & E & E' & L) Q. exists r, r'. repeat split; auto. lia. Qed.

Lemma code_total argv d e c : forall p s, alive base fl argv p s -> Forall sized c -> Forall (able e) c -> has p (code_labels c) ->
  exists p', run_code d e p c = Ok p' /\ uses p (code_labels c) p' /\ alive base fl argv p' (pcode d e s c).
Proof.
  induction c as [|i c IH]; intros p s A Sz Ab Hs; cbn [run_code code_labels] in *.
  - exists p. split; [reflexivity|]. split; [|exact A]. destruct A as (_ & _ & r & s' & Lv & _). exists r, r. repeat split; auto. lia.
  - assert (A0 := A). destruct A as (F & Ar & r & s' & Lv & U). destruct Hs as (r0 & Lv0 & Rm). assert (r0 = r) as -> by congruence.
    apply Forall_cons_iff in Sz as [S1 S2]. apply Forall_cons_iff in Ab as [B1 B2].
    destruct (sx_total d e r s s' i U S1 B1 ltac:(unfold room in *; lia)) as (r1 & E1 & L1).
    unfold get_tdag. rewrite Lv. cbn [bind]. rewrite F, E1. cbn [bind].
    destruct (up_sx base fl M d e r i r1 s s' U S1 E1) as (s2 & U2 & _).
    destruct (IH (set_rt p r1) (psx d e s i)) as (p' & E & Us & A'); auto.
    + split; [exact F|]. split; [exact Ar|]. exists r1, s2. auto.
    + exists r1. split; [reflexivity|]. unfold room in *. lia.
    + exists p'. split; [exact E|]. split; [|exact A']. destruct Us as (q & q' & Q1 & Q2 & Q3). unfold set_rt in Q1. cbn [p_tdag] in Q1.
      assert (q = r1) as -> by congruence. exists r, q'. repeat split; auto. lia.
Qed.

Lemma phi_total argv d l p s : alive base fl argv p s -> exists p', phi_code d p l = Ok p' /\ uses p 0 p' /\ alive base fl argv p' (p_phis d s l).
Proof.
  intros A. assert (A0 := A). destruct A as (F & Ar & r & s' & Lv & U).
  assert (X : exists p', phi_code d p l = Ok p' /\ uses p 0 p').
  { unfold phi_code. destruct l as [|x l]; [exists p; split; [reflexivity|]; exists r, r; repeat split; auto; lia|].
    unfold get_tdag. rewrite Lv. cbn [bind]. cbv zeta. eexists. split; [reflexivity|]. exists r. eexists. split; [exact Lv|]. split; [reflexivity|].
    rewrite copy_labels_tab. generalize (combine (nseq 0 (length (x :: l))) (map snd (x :: l))). intros ps.
    assert (E : forall ps r0, r_tab (fold_left (fun r kv => rt_set_label r (SCRATCH (fst kv)) (lab r d (snd kv))) ps r0) = r_tab r0).
    { clear. induction ps as [|q ps IH]; intros r0; [reflexivity|]. cbn [fold_left]. now rewrite IH. }
    rewrite E. lia. }
  destruct X as (p' & E & Us). exists p'. split; [exact E|]. split; [exact Us|]. exact (phi_alive base fl M argv d l p p' s A0 E).
Qed.

(** ** Events *)
Ltac inv_of U A := let h := fresh "h" in let R := fresh "R" in let Al := fresh "Al" in let En := fresh "En" in let L := fresh "Ls" in
  let g := fresh "g" in destruct U as (h & R & Al & En & L); destruct (api_run_inv base h _ _ M R) as (g & A).

Lemma off_ok pos : (pos < 2 ^ 54)%Z -> from_off_t pos = Ok (offset_of pos).
Proof. intros H. apply from_off_t_ok. split; [reflexivity|]. change (2 ^ 54)%Z with 18014398509481984%Z in *. lia. Qed.
Lemma count_ok size n : size * n < two64 -> from_returned_size_count size n = Ok (if size * n =? 0 then None else Some (size * n)).
Proof.
  intros H. unfold from_returned_size_count, umull_overflow, mul64. rewrite (N.mod_small _ _ H).
  destruct (N.leb_spec two64 (size * n)); [lia|]. now destruct (size * n =? 0).
Qed.

Lemma open_total r s s' path fd size : up base fl r s s' -> (0 <= fd < 2 ^ 31)%Z -> name_ok path -> (forall n, size = Some n -> n < 2 ^ 64 - 1) ->
  within_limits (with_reg s (mkReg path (Some fd) size) (fd :: a_open s)) -> exists r', rt_open r fd path size = Ok r' /\ r_tab r' = r_tab r.
Proof.
  intros U F Nk Sz L. inv_of U A.
  assert (Al2 : alike (with_reg s (mkReg path (Some fd) size) (fd :: a_open s)) (with_reg s' (mkReg path (Some fd) size) (fd :: a_open s'))).
  { destruct Al. constructor; cbn [with_reg a_regs a_open a_rd a_wr a_mem a_out a_cf a_names a_events]; auto; congruence. }
  destruct (inv_reg base r s' g (mkReg path (Some fd) size) (fd :: a_open s') M A Nk) as (m & st & src & g' & E & _).
  - split; cbn [reg_fd reg_size]; [|exact Sz]. intros x Ex. assert (x = fd) as -> by congruence. exact F.
  - exact (limits_alike _ _ Al2 L).
  - intros x [<-|I]; [right; reflexivity|now left].
  - unfold rt_open. unfold fd_value, size_value in E. cbn [reg_name reg_fd reg_size] in E. cbv zeta. rewrite E. cbn [bind]. eexists. split; reflexivity.
Qed.

Lemma read_total r s s' fd addr off n : up base fl r s s' -> fd_ok s fd -> transfer_ok s (a_rd s) fd off n -> room r n ->
  exists x r', rt_source_mem r fd addr off n = Ok (x, r') /\ len (r_tab r') <= len (r_tab r) + n.
Proof.
  intros U F T Rm. inv_of U A.
  destruct (source_mem_total base r s' g fd addr off n M A (fd_alike _ _ _ Al F) (rd_alike _ _ _ _ _ Al T) Rm) as (x & r' & E & _ & L). eauto.
Qed.
Lemma clear_read_total r s s' a k fd addr off n : up base fl r s s' -> fd_ok s fd -> transfer_ok s (a_rd s) fd off n -> room r n ->
  exists x r', rt_source_mem (clear_bytes r a k) fd addr off n = Ok (x, r') /\ len (r_tab r') <= len (r_tab r) + n.
Proof.
  intros (h & R & Al & _) F T Rm. destruct (clear_run base k h r s' a R) as (h1 & f & R1 & _). destruct (api_run_inv base _ _ _ M R1) as (g & A).
  assert (Rm1 : room (clear_bytes r a k) n) by (unfold room; rewrite clear_table; exact Rm).
  destruct (source_mem_total base _ _ g fd addr off n M A (fd_alike _ _ _ Al F) (rd_alike _ _ _ _ _ Al T) Rm1) as (x & r' & E & _ & L). rewrite clear_table in L. eauto.
Qed.
Lemma range_total r s s' fd off n : up base fl r s s' -> fd_ok s fd -> transfer_ok s (a_rd s) fd off n -> room r n ->
  exists x r', rt_source_range r fd off n = Ok (x, r') /\ len (r_tab r') <= len (r_tab r) + n.
Proof.
  intros U F T Rm. inv_of U A.
  destruct (source_range_total base r s' g fd off n M A (fd_alike _ _ _ Al F) (rd_alike _ _ _ _ _ Al T) Rm) as (x & r' & E & _ & L). eauto.
Qed.

Lemma sink_bytes_tab pad n : forall r i a o k, r_tab (sink_bytes_loop pad r i a o k n) = r_tab r.
Proof.
  induction n as [|n IH]; intros r i a o k; cbn [sink_bytes_loop]; [reflexivity|]. rewrite IH.
  destruct (0 <? r_shadow r a); [|reflexivity]. now destruct (log_single _ _ _ _ _ _).
Qed.
Lemma sink_label_tab pad n : forall r i l o k, r_tab (sink_label_loop pad r i l o k n) = r_tab r.
Proof. induction n as [|n IH]; intros r i l o k; cbn [sink_label_loop]; [reflexivity|]. destruct (log_single _ _ _ _ _ _). now rewrite IH. Qed.
Lemma write_offset_tab r i off n q : write_offset r i off n = Ok q -> r_tab (snd q) = r_tab r.
Proof.
  unfold write_offset. destruct off; [intros E; now injection E as <-|]. destruct (stream_increase _ _ _) as [x| | |]; try discriminate. cbn [bind].
  intros E. now injection E as <-.
Qed.
Lemma write_total pad r s s' fd off addr n : up base fl r s s' -> fd_ok s fd ->
  exists r', rt_sink_mem pad r fd off addr n = Ok r' /\ r_tab r' = r_tab r.
Proof.
  intros U F. inv_of U A. destruct F as [F _]. destruct (sink_mem_total base pad r s' g fd off addr n M A ltac:(lia)) as (r' & E). exists r'. split; [exact E|].
  unfold rt_sink_mem in E. destruct (mapping_idx _ _ _) as [[i|]| | |]; try discriminate; cbn [bind] in E; [|now injection E as <-].
  destruct (write_offset _ _ _ _) as [q| | |] eqn:Eq; try discriminate. cbn [bind] in E. injection E as <-. rewrite sink_bytes_tab. exact (write_offset_tab _ _ _ _ _ Eq).
Qed.
Lemma put_total pad r s s' fd off l n : up base fl r s s' -> fd_ok s fd ->
  exists r', rt_sink_label pad r fd off l n = Ok r' /\ r_tab r' = r_tab r.
Proof.
  intros U F. inv_of U A. destruct F as [F _]. destruct (sink_label_total base pad r s' g fd off l n M A ltac:(lia)) as (r' & E). exists r'. split; [exact E|].
  unfold rt_sink_label in E. destruct (mapping_idx _ _ _) as [[i|]| | |]; try discriminate; cbn [bind] in E; [|now injection E as <-].
  destruct (write_offset _ _ _ _) as [q| | |] eqn:Eq; try discriminate. cbn [bind] in E. apply write_offset_tab in Eq.
  destruct (l =? 0); injection E as <-; [exact Eq|]. rewrite sink_label_tab. exact Eq.
Qed.

Lemma args_total app fuel args : forall i h r s,
  api_run base h r s -> i + len args < 2 ^ 31 ->
  Forall (fun an => c_string app (fst an) (snd an) /\ snd an <= 2 ^ 54 /\ (N.to_nat (snd an) < fuel)%nat) args ->
  within_limits (p_args s i args) -> room r (fold_right N.add 0 (map snd args)) ->
  exists r', taint_argv_loop fuel app r i (map fst args) = Ok r' /\ len (r_tab r') <= len (r_tab r) + fold_right N.add 0 (map snd args).
Proof.
  induction args as [|[a n] args IH]; intros i h r s R Li F L Rm.
  - cbn [map taint_argv_loop]. exists r. split; [reflexivity|]. cbn [fold_right]. lia.
  - inversion F as [|x l (Fa & Fn & Fu) F']; subst. cbn [fst snd] in Fa, Fn, Fu. cbn [map fst snd taint_argv_loop fold_right] in *.
    rewrite (proj2 (c_strlen_ok app fuel a n) (conj Fa Fu)). cbn [bind].
    rewrite len_cons in Li. cbn [p_args] in L. cbv zeta in L.
    assert (L1 : within_limits (with_named s (argv_name i) a n)) by (apply p_args_limits with args (i + 1); exact L).
    destruct (argv_name_spec i ltac:(lia)) as (_ & Nk).
    destruct (named_total base h r s (argv_name i) a n M R Nk Fn L1) as (f & la & r1 & H & Rm1 & Tb); [unfold room in *; lia|].
    rewrite H. cbn [bind snd].
    destruct (named_inv base h r s (argv_name i) a n _ r1 M R Nk Fn L1 H Rm1) as (f' & la' & Ex & _ & _ & R1).
    inversion Ex; subst f' la'. clear Ex.
    set (s1 := astep s (CNamed (argv_name i) a n) (RRange (Some (f, la)))) in *.
    assert (Ae : alike (with_named s (argv_name i) a n) s1).
    { unfold s1, with_named. cbn [astep]. constructor; cbn [with_mem with_lab with_reg a_regs a_open a_rd a_wr a_mem a_out a_cf a_names a_events];
        auto using same_refl. apply Forall2_self. auto using same_refl. }
    assert (L2 : within_limits (p_args s1 (i + 1) args)).
    { apply limits_alike with (p_args (with_named s (argv_name i) a n) (i + 1) args); [|exact L]. now apply args_alike. }
    destruct (IH (i + 1) _ r1 s1 R1 ltac:(lia) F' L2) as (r' & E & Lr); [unfold room in *; lia|]. exists r'. split; [exact E|]. lia.
Qed.

Lemma branch_total r s s' l bs : up base fl r s s' -> den s' l bs -> l <> 0 ->
  exists r' F, len (r_tab r') = len (r_tab r) /\ forall fuel junk, (F <= fuel)%nat -> rt_affects fuel junk r l = Ok r'.
Proof.
  intros U D Nz. assert (U0 := U). inv_of U A. destruct (den_known _ _ _ _ _ _ U0 A D) as [Z|K]; [contradiction|].
  assert (I := reachable_inv _ (ai_tr _ _ _ _ A)). assert (W := proj1 I).
  destruct (affects_total (r_tab r) l W (proj2 I) K) as (t' & F & E). exists (set_tab r t'), F. split.
  - destruct (affects_ok _ _ _ _ _ W (proj2 I) K (E F 0 (le_n F))) as ((_ & Ln & _) & _). exact Ln.
  - intros fuel junk Q. unfold rt_affects. rewrite (E fuel junk Q). reflexivity.
Qed.

Lemma ev_total r s' g pad k i : api_inv base r s' g -> len (a_events s') + 1 <= 2 ^ 32 - 1 ->
  exists m ev, log_fn_event pad (r_mem r) (r_ev r) k i = Ok (m, ev).
Proof.
  intros A L. assert (Mi := ai_mem _ _ _ _ A). destruct (log_fn_event_spec (r_mem r) (r_ev r) (g_evs g) pad k i (mi_ev _ _ _ _ _ _ Mi)) as [H _].
  destruct H as (m & ev & E & _); [|eauto]. destruct (mi_placed _ _ _ _ _ _ Mi) as (_ & _ & _ & _ & _ & (P1 & P2) & _). rewrite P1, P2.
  assert (len (g_evs g) = len (a_events s')) as ->. { rewrite <- (ai_ev _ _ _ _ A). unfold len. now rewrite map_length. }
  change (2 ^ 32 - 1) with 4294967295 in L. lia.
Qed.
Lemma fn_entry_total r s s' pad name : up base fl r s s' -> pad < 256 -> name_ok name -> within_limits (astep s (CFnEntry name) RNone) ->
  len (a_events (astep s (CFnEntry name) RNone)) <= 2 ^ 32 - 1 ->
  exists i r', rt_fn_entry pad r name = Ok (i, r') /\ r_tab r' = r_tab r /\ index_of name (a_names (astep s (CFnEntry name) RNone)) = Some i.
Proof.
  intros U Pd Nk L Le. inv_of U A. assert (Ln := al_names _ _ Al). assert (Ev := al_events _ _ Al). assert (Rg := al_regs _ _ Al).
  destruct L as (_ & L2 & _ & L4). unfold strings_of in L2. cbn [astep] in L2, L4, Le |- *. cbv zeta in *. cbn [a_names a_regs a_events] in *.
  rewrite Ln in *. rewrite Ev in *. rewrite Rg in *.
  destruct (inv_add_mapping base r _ _ _ g name M (ai_mem _ _ _ _ A) Nk) as (m & st & fs & f & acc & offs & E & Mi).
  { intros Q. rewrite Q in L2, L4. rewrite len_app, len_cons, len_nil in L4. split; [exact L2|lia]. }
  unfold rt_fn_entry. rewrite E. cbn [bind].
  set (idx := match index_of name (a_names s') with Some k => k | None => len (a_names s') end) in *.
  assert (X : exists m2 ev, log_fn_event pad m (r_ev r) EvEntry idx = Ok (m2, ev)).
  { destruct (log_fn_event_spec m (r_ev r) (g_evs g) pad EvEntry idx (mi_ev _ _ _ _ _ _ Mi)) as [H _].
    destruct H as (m2 & ev & E2 & _); [|eauto]. destruct (mi_placed _ _ _ _ _ _ Mi) as (_ & _ & _ & _ & _ & (P1 & P2) & _).
    cbn [set_fns r_ev] in P1, P2. rewrite P1, P2.
    assert (len (g_evs g) = len (a_events s')) as ->. { rewrite <- (ai_ev _ _ _ _ A). unfold len. now rewrite map_length. }
    rewrite len_app, len_cons, len_nil in Le. change (2 ^ 32 - 1) with 4294967295 in Le. lia. }
  destruct X as (m2 & ev & E2). cbn [set_fns r_mem r_ev]. rewrite E2. cbn [bind fst snd]. eexists _, _. split; [reflexivity|]. split; [reflexivity|].
  unfold idx. destruct (index_of name (a_names s')) as [k|] eqn:Q; [exact Q|]. now apply index_of_snoc.
Qed.

Lemma cf_bytes_bound es : Forall cf_ok es -> len (cf_bytes es) <= 11 * len es.
Proof.
  induction 1 as [|e es K F IH]; [unfold cf_bytes; cbn; lia|]. unfold cf_bytes in *. cbn [map concat]. rewrite len_app, len_cons, (cf_buffer_len e K).
  assert (B := event_size_bound e). destruct e; cbn [cf_buffer_size] in B; lia.
Qed.
Lemma cf_total r s s' e : up base fl r s s' -> cf_ok e -> 11 * (len fl + 1) <= 2 ^ 30 -> exists r', rt_cf r e = Ok r' /\ r_tab r' = r_tab r.
Proof.
  intros U K L. inv_of U A. assert (Mi := ai_mem _ _ _ _ A). destruct (cf_log_spec (r_mem r) (r_cf r) _ e (mi_cf _ _ _ _ _ _ Mi) K) as [H _].
  destruct H as (m & s2 & E & _).
  - destruct (mi_placed _ _ _ _ _ _ Mi) as (_ & _ & _ & _ & _ & _ & (P1 & P2)). rewrite P1, P2.
    assert (B := cf_bytes_bound _ (ai_cfl _ _ _ _ A)). assert (Eb := event_size_bound e).
    assert (cf_buffer_size e <= 11) by (destruct e; cbn [cf_buffer_size]; lia).
    assert (len fl = len (a_log s')) by (unfold len; now rewrite (Forall2_len _ _ _ En)). change (2 ^ 30) with 1073741824 in L. lia.
  - unfold rt_cf. rewrite E. cbn [bind fst snd]. eexists. split; reflexivity.
Qed.

(** The wrappers and callbacks. *)
Lemma uses_set p r r' n : p_tdag p = Live r -> len (r_tab r') <= len (r_tab r) + n -> uses p n (set_rt p r').
Proof. intros E L. exists r, r'. repeat split; auto. Qed.
Lemma uses_same p r n : p_tdag p = Live r -> uses p n p.
Proof. intros E. exists r, r. repeat split; auto. lia. Qed.

Section Calls.
Variables (argv : bool) (p : proc) (s : ast).
Hypothesis A : alive base fl argv p s.

Lemma w_open_total path fd size : S_Runtime.event_ok s (EOpen path fd size) -> within_limits (estep argv s (EOpen path fd size)) ->
  exists x l p', w_open p path fd size = Ok (x, l, p') /\ uses p 0 p'.
Proof.
  destruct A as (_ & _ & r & s' & Lv & U). intros (O1 & O2 & O3) L. unfold w_open, get_tdag. rewrite Lv. cbn [estep] in L. destruct (Z.leb_spec 0 fd).
  - destruct (open_total r s s' path fd size U ltac:(lia) O2 O3 L) as (r' & E & T). cbn [bind]. rewrite E. cbn [bind]. eexists _, _, _. split; [reflexivity|].
    apply uses_set with r; [exact Lv|]. rewrite T. lia.
  - cbn [bind]. eexists _, _, _. split; [reflexivity|]. now apply uses_same with r.
Qed.
Lemma w_close_total fd ret : exists x l p', w_close p fd ret = Ok (x, l, p') /\ uses p 0 p'.
Proof.
  destruct A as (_ & _ & r & s' & Lv & U). unfold w_close, get_tdag. rewrite Lv. destruct (ret =? 0)%Z; cbn [bind]; eexists _, _, _; (split; [reflexivity|]).
  - apply uses_set with r; [exact Lv|]. unfold rt_close. lia.
  - now apply uses_same with r.
Qed.
Lemma buffer_total fd buff off n : fd_ok s fd -> (forall k, n = Some k -> transfer_ok s (a_rd s) fd off k) ->
  has p (match n with Some k => k | None => 0 end) ->
  exists p', taint_source_buffer p fd buff off n = Ok p' /\ uses p (match n with Some k => k | None => 0 end) p'.
Proof.
  destruct A as (_ & _ & r & s' & Lv & U). intros F T (r0 & E0 & Rm). assert (r0 = r) as -> by congruence. destruct n as [k|]; cbn [taint_source_buffer].
  - unfold get_tdag. rewrite Lv. cbn [bind]. destruct (read_total r s s' fd buff off k U F (T k eq_refl) Rm) as (x & r' & E & L). rewrite E. cbn [bind snd].
    eexists. split; [reflexivity|]. now apply uses_set with r.
  - eexists. split; [reflexivity|]. now apply uses_same with r.
Qed.
Lemma w_read_total fd buff pos ret : S_Runtime.event_ok s (ERead fd buff pos ret) -> (pos < 2 ^ 54)%Z -> has p (Z.to_N ret) ->
  exists x l p', w_read p fd buff pos ret = Ok (x, l, p') /\ uses p (Z.to_N ret) p'.
Proof.
  intros (O1 & O2) Ps H. unfold w_read. rewrite (off_ok _ Ps). cbn [bind].
  destruct (buffer_total fd buff (offset_of pos) (from_returned_size ret)) as (p' & E & Us); auto.
  - unfold from_returned_size. destruct (0 <? ret)%Z; [|discriminate]. intros k Q. injection Q as <-. exact O2.
  - unfold from_returned_size. destruct (Z.ltb_spec 0 ret); [exact H|]. apply has_le with (Z.to_N ret); [exact H|lia].
  - rewrite E. cbn [bind]. eexists _, _, _. split; [reflexivity|]. unfold from_returned_size in Us. destruct (0 <? ret)%Z; [exact Us|]. apply uses_le with 0; [exact Us|lia].
Qed.
Lemma w_fread_total fd buff size pos ret : S_Runtime.event_ok s (EFread fd buff size pos ret) -> (pos < 2 ^ 54)%Z -> size * ret < two64 -> has p (size * ret) ->
  exists x l p', w_fread p fd buff size pos ret = Ok (x, l, p') /\ uses p (size * ret) p'.
Proof.
  intros (O1 & O2) Ps Sz H. unfold w_fread. rewrite (off_ok _ Ps). cbn [bind]. rewrite (count_ok _ _ Sz). cbn [bind].
  destruct (buffer_total fd buff (offset_of pos) (if size * ret =? 0 then None else Some (size * ret))) as (p' & E & Us); auto.
  - destruct (size * ret =? 0); [discriminate|]. intros k Q. injection Q as <-. exact O2.
  - destruct (size * ret =? 0); [|exact H]. apply has_le with (size * ret); [exact H|lia].
  - rewrite E. cbn [bind]. eexists _, _, _. split; [reflexivity|]. destruct (size * ret =? 0); [|exact Us]. apply uses_le with 0; [exact Us|lia].
Qed.
Lemma w_fgets_total fd str app n pos lab : S_Runtime.event_ok s (EFgets fd str app n pos) -> (pos < 2 ^ 54)%Z -> has p n ->
  exists fuel x l p', w_fgets fuel app p fd str pos true lab = Ok (x, l, p') /\ uses p n p'.
Proof.
  intros (O1 & O2 & O3) Ps H. exists (S (N.to_nat n)). unfold w_fgets. rewrite (off_ok _ Ps). cbn [bind from_returned_string].
  rewrite (proj2 (c_strlen_ok app (S (N.to_nat n)) str n)) by (split; [exact O3|lia]). cbn [bind].
  destruct (buffer_total fd str (offset_of pos) (Some n)) as (p' & E & Us); auto.
  - intros k Q. injection Q as <-. exact O2.
  - rewrite E. cbn [bind]. eexists _, _, _. split; [reflexivity|exact Us].
Qed.
Lemma w_fgets_null_total fuel app fd str pos lab : (pos < 2 ^ 54)%Z ->
  exists x l p', w_fgets fuel app p fd str pos false lab = Ok (x, l, p') /\ uses p 0 p'.
Proof.
  destruct A as (_ & _ & r & s' & Lv & U). intros Ps. unfold w_fgets. rewrite (off_ok _ Ps). cbn [bind from_returned_string taint_source_buffer].
  eexists _, _, _. split; [reflexivity|]. now apply uses_same with r.
Qed.
Lemma w_getc_total fd pos c dst : S_Runtime.event_ok s (EGetc fd pos c dst) -> (pos < 2 ^ 54)%Z -> has p 1 ->
  exists x l p', w_getc p fd pos c = Ok (x, l, p') /\ uses p 1 p'.
Proof.
  destruct A as (_ & _ & r & s' & Lv & U). intros (O1 & O2) Ps (r0 & E0 & Rm). assert (r0 = r) as -> by congruence.
  unfold w_getc, get_tdag. rewrite (off_ok _ Ps), Lv. cbn [bind]. destruct (c =? -1)%Z.
  - eexists _, _, _. split; [reflexivity|]. now apply uses_same with r.
  - destruct (range_total r s s' fd (offset_of pos) 1 U O1 O2 Rm) as (x & r' & E & L). rewrite E. cbn [bind fst snd].
    eexists _, _, _. split; [reflexivity|]. now apply uses_set with r.
Qed.
Lemma w_mmap_total n fd pos addr : S_Runtime.event_ok s (EMmap n fd pos addr) -> (pos < 2 ^ 54)%Z -> has p n ->
  exists x l p', w_mmap p n fd pos addr = Ok (x, l, p') /\ uses p n p'.
Proof.
  destruct A as (_ & _ & r & s' & Lv & U). intros (O1 & O2) Ps (r0 & E0 & Rm). assert (r0 = r) as -> by congruence.
  unfold w_mmap, get_tdag, clear. rewrite (off_ok _ Ps), Lv. cbn [bind]. destruct addr as [a|].
  - cbn [set_rt p_tdag bind]. destruct (clear_read_total r s s' a (N.to_nat (M_Dfsan.round_up n)) fd a (offset_of pos) n U O1 O2 Rm) as (x & r' & E & L). rewrite E. cbn [bind fst snd].
    eexists _, _, _. split; [reflexivity|]. exists r, r'. split; [exact Lv|]. split; [reflexivity|exact L].
  - cbn [bind]. eexists _, _, _. split; [reflexivity|]. now apply uses_same with r.
Qed.
Lemma clear_tab n : forall r a, r_tab (clear_bytes r a n) = r_tab r.
Proof. induction n as [|n IH]; intros r a; [reflexivity|]. cbn [clear_bytes]. now rewrite IH. Qed.
Lemma w_munmap_total addr n ret : exists x l p', w_munmap p addr n ret = Ok (x, l, p') /\ uses p 0 p'.
Proof.
  destruct A as (_ & _ & r & s' & Lv & U). unfold w_munmap, clear. eexists _, _, _. split; [reflexivity|]. destruct (ret =? -1)%Z; rewrite Lv; cbn [set_rt p_tdag].
  - exists r, (clear_bytes r addr (N.to_nat n)). split; [exact Lv|]. split; [reflexivity|]. rewrite clear_tab. lia.
  - exists r. eexists. split; [exact Lv|]. split; [reflexivity|]. rewrite !clear_tab. lia.
Qed.
Lemma sum_bound (f : list (N * N)) n : In n (map snd f) -> n <= fold_right N.add 0 (map snd f).
Proof. induction (map snd f) as [|x l IH]; cbn [In fold_right]; [tauto|]. intros [->|I]; [lia|]. specialize (IH I). lia. Qed.
Lemma p_args_len args : forall s0 i, len (a_regs (p_args s0 i args)) = len (a_regs s0) + len args.
Proof.
  induction args as [|[a n] args IH]; intros s0 i; cbn [p_args]; [rewrite len_nil; lia|]. cbv zeta. rewrite IH.
  cbn [with_mem with_reg a_regs]. rewrite len_app, !len_cons, len_nil. lia.
Qed.
Lemma w_argv_total app args : S_Runtime.event_ok s (EArgv app args) -> within_limits (estep argv s (EArgv app args)) -> has p (event_labels (EArgv app args)) ->
  exists fuel p', taint_argv fuel app p (map fst args) = Ok p' /\ uses p (event_labels (EArgv app args)) p'.
Proof.
  destruct A as (_ & Ar & r & s' & Lv & U). intros K L (r0 & E0 & Rm). assert (r0 = r) as -> by congruence. cbn [S_Runtime.event_ok event_labels estep] in *.
  unfold taint_argv. rewrite Ar. destruct argv; cbn [negb].
  - destruct args as [|x args].
    + cbn [map]. exists 0%nat, p. split; [reflexivity|]. now apply uses_same with r.
    + set (args' := x :: args) in *. exists (S (N.to_nat (fold_right N.add 0 (map snd args')))). inv_of U AI.
      assert (L' : within_limits (p_args s' 0 args')) by (apply limits_alike with (p_args s 0 args'); [now apply args_alike|exact L]).
      destruct (args_total app (S (N.to_nat (fold_right N.add 0 (map snd args')))) args' 0 h r s' R) as (r' & E & Lr); auto.
      * assert (X := p_args_len args' s 0). destruct L as (L1 & _). change (2 ^ 31) with 2147483648. lia.
      * apply Forall_forall. intros an I. rewrite Forall_forall in K. destruct (K an I) as [K1 K2]. split; [exact K1|]. split; [exact K2|].
        assert (B := sum_bound args' (snd an) (in_map snd _ _ I)). lia.
      * unfold args' in *. cbn [map] in *. unfold get_tdag. rewrite Lv. cbn [bind]. rewrite E. cbn [bind]. eexists. split; [reflexivity|]. now apply uses_set with r.
  - exists 0%nat, p. split; [reflexivity|]. now apply uses_same with r.
Qed.
Lemma cb_branch_total v l bs : forall r s', p_tdag p = Live r -> up base fl r s s' -> den s' l bs ->
  exists fuel p', cb_dfsw_cond_branch fuel 0 p v l = Ok p' /\ uses p 0 p'.
Proof.
  destruct A as (F & _). intros r s' Lv U D. unfold cb_dfsw_cond_branch, cb_cond_branch, get_tdag. rewrite F, Lv. cbn [negb].
  destruct (N.ltb_spec 0 l).
  - destruct (branch_total r s s' l bs U D ltac:(lia)) as (r' & f & Ln & E). exists f. cbn [bind]. rewrite (E f 0 (le_n f)). cbn [bind].
    eexists. split; [reflexivity|]. apply uses_set with r; [exact Lv|lia].
  - exists 0%nat, p. split; [reflexivity|]. now apply uses_same with r.
Qed.
Lemma sink_total pad fd off n buff : fd_ok s fd -> exists p', impl_taint_sink pad p fd off n buff = Ok p' /\ uses p 0 p'.
Proof.
  destruct A as (_ & _ & r & s' & Lv & U). intros F. destruct n as [k|]; cbn [impl_taint_sink].
  - unfold get_tdag. rewrite Lv. cbn [bind]. destruct (write_total pad r s s' fd off buff k U F) as (r' & E & T). rewrite E. cbn [bind].
    eexists. split; [reflexivity|]. apply uses_set with r; [exact Lv|]. rewrite T. lia.
  - eexists. split; [reflexivity|]. now apply uses_same with r.
Qed.
Lemma w_write_total pad fd buff pos ret : fd_ok s fd -> (pos < 2 ^ 54)%Z -> exists x l p', w_write pad p fd buff pos ret = Ok (x, l, p') /\ uses p 0 p'.
Proof.
  intros F Ps. unfold w_write. rewrite (off_ok _ Ps). cbn [bind]. destruct (sink_total pad fd (offset_of pos) (from_returned_size ret) buff F) as (p' & E & Us).
  rewrite E. cbn [bind]. eexists _, _, _. split; [reflexivity|exact Us].
Qed.
Lemma w_fwrite_total pad fd buff size pos ret : fd_ok s fd -> (pos < 2 ^ 54)%Z -> size * ret < two64 ->
  exists x l p', w_fwrite pad p fd buff size pos ret = Ok (x, l, p') /\ uses p 0 p'.
Proof.
  intros F Ps Sz. unfold w_fwrite. rewrite (off_ok _ Ps). cbn [bind]. rewrite (count_ok _ _ Sz). cbn [bind].
  destruct (sink_total pad fd (offset_of pos) (if size * ret =? 0 then None else Some (size * ret)) buff F) as (p' & E & Us).
  rewrite E. cbn [bind]. eexists _, _, _. split; [reflexivity|exact Us].
Qed.
Lemma w_putc_total pad ch fd pos ret l : fd_ok s fd -> (pos < 2 ^ 54)%Z -> exists x l' p', w_putc pad p ch fd pos ret l = Ok (x, l', p') /\ uses p 0 p'.
Proof.
  destruct A as (_ & _ & r & s' & Lv & U). intros F Ps. unfold w_putc, get_tdag. rewrite (off_ok _ Ps), Lv. cbn [bind]. destruct (ret =? ch)%Z.
  - destruct (put_total pad r s s' fd (offset_of pos) l 1 U F) as (r' & E & T). rewrite E. cbn [bind]. eexists _, _, _. split; [reflexivity|].
    apply uses_set with r; [exact Lv|]. rewrite T. lia.
  - cbn [bind]. eexists _, _, _. split; [reflexivity|]. now apply uses_same with r.
Qed.
Lemma cb_entry_total pad name : pad < 256 -> name_ok name -> within_limits (estep argv s (EEnter name)) ->
  len (a_events (estep argv s (EEnter name))) <= 2 ^ 32 - 1 ->
  exists i p', cb_func_entry pad p name = Ok (i, p') /\ uses p 0 p' /\ index_of name (a_names (estep argv s (EEnter name))) = Some i.
Proof.
  destruct A as (F & _ & r & s' & Lv & U). intros Pd Nk L Le. unfold cb_func_entry, get_tdag. rewrite F, Lv. cbn [negb bind].
  destruct (fn_entry_total r s s' pad name U Pd Nk L Le) as (i & r' & E & T & Ix). rewrite E. cbn [bind fst snd]. eexists _, _. split; [reflexivity|].
  split; [|exact Ix]. apply uses_set with r; [exact Lv|]. rewrite T. lia.
Qed.
Lemma cb_exit_total pad i : len (a_events (estep argv s (EExit i))) <= 2 ^ 32 - 1 -> exists p', cb_func_exit pad p i = Ok p' /\ uses p 0 p'.
Proof.
  destruct A as (F & _ & r & s' & Lv & U). intros Le. unfold cb_func_exit, get_tdag. rewrite F, Lv. cbn [negb bind]. inv_of U AI.
  cbn [estep astep a_events] in Le. rewrite (al_events _ _ Al), len_app, len_cons, len_nil in Le.
  unfold rt_fn_exit. destruct (ev_total r s' g pad EvExit i AI ltac:(lia)) as (m & ev & E). rewrite E. cbn [bind fst snd].
  eexists. split; [reflexivity|]. apply uses_set with r; [exact Lv|]. cbn [set_ev r_tab]. lia.
Qed.
Lemma cb_cf_total e : cf_ok e -> 11 * (len fl + 1) <= 2 ^ 30 -> forall r, p_tdag p = Live r -> exists r', rt_cf r e = Ok r' /\ uses p 0 (set_rt p r').
Proof.
  destruct A as (F & _ & r & s' & Lv & U). intros K L r0 E0. assert (r0 = r) as -> by congruence. destruct (cf_total r s s' e U K L) as (r' & E & T).
  exists r'. split; [exact E|]. apply uses_set with r; [exact Lv|]. rewrite T. lia.
Qed.
Lemma cb_enter_total f : f < 2 ^ 32 -> 11 * (len fl + 1) <= 2 ^ 30 -> exists p', cb_enter p f = Ok p' /\ uses p 0 p'.
Proof.
  intros K L. assert (A0 := A). destruct A0 as (F & _ & r & s' & Lv & U). unfold cb_enter, get_tdag. rewrite F, Lv. cbn [negb bind].
  destruct (cb_cf_total (CfEnter f) K L r Lv) as (r' & E & Us). rewrite E. cbn [bind]. eauto.
Qed.
Lemma cb_leave_total f : f < 2 ^ 32 -> 11 * (len fl + 1) <= 2 ^ 30 -> exists p', cb_leave p f = Ok p' /\ uses p 0 p'.
Proof.
  intros K L. assert (A0 := A). destruct A0 as (F & _ & r & s' & Lv & U). unfold cb_leave, get_tdag. rewrite F, Lv. cbn [negb bind].
  destruct (cb_cf_total (CfLeave f) K L r Lv) as (r' & E & Us). rewrite E. cbn [bind]. eauto.
Qed.
(** A decision on a value without label leaves no entry. *)
Lemma cb_tainted_total v f l bs old : f < 2 ^ 32 -> forall r s', p_tdag p = Live r -> up base fl r s s' -> den s' l bs ->
  (bs <> [] -> 11 * (len fl + 1) <= 2 ^ 30) -> exists p', cb_tainted_cf p v f l old = Ok (v, l, p') /\ uses p 0 p'.
Proof.
  intros K r s' Lv U D L. assert (A0 := A). destruct A0 as (F & _). unfold cb_tainted_cf, get_tdag. rewrite F, Lv. cbn [negb]. destruct (N.ltb_spec 0 l) as [P|P].
  - assert (Nb : bs <> []). { intros ->. destruct D as [[->|Kn] Sm]; [lia|]. apply Kn. destruct (a_lab s' l) as [|b bl]; [reflexivity|]. exfalso. apply (in_nil (a := b)). apply Sm. now left. }
    assert (Kl : l < 2 ^ 32).
    { inv_of U AI. assert (Kk : S_Dfsan.known (r_tab r) l). { destruct D as [[->|Kn] _]; [now left|right]. now apply (ai_lab _ _ _ _ AI). }
      destruct Kk as [->|Ku]; [lia|]. assert (W := proj1 (reachable_inv _ (ai_tr _ _ _ _ AI))). destruct W as (_ & Cap & _). destruct Ku as [_ Ku].
      change label_capacity with 2147483648 in Cap. change (2 ^ 32) with 4294967296. lia. }
    destruct (cb_cf_total (CfTainted l f) (conj Kl K) (L Nb) r Lv) as (r' & E & Us). cbn [bind]. rewrite E. cbn [bind]. eexists. split; [reflexivity|exact Us].
  - cbn [bind]. eexists. split; [reflexivity|]. now apply uses_same with r.
Qed.

End Calls.

Definition no_pad : N -> list N := fun _ => [].
Lemma no_pad_ok : forall i, is_bytes (no_pad i).
Proof. intros i. constructor. Qed.

Lemma logs_events s log : logs_fit s log -> len (a_events s) <= 2 ^ 32 - 1.
Proof. intros [L _]. exact L. Qed.
Lemma logs_one s log f : logs_fit s (log ++ [f]) -> 11 * (len log + 1) <= 2 ^ 30.
Proof. intros [_ L]. rewrite len_app, len_cons, len_nil in L. lia. Qed.

Lemma wrapped_total argv p vals s r k m a v : alive base fl argv p s -> p_tdag p = Live r -> lib_event k vals m a = Ok v ->
  S_Runtime.event_ok s v -> served v -> within_limits (estep argv s v) -> logs_fit (estep argv s v) (fl ++ flow_of s v) ->
  answered (estep argv s v) v a -> has p (event_labels v) ->
  exists x l p', wrapped p vals (r_shadow r VALUE) v x l p' /\ (forall i, x = Some i -> lib_value k vals a = i) /\ uses p (event_labels v) p'.
Proof.
  intros A Lv Ev K Sv L Lf An H. unfold lib_event in Ev. destruct (len vals <? arity k); [discriminate|].
  assert (NoV : forall i : N, None = Some i -> lib_value k vals a = i) by discriminate.
  assert (U : exists s', up base fl r s s'). { destruct A as (_ & _ & r0 & s' & Lv0 & U). assert (r0 = r) as -> by congruence. eauto. }
  destruct U as (s' & U). assert (D := den_shadow base fl M r s s' VALUE U).
  destruct k; try match type of Ev with (if text_at _ _ _ then _ else _) = _ => destruct (text_at _ _ _); [|discriminate] end;
    try match type of Ev with (if an_val a =? 0 then _ else _) = _ => destruct (an_val a =? 0) end;
    try match type of Ev with (if (an_ret a =? 0)%Z then _ else _) = _ => destruct (an_ret a =? 0)%Z; [|discriminate] end; injection Ev as <-; cbn [served event_labels] in *.
  - destruct (w_open_total argv p s A _ _ _ K L) as (x & l & p' & E & Us). exists None, l, p'. split; [econstructor; exact E|auto].
  - destruct (w_open_total argv p s A _ _ _ K L) as (x & l & p' & E & Us). exists None, l, p'. split; [econstructor; exact E|auto].
  - destruct (w_close_total argv p s A (int32 (arg vals 0)) (an_ret a)) as (x & l & p' & E & Us). exists None, l, p'. split; [econstructor; exact E|auto].
  - destruct (w_close_total argv p s A (an_fd a) (an_ret a)) as (x & l & p' & E & Us). exists None, l, p'. split; [econstructor; exact E|auto].
  - destruct (w_read_total argv p s A _ _ _ _ K Sv H) as (x & l & p' & E & Us). exists None, l, p'. split; [econstructor; exact E|auto].
  - destruct Sv as [S1 S2]. destruct (w_fread_total argv p s A _ _ _ _ _ K S1 S2 H) as (x & l & p' & E & Us). exists None, l, p'. split; [econstructor; exact E|auto].
  - destruct (w_fgets_null_total argv p s A 0%nat (an_mem a) (an_fd a) (arg vals 0) (an_pos a) (r_shadow r VALUE) Sv) as (x & l & p' & E & Us).
    exists None, l, p'. split; [apply wr_fgets_null with 0%nat (an_mem a) x; exact E|auto].
  - destruct (w_fgets_total argv p s A _ _ _ _ _ (r_shadow r VALUE) K Sv H) as (f & x & l & p' & E & Us). exists None, l, p'. split; [econstructor; exact E|auto].
  - destruct (w_getc_total argv p s A _ _ _ _ K Sv H) as (x & l & p' & E & Us). exists None, l, p'. split; [econstructor; exact E|auto].
  - destruct (w_mmap_total argv p s A _ _ _ _ K Sv H) as (x & l & p' & E & Us). exists None, l, p'. split; [econstructor; exact E|auto].
  - destruct (w_munmap_total argv p s A (arg vals 0) (arg vals 1) 0%Z) as (x & l & p' & E & Us). exists None, l, p'. split; [econstructor; exact E|auto].
  - destruct K as (K1 & _). destruct (w_write_total argv p s A no_pad _ (arg vals 1) _ (an_ret a) K1 Sv) as (x & l & p' & E & Us). exists None, l, p'. split; [econstructor; [exact no_pad_ok|exact E]|auto].
  - destruct K as (K1 & _), Sv as [S1 S2]. destruct (w_fwrite_total argv p s A no_pad _ (arg vals 0) _ _ _ K1 S1 S2) as (x & l & p' & E & Us). exists None, l, p'. split; [econstructor; [exact no_pad_ok|exact E]|auto].
  - destruct K as (K1 & _). destruct (w_putc_total argv p s A no_pad (int32 (arg vals 0)) _ _ (an_ret a) (r_shadow r VALUE) K1 Sv) as (x & l & p' & E & Us). exists None, l, p'. split; [econstructor; [exact no_pad_ok|exact E]|auto].
  - destruct (w_argv_total argv p s A _ _ K L H) as (f & p' & E & Us). exists None, 0, p'. split; [econstructor; exact E|auto].
  - destruct (cb_branch_total argv p s A (arg vals 0) _ _ r s' Lv U D) as (f & p' & E & Us). exists None, 0, p'. split; [econstructor; exact E|auto].
  - cbn [S_Runtime.event_ok] in K. destruct (cb_tainted_total argv p s A (arg vals 0) _ _ _ 0 K r s' Lv U D) as (p' & E & Us).
    { intros Nb. cbn [flow_of] in Lf. destruct (a_mem s VALUE); [contradiction|]. now apply logs_one in Lf. }
    exists (Some (arg vals 0)), (r_shadow r VALUE), p'. split; [econstructor; exact E|]. split; [|exact Us]. intros i Q. now injection Q as <-.
  - destruct (cb_entry_total argv p s A 0 name ltac:(lia) K L (logs_events _ _ Lf)) as (i & p' & E & Us & Ix). exists (Some i), 0, p'.
    split; [apply wr_enter with 0; [lia|exact E]|]. split; [|exact Us]. intros j Q. cbn [answered] in An. cbn [lib_value]. congruence.
  - destruct (cb_exit_total argv p s A 0 (arg vals 0) (logs_events _ _ Lf)) as (p' & E & Us). exists None, 0, p'. split; [apply wr_exit with 0; [lia|exact E]|auto].
  - destruct (cb_enter_total argv p s A _ K (logs_one _ _ _ Lf)) as (p' & E & Us). exists None, 0, p'. split; [econstructor; exact E|auto].
  - destruct (cb_leave_total argv p s A _ K (logs_one _ _ _ Lf)) as (p' & E & Us). exists None, 0, p'. split; [econstructor; exact E|auto].
Qed.

Lemma event_total argv p s v : alive base fl argv p s ->
  S_Runtime.event_ok s v -> served v -> within_limits (estep argv s v) -> logs_fit (estep argv s v) (fl ++ flow_of s v) -> has p (event_labels v) ->
  exists p', pstep p v p' /\ uses p (event_labels v) p'.
Proof.
  intros A K Sv L Lf H. assert (A0 := A). destruct A0 as (Fl & _ & r & s' & Lv & U).
  assert (D := fun a => den_shadow base fl M r s s' a U).
  destruct v; cbn [served event_labels] in *.
  - destruct (w_open_total argv p s A _ _ _ K L) as (x & l & p' & E & Us). exists p'. split; [econstructor; exact E|auto].
  - destruct (w_close_total argv p s A fd ret) as (x & l & p' & E & Us). exists p'. split; [econstructor; exact E|auto].
  - destruct (w_read_total argv p s A _ _ _ _ K Sv H) as (x & l & p' & E & Us). exists p'. split; [econstructor; exact E|auto].
  - destruct Sv as [S1 S2]. destruct (w_fread_total argv p s A _ _ _ _ _ K S1 S2 H) as (x & l & p' & E & Us). exists p'. split; [econstructor; exact E|auto].
  - destruct (w_fgets_total argv p s A _ _ _ _ _ 0 K Sv H) as (f & x & l & p' & E & Us). exists p'. split; [econstructor; exact E|auto].
  - destruct (w_getc_total argv p s A _ _ _ _ K Sv H) as (x & l & p' & E & Us). destruct Us as (r1 & r' & E1 & E2 & L2).
    exists (set_rt p' (rt_set_label r' dst l)). split; [econstructor; [exact E|exact E2]|]. exists r1, (rt_set_label r' dst l). repeat split; auto.
  - destruct (w_mmap_total argv p s A _ _ _ _ K Sv H) as (x & l & p' & E & Us). exists p'. split; [econstructor; exact E|auto].
  - destruct (w_munmap_total argv p s A addr len 0%Z) as (x & l & p' & E & Us). exists p'. split; [econstructor; exact E|auto].
  - destruct (w_argv_total argv p s A _ _ K L H) as (f & p' & E & Us). exists p'. split; [econstructor; exact E|auto].
  - exists (set_rt p (rt_set_label r dst (r_shadow r src))). split; [now constructor|]. apply uses_set with r; [exact Lv|]. cbn [rt_set_label set_shadow r_tab]. lia.
  - destruct H as (r0 & E0 & Rm). assert (r0 = r) as -> by congruence.
    destruct (union_code_total r s s' false _ _ _ _ U (D a) (D b) Rm) as (l & t & E & Lt). unfold union_code in E. rewrite <- Fl in E.
    exists (set_rt p (rt_set_label (set_tab r t) dst l)). split; [now constructor|]. now apply uses_set with r.
  - exists (set_rt p (rt_set_label r dst 0)). split; [now constructor|]. apply uses_set with r; [exact Lv|]. cbn [rt_set_label set_shadow r_tab]. lia.
  - destruct (cb_branch_total argv p s A 0 _ _ r s' Lv U (D a)) as (f & p' & E & Us). exists p'. split; [econstructor; [exact Lv|exact E]|auto].
  - destruct K as (K1 & _). destruct (w_write_total argv p s A no_pad _ buff _ ret K1 Sv) as (x & l & p' & E & Us). exists p'. split; [econstructor; [exact no_pad_ok|exact E]|auto].
  - destruct K as (K1 & _), Sv as [S1 S2]. destruct (w_fwrite_total argv p s A no_pad _ buff _ _ _ K1 S1 S2) as (x & l & p' & E & Us). exists p'. split; [econstructor; [exact no_pad_ok|exact E]|auto].
  - destruct K as (K1 & _). destruct (w_putc_total argv p s A no_pad ch _ _ ret (r_shadow r src) K1 Sv) as (x & l & p' & E & Us). exists p'. split; [econstructor; [exact no_pad_ok|exact Lv|exact E]|auto].
  - destruct (cb_entry_total argv p s A 0 name ltac:(lia) K L (logs_events _ _ Lf)) as (i & p' & E & Us & Ix). exists p'. split; [apply ps_enter with 0 i; [lia|exact E]|auto].
  - destruct (cb_exit_total argv p s A 0 i (logs_events _ _ Lf)) as (p' & E & Us). exists p'. split; [apply ps_exit with 0; [lia|exact E]|auto].
  - destruct (cb_enter_total argv p s A _ K (logs_one _ _ _ Lf)) as (p' & E & Us). exists p'. split; [econstructor; exact E|auto].
  - destruct (cb_leave_total argv p s A _ K (logs_one _ _ _ Lf)) as (p' & E & Us). exists p'. split; [econstructor; exact E|auto].
  - cbn [S_Runtime.event_ok] in K. destruct (cb_tainted_total argv p s A 0 _ _ _ 0 K r s' Lv U (D a)) as (p' & E & Us).
    { intros Nb. cbn [flow_of] in Lf. destruct (a_mem s a); [contradiction|]. now apply logs_one in Lf. }
    exists p'. split; [econstructor; [exact Lv|exact E]|auto].
Qed.

End Up.
