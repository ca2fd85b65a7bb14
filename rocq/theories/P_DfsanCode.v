(** Shadow instructions against what they mean for the dependence of values. *)
From Coq Require Import NArith ZArith List Bool Lia.
From Verif Require Import M_Base M_Memory M_Encoding M_Labels M_OutputFile M_Dfsan M_Api M_Runtime M_Llvm M_DfsanPass M_DfsanRun
  S_Provenance S_Labels S_OutputFile S_Dfsan S_Api S_History S_Runtime
  P_Base P_Labels P_History P_Api P_ApiRun P_Runtime P_Argv P_ProcRun.
Import ListNotations.
Open Scope N_scope.

(** ** Cells *)
Lemma cell_above k j : two64 < cell k j.
Proof. unfold cell. enough (1 <= 2 ^ k * (2 * j + 1)) by lia. assert (2 ^ k <> 0) by (apply N.pow_nonzero; lia). nia. Qed.

Lemma odd_pow k j k' j' : k <= k' -> 2 ^ k * (2 * j + 1) = 2 ^ k' * (2 * j' + 1) -> k = k' /\ j = j'.
Proof.
  intros L E. assert (P : 2 ^ k <> 0) by (apply N.pow_nonzero; lia).
  replace k' with (k + (k' - k)) in E by lia. rewrite N.pow_add_r, <- N.mul_assoc in E. apply N.mul_cancel_l in E; [|exact P].
  destruct (N.eq_dec k k') as [->|Ne].
  - rewrite N.sub_diag in E. change (2 ^ 0) with 1 in E. lia.
  - exfalso. replace (k' - k) with (N.succ (k' - k - 1)) in E by lia. rewrite N.pow_succ_r' in E. lia.
Qed.
Lemma cell_inj k j k' j' : cell k j = cell k' j' -> k = k' /\ j = j'.
Proof.
  unfold cell. intros E. destruct (N.le_ge_cases k k') as [L|L].
  - apply odd_pow; [exact L|lia].
  - destruct (odd_pow k' j' k j L) as [-> ->]; [lia|auto].
Qed.

(** ** The plain meaning of shadow code *)
Definition pdep (d : N) (s : ast) (v : sval) : list byte_id :=
  match v with SZero => [] | SReg x => a_mem s (REG d x) | STmp => a_mem s TMP end.
Definition val (e : regs) (o : operand) : N := match value e o with Ok v => v | _ => 0 end.
Definition p_sets (s : ast) (bs : list byte_id) (addrs : list N) : ast := fold_left (fun s a => p_set s a bs) addrs s.
Definition p_copies (s : ast) (ps : list (N * N)) : ast := fold_left (fun s p => p_set s (fst p) (a_mem s (snd p))) ps s.

Definition psx (d : N) (e : regs) (s : ast) (i : sinstr) : ast :=
  match i with
  | TSet x v => p_set s (REG d x) (pdep d s v)
  | TUnion _ a b => p_set s TMP (pdep d s a ++ pdep d s b)
  | TLoad _ ptr size => p_set s TMP (concat (bytes_at s (val e ptr) size))
  | TStore ptr size v =>
      p_sets s (pdep d s v) (if sval_eqb v SZero then nseq (val e ptr) (N.to_nat size) else store_addrs (val e ptr) size)
  | TSelect c a b => p_set s TMP (pdep d s (if val e c =? 0 then b else a))
  | TSetLabel ptr n v => p_sets s (pdep d s v) (nseq (val e ptr) (N.to_nat (val e n)))
  | TMove dst src n =>
      let k := nseq 0 (N.to_nat (val e n)) in
      p_copies (p_copies s (map (fun i => (SCRATCH i, val e src + i)) k)) (map (fun i => (val e dst + i, SCRATCH i)) k)
  | TArg off v => p_set s (ARG off) (pdep d s v)
  | TArgLoad x off => p_set s (REG d x) (a_mem s (ARG off))
  | TRet v => p_set s RET (pdep d s v)
  | TRetLoad x => p_set s (REG d x) (a_mem s RET)
  | TPass v => p_set s VALUE (pdep d s v)
  | TResult x => p_set s (REG d x) (a_mem s VALUE)
  end.
Definition pcode (d : N) (e : regs) (s : ast) (c : list sinstr) : ast := fold_left (psx d e) c s.

Definition p_phis (d : N) (s : ast) (l : list (N * sval)) : ast :=
  let ks := nseq 0 (length l) in
  p_copies (fold_left (fun s kv => p_set s (SCRATCH (fst kv)) (pdep d s (snd kv))) (combine ks (map snd l)) s)
           (combine (map (fun x => REG d (fst x)) l) (map SCRATCH ks)).

(** ** Labels and what they denote *)
(** [up]: [r] is the state of a run of the API with plain meaning [s] (and [s'] with labels). *)
Definition up (base : N) (fl : list flow) (r : rt) (s s' : ast) : Prop :=
  exists h, api_run base h r s' /\ alike s s' /\ Forall2 (entry_for s') fl (a_log s') /\ within_limits s.
Definition den (s' : ast) (l : N) (bs : list byte_id) : Prop := (l = 0 \/ S_Api.known s' l) /\ same bs (a_lab s' l).
Definition keeps (s1 s2 : ast) : Prop := forall l bs, den s1 l bs -> den s2 l bs.

Lemma keeps_refl s : keeps s s.
Proof. intros l bs D. exact D. Qed.
Lemma keeps_trans s1 s2 s3 : keeps s1 s2 -> keeps s2 s3 -> keeps s1 s3.
Proof. intros A B l bs D. auto. Qed.
Lemma den_same s l bs bs' : den s l bs -> same bs' bs -> den s l bs'.
Proof. intros [K D] H. split; [exact K|]. intros b. rewrite (H b). apply D. Qed.

Section Up.
Variables (base : N) (fl : list flow).
Hypothesis M : mapped base shipped.

Lemma up_leads r s s' h r1 s1 : api_run base h r s' -> Forall2 (entry_for s') fl (a_log s') ->
  alike s s' -> within_limits s1 -> leads base h r1 s1 -> exists s2, up base fl r1 s1 s2 /\ keeps s' s2.
Proof.
  intros R En Al L (h' & s2 & Q & R2 & Al2). destruct (api_run_inv base h r s' M R) as (g & A).
  destruct (api_run_inv base _ r1 s2 M R2) as (g2 & A2).
  destruct (quiet_keeps base h r s' h' r1 s2 M R Q R2) as [El Kp]. exists s2. split.
  - exists (h ++ h'). split; [exact R2|]. split; [exact Al2|]. split; [|exact L]. rewrite El. eapply Forall2_impl'; [|exact En].
    intros [f|f|f bs] [f'|f'|l f']; cbn [entry_for]; auto. intros (-> & K & Sb). destruct (Kp l K) as [K2 S2].
    split; [reflexivity|]. split; [exact K2|]. intros b. rewrite (Sb b). apply S2.
  - intros l bs [[->|K] D].
    + split; [now left|]. rewrite (lab_of_zero _ _ _ _ A2). rewrite (lab_of_zero _ _ _ _ A) in D. exact D.
    + destruct (Kp l K) as [K2 S2]. split; [now right|]. intros b. rewrite (D b). apply S2.
Qed.

Lemma den_shadow r s s' a : up base fl r s s' -> den s' (r_shadow r a) (a_mem s a).
Proof.
  intros (h & R & Al & _). destruct (api_run_inv base h r s' M R) as (g & A). split; [exact (shadow_known _ _ _ _ a A)|].
  intros b. rewrite (al_mem _ _ Al a b). apply (shadow_same _ _ _ _ a A).
Qed.
Lemma den_zero r s s' : up base fl r s s' -> den s' 0 [].
Proof.
  intros (h & R & Al & _). destruct (api_run_inv base h r s' M R) as (g & A). split; [now left|].
  rewrite (lab_of_zero _ _ _ _ A). apply same_refl.
Qed.
Lemma den_small r s s' l bs : up base fl r s s' -> den s' l bs -> l < 2 ^ 31.
Proof.
  intros (h & R & Al & _) [[->|K] _]; [reflexivity|]. destruct (api_run_inv base h r s' M R) as (g & A).
  apply (ai_lab _ _ _ _ A) in K. destruct K as [_ K]. destruct (reachable_inv _ (ai_tr _ _ _ _ A)) as [W _].
  assert (len (r_tab r) <= label_capacity) by apply W. change label_capacity with (2 ^ 31) in *. lia.
Qed.

Lemma up_set r s s' dst l bs : up base fl r s s' -> den s' l bs ->
  exists s2, up base fl (rt_set_label r dst l) (p_set s dst bs) s2 /\ keeps s' s2.
Proof.
  intros (h & R & Al & En & L) [K D]. apply up_leads with r s h; auto. now apply step_set with s'.
Qed.

Lemma set_tab_same r : set_tab r (r_tab r) = r.
Proof. destruct r. reflexivity. Qed.

Lemma up_union_ne r s s' a b l t ba bb : up base fl r s s' -> den s' a ba -> den s' b bb ->
  dfsan_union_ne true (r_tab r) a b = Ok (l, t) ->
  exists s2, up base fl (set_tab r t) s s2 /\ keeps s' s2 /\ den s2 l (ba ++ bb).
Proof.
  intros U Da Db E. assert (U0 := U). destruct U as (h & R & Al & En & L). destruct (api_run_inv base h r s' M R) as (g & A).
  assert (Z := lab_of_zero _ _ _ _ A). unfold dfsan_union_ne, union_table in E.
  destruct (N.eqb_spec a 0) as [->|Na].
  { assert (l = b /\ t = r_tab r) as [-> ->] by (split; congruence). rewrite set_tab_same. exists s'. split; [exact U0|]. split; [apply keeps_refl|].
    apply den_same with bb; [exact Db|]. destruct Da as [_ Da]. intros x. rewrite in_app_iff, (Da x), Z. cbn [In]. tauto. }
  destruct (N.eqb_spec b 0) as [->|Nb].
  { assert (l = a /\ t = r_tab r) as [-> ->] by (split; congruence). rewrite set_tab_same. exists s'. split; [exact U0|]. split; [apply keeps_refl|].
    apply den_same with ba; [exact Da|]. destruct Db as [_ Db]. intros x. rewrite in_app_iff, (Db x), Z. cbn [In]. tauto. }
  destruct Da as [[|Ka] Da]; [contradiction|]. destruct Db as [[|Kb] Db]; [contradiction|].
  assert (Ru : rt_union r a b = Ok (l, set_tab r t)) by (unfold rt_union; rewrite E; reflexivity).
  assert (Al2 : alike s (astep s' (CUnion a b) (RLabel l))) by (cbn [astep]; now apply alike_labels).
  assert (Ld : leads base h (set_tab r t) s).
  { refine (leads_call _ _ _ _ _ _ _ _ R Al2 I _ _ _ _); [exact (conj Ka Kb)|constructor; exact Ru|exact I|exact (limits_alike _ _ Al2 L)]. }
  assert (R1 : api_run base (h ++ [(CUnion a b, RLabel l)]) (set_tab r t) (astep s' (CUnion a b) (RLabel l))).
  { apply ar_call with r; [exact R|exact (conj Ka Kb)|constructor; exact Ru|exact I|exact (limits_alike _ _ Al2 L)]. }
  set (s2 := astep s' (CUnion a b) (RLabel l)) in *. clear Ld.
  assert (Q : quiet [(CUnion a b, RLabel l)]) by (constructor; [exact I|constructor]).
  destruct (quiet_keeps base h r s' _ _ s2 M R Q R1) as [El Kp]. exists s2. split; [|split].
  - eexists. split; [exact R1|]. split; [exact Al2|]. split; [|exact L]. rewrite El. eapply Forall2_impl'; [|exact En].
    intros [f|f|f bs] [f'|f'|x f']; cbn [entry_for]; auto. intros (-> & K & Sb). destruct (Kp x K) as [K2 S2].
    split; [reflexivity|]. split; [exact K2|]. intros y. rewrite (Sb y). apply S2.
  - intros x bs [[->|K] D].
    + split; [now left|]. destruct (api_run_inv base _ _ s2 M R1) as (g2 & A2). rewrite (lab_of_zero _ _ _ _ A2). rewrite Z in D. exact D.
    + destruct (Kp x K) as [K2 S2]. split; [now right|]. intros y. rewrite (D y). apply S2.
  - unfold s2, den, S_Api.known. cbn [astep with_lab a_lab]. rewrite N.eqb_refl. split.
    + right. unfold S_Api.known in Ka. destruct (a_lab s' a); [contradiction|discriminate].
    + intros y. rewrite !in_app_iff, (Da y), (Db y). tauto.
Qed.

Lemma up_union_code r s s' c a b l t ba bb : up base fl r s s' -> den s' a ba -> den s' b bb ->
  union_code c true (r_tab r) a b = Ok (l, t) ->
  exists s2, up base fl (set_tab r t) s s2 /\ keeps s' s2 /\ den s2 l (ba ++ bb).
Proof.
  intros U Da Db E. assert (G : (if a =? b then Ok (a, r_tab r) else dfsan_union_ne true (r_tab r) a b) = Ok (l, t)).
  { unfold union_code, dfsan_union in E. destruct c; exact E. }
  clear E. destruct (N.eqb_spec a b) as [->|Ne].
  - assert (l = b /\ t = r_tab r) as [-> ->] by (split; congruence). rewrite set_tab_same. exists s'. split; [exact U|]. split; [apply keeps_refl|].
    apply den_same with ba; [exact Da|]. destruct Da as [_ Da], Db as [_ Db]. intros x. rewrite in_app_iff, (Da x), (Db x). tauto.
  - now apply up_union_ne with a b.
Qed.

(** ** Loads *)
Lemma up_union_loop n : forall r s s' sh la acc a l t, up base fl r s s' -> den s' la acc ->
  (forall k, k < N.of_nat n -> den s' (sh (a + k)) (a_mem s (a + k))) ->
  union_loop true (r_tab r) sh la a n = Ok (l, t) ->
  exists s2, up base fl (set_tab r t) s s2 /\ keeps s' s2 /\ den s2 l (acc ++ concat (map (a_mem s) (nseq a n))).
Proof.
  induction n as [|n IH]; intros r s s' sh la acc a l t U Dl Dn E.
  - cbn [union_loop] in E. assert (l = la /\ t = r_tab r) as [-> ->] by (split; congruence). rewrite set_tab_same. exists s'.
    cbn [nseq map concat]. rewrite app_nil_r. split; [exact U|]. split; [apply keeps_refl|exact Dl].
  - cbn [union_loop] in E.
    destruct (if la =? sh a then Ok (la, r_tab r) else dfsan_union_ne true (r_tab r) la (sh a)) as [[l1 t1]| | |] eqn:E1; try discriminate.
    cbn [bind fst snd] in E.
    assert (D0 := Dn 0 ltac:(lia)). rewrite N.add_0_r in D0.
    destruct (up_union_code r s s' false la (sh a) l1 t1 acc (a_mem s a) U Dl D0 E1) as (s1 & U1 & K1 & D1).
    destruct (IH (set_tab r t1) s s1 sh l1 (acc ++ a_mem s a) (a + 1) l t U1 D1) as (s2 & U2 & K2 & D2).
    + intros k Hk. apply K1. replace (a + 1 + k) with (a + (1 + k)) by lia. apply Dn. lia.
    + exact E.
    + exists s2. split; [exact U2|]. split; [exact (keeps_trans _ _ _ K1 K2)|]. cbn [nseq map concat]. rewrite app_assoc. exact D2.
Qed.

Lemma nseq_cons a n : 0 < n -> nseq a (N.to_nat n) = a :: nseq (a + 1) (N.to_nat (n - 1)).
Proof. intros L. replace (N.to_nat n) with (S (N.to_nat (n - 1))) by lia. reflexivity. Qed.

Lemma up_union_bytes r s s' a n l t : up base fl r s s' -> 0 < n ->
  union_bytes true (r_tab r) (r_shadow r) a n = Ok (l, t) ->
  exists s2, up base fl (set_tab r t) s s2 /\ keeps s' s2 /\ den s2 l (concat (bytes_at s a n)).
Proof.
  intros U P E. unfold union_bytes in E. unfold bytes_at. rewrite (nseq_cons a n P). cbn [map concat].
  apply (up_union_loop _ r s s' (r_shadow r) (r_shadow r a)); auto.
  - exact (den_shadow r s s' a U).
  - intros k _. exact (den_shadow r s s' _ U).
Qed.

Lemma rotate_pair x y : x < 2 ^ 32 -> y < 2 ^ 32 -> rotate (x + 2 ^ 32 * y) = y + 2 ^ 32 * x.
Proof.
  intros X Y. unfold rotate. rewrite N.shiftl_mul_pow2, N.shiftr_div_pow2.
  assert (E1 : ((x + 2 ^ 32 * y) * 2 ^ 32) mod two64 = 2 ^ 32 * x).
  { change two64 with (2 ^ 32 * 2 ^ 32). replace ((x + 2 ^ 32 * y) * 2 ^ 32) with (2 ^ 32 * x + y * (2 ^ 32 * 2 ^ 32)) by lia.
    rewrite N.mod_add by (compute; discriminate). apply N.mod_small. nia. }
  assert (E2 : (x + 2 ^ 32 * y) / 2 ^ 32 = y).
  { rewrite N.mul_comm, N.div_add by (compute; discriminate). rewrite N.div_small by exact X. reflexivity. }
  rewrite E1, E2. rewrite N.add_comm, <- N.lxor_lor, <- N.add_nocarry_lxor; try reflexivity.
  all: apply N.bits_inj_0; intros n; rewrite N.land_spec; rewrite (N.mul_comm (2 ^ 32)); destruct (N.lt_ge_cases n 32).
  1,3: rewrite N.mul_pow2_bits_low by assumption; reflexivity.
  all: replace (N.testbit y n) with false; [apply andb_false_r|]; symmetry; apply N.bits_above_log2 || idtac.
  all: destruct (N.eq_dec y 0) as [->|Ny]; [now rewrite ?N.bits_0 || (cbn; lia)|]; 
       try (apply N.lt_le_trans with 32; [|assumption]; apply N.log2_lt_pow2; lia).
Qed.

Lemma wide_eq x y : x < 2 ^ 32 -> y < 2 ^ 32 -> forall x' y', x' < 2 ^ 32 -> y' < 2 ^ 32 ->
  x + 2 ^ 32 * y = x' + 2 ^ 32 * y' -> x = x' /\ y = y'.
Proof. intros. change (2 ^ 32) with 4294967296 in *. lia. Qed.

Lemma up_load r s s' avoid a n l t : up base fl r s s' -> 0 < n ->
  load_labels avoid true (r_tab r) (r_shadow r) a n = Ok (l, t) ->
  exists s2, up base fl (set_tab r t) s s2 /\ keeps s' s2 /\ den s2 l (concat (bytes_at s a n)).
Proof.
  intros U P E. unfold load_labels in E. destruct (N.eqb_spec n 1) as [->|N1].
  { assert (l = r_shadow r a /\ t = r_tab r) as [-> ->] by (split; congruence). rewrite set_tab_same. exists s'.
    split; [exact U|]. split; [apply keeps_refl|]. change (concat (bytes_at s a 1)) with (a_mem s a ++ []). rewrite app_nil_r. exact (den_shadow r s s' a U). }
  destruct (N.eqb_spec n 2) as [->|N2].
  { destruct (up_union_code r s s' avoid _ _ l t _ _ U (den_shadow r s s' a U) (den_shadow r s s' (a + 1) U) E) as (s2 & U2 & K2 & D2).
    exists s2. split; [exact U2|]. split; [exact K2|]. change (concat (bytes_at s a 2)) with (a_mem s a ++ a_mem s (a + 1) ++ []). now rewrite app_nil_r. }
  destruct (negb avoid && ((n * SHADOW_BYTES) mod 8 =? 0)) eqn:B; [|now apply up_union_bytes].
  apply andb_true_iff in B as [_ B]. apply N.eqb_eq in B. unfold load_fast in E.
  destruct (_ =? rotate _) eqn:Er; [|now apply up_union_bytes]. cbn [andb] in E.
  destruct (forallb _ _) eqn:Ef in E; [|now apply up_union_bytes].
  assert (l = wide (r_shadow r) a 0 mod two32 /\ t = r_tab r) as [-> ->] by (split; congruence). rewrite set_tab_same. exists s'.
  split; [exact U|]. split; [apply keeps_refl|]. clear E.
  assert (Sm : forall x, r_shadow r x < 2 ^ 32).
  { intros x. apply N.lt_trans with (2 ^ 31); [|reflexivity]. exact (den_small r s s' _ _ U (den_shadow r s s' x U)). }
  apply N.eqb_eq in Er. unfold wide in Er. rewrite rotate_pair in Er by apply Sm. apply wide_eq in Er as [Er _]; try apply Sm.
  rewrite N.mul_0_r, !N.add_0_r in Er.
  assert (Ew : wide (r_shadow r) a 0 mod two32 = r_shadow r a).
  { unfold wide. rewrite N.mul_0_r, N.add_0_r. change two32 with (2 ^ 32). rewrite N.mul_comm, N.mod_add by (compute; discriminate).
    apply N.mod_small. apply Sm. }
  rewrite Ew. rewrite forallb_forall in Ef.
  assert (Ev : n mod 2 = 0).
  { unfold SHADOW_BYTES in B. assert (Dv := N.div_mod n 2). assert (Lt := N.mod_lt n 2).
    destruct (N.eq_dec (n mod 2) 1) as [Q|Q]; [|lia]. exfalso. rewrite (N.div_mod n 2), Q in B by lia.
    replace ((2 * (n / 2) + 1) * 4) with (4 + (n / 2) * 8) in B by lia. rewrite N.mod_add in B by lia. discriminate. }
  assert (All : forall k, k < n -> r_shadow r (a + k) = r_shadow r a).
  { intros k Hk. assert (Dk := N.div_mod k 2 ltac:(lia)). assert (Lk := N.mod_lt k 2 ltac:(lia)).
    assert (Dn := N.div_mod n 2 ltac:(lia)). rewrite Ev in Dn.
    assert (Q : r_shadow r (a + 2 * (k / 2)) = r_shadow r a /\ r_shadow r (a + 2 * (k / 2) + 1) = r_shadow r a).
    { destruct (N.eq_dec (k / 2) 0) as [->|Nz]; [rewrite N.mul_0_r, N.add_0_r; auto|].
      specialize (Ef (k / 2)). rewrite N.eqb_eq in Ef. unfold wide in Ef. apply wide_eq in Ef; try apply Sm.
      - rewrite N.mul_0_r, N.add_0_r in Ef. destruct Ef. split; congruence.
      - apply in_nseq. lia. }
    destruct Q as [Q1 Q2]. destruct (N.eq_dec (k mod 2) 0) as [Z|Z].
    - replace k with (2 * (k / 2)) by lia. exact Q1.
    - replace k with (2 * (k / 2) + 1) by lia. rewrite N.add_assoc. exact Q2. }
  apply den_same with (a_mem s a); [exact (den_shadow r s s' a U)|].
  assert (Q : forall k, k < n -> same (a_mem s (a + k)) (a_mem s a)).
  { intros k Hk b. destruct (den_shadow r s s' (a + k) U) as [_ D1], (den_shadow r s s' a U) as [_ D2].
    rewrite (D1 b), (All k Hk), (D2 b). tauto. }
  intros b. rewrite in_concat. split.
  - intros (x & I & J). unfold bytes_at in I. apply in_map_iff in I as (y & <- & I). apply in_nseq in I.
    replace y with (a + (y - a)) in J by lia. apply (Q (y - a)); [lia|exact J].
  - intros I. exists (a_mem s a). split; [|exact I]. unfold bytes_at. apply in_map. apply in_nseq. lia.
Qed.

(** ** Sequences of sets and copies *)
Lemma up_sets l bs addrs : forall r s s', up base fl r s s' -> den s' l bs ->
  exists s2, up base fl (set_labels r l addrs) (p_sets s bs addrs) s2 /\ keeps s' s2.
Proof.
  induction addrs as [|a addrs IH]; intros r s s' U D; [exists s'; split; [exact U|apply keeps_refl]|].
  destruct (up_set r s s' a l bs U D) as (s1 & U1 & K1). destruct (IH _ _ s1 U1 (K1 _ _ D)) as (s2 & U2 & K2).
  exists s2. split; [exact U2|exact (keeps_trans _ _ _ K1 K2)].
Qed.
Lemma up_copies ps : forall r s s', up base fl r s s' ->
  exists s2, up base fl (copy_labels r ps) (p_copies s ps) s2 /\ keeps s' s2.
Proof.
  induction ps as [|[a b] ps IH]; intros r s s' U; [exists s'; split; [exact U|apply keeps_refl]|].
  destruct (up_set r s s' a _ _ U (den_shadow r s s' b U)) as (s1 & U1 & K1). destruct (IH _ _ s1 U1) as (s2 & U2 & K2).
  exists s2. split; [exact U2|exact (keeps_trans _ _ _ K1 K2)].
Qed.

Lemma den_lab r s s' d v : up base fl r s s' -> den s' (lab r d v) (pdep d s v).
Proof. intros U. destruct v; cbn [lab pdep]; [exact (den_zero _ _ _ U)| |]; exact (den_shadow _ _ _ _ U). Qed.

Lemma val_ok e o v : value e o = Ok v -> val e o = v.
Proof. unfold val. now intros ->. Qed.

Definition sized (i : sinstr) : Prop := match i with TLoad _ _ n => 0 < n | _ => True end.

Lemma up_sx d e r i r' s s' : up base fl r s s' -> sized i -> sx true d e r i = Ok r' ->
  exists s2, up base fl r' (psx d e s i) s2 /\ keeps s' s2.
Proof.
  intros U Sz E. destruct i; cbn [sx] in E; cbn [psx].
  - assert (r' = rt_set_label r (REG d dst) (lab r d v)) as -> by congruence. apply up_set; [exact U|now apply den_lab].
  - destruct (union_code checked true (r_tab r) (lab r d a) (lab r d b)) as [[l t]| | |] eqn:Eu; try discriminate. cbn [bind fst snd] in E.
    assert (r' = rt_set_label (set_tab r t) TMP l) as -> by congruence.
    destruct (up_union_code r s s' checked _ _ l t _ _ U (den_lab r s s' d a U) (den_lab r s s' d b U) Eu) as (s1 & U1 & K1 & D1).
    destruct (up_set _ _ _ TMP l _ U1 D1) as (s2 & U2 & K2). exists s2. split; [exact U2|exact (keeps_trans _ _ _ K1 K2)].
  - destruct (value e ptr) as [p| | |] eqn:Ep; try discriminate. cbn [bind] in E. rewrite (val_ok _ _ _ Ep).
    destruct (load_labels avoid true (r_tab r) (r_shadow r) p size) as [[l t]| | |] eqn:El; try discriminate. cbn [bind fst snd] in E.
    assert (r' = rt_set_label (set_tab r t) TMP l) as -> by congruence.
    destruct (up_load r s s' avoid p size l t U Sz El) as (s1 & U1 & K1 & D1).
    destruct (up_set _ _ _ TMP l _ U1 D1) as (s2 & U2 & K2). exists s2. split; [exact U2|exact (keeps_trans _ _ _ K1 K2)].
  - destruct (value e ptr) as [p| | |] eqn:Ep; try discriminate. cbn [bind] in E. rewrite (val_ok _ _ _ Ep).
    assert (r' = set_labels r (lab r d v) (if sval_eqb v SZero then nseq p (N.to_nat size) else store_addrs p size)) as -> by congruence.
    apply up_sets; [exact U|now apply den_lab].
  - destruct (value e c) as [k| | |] eqn:Ek; try discriminate. cbn [bind] in E. rewrite (val_ok _ _ _ Ek).
    assert (r' = rt_set_label r TMP (lab r d (if k =? 0 then b else a))) as -> by congruence. apply up_set; [exact U|now apply den_lab].
  - destruct (value e ptr) as [p| | |] eqn:Ep; try discriminate. cbn [bind] in E. destruct (value e n) as [k| | |] eqn:Ek; try discriminate. cbn [bind] in E.
    rewrite (val_ok _ _ _ Ep), (val_ok _ _ _ Ek).
    assert (r' = set_labels r (lab r d v) (nseq p (N.to_nat k))) as -> by congruence. apply up_sets; [exact U|now apply den_lab].
  - destruct (value e dst) as [q| | |] eqn:Eq; try discriminate. cbn [bind] in E. destruct (value e src) as [p| | |] eqn:Ep; try discriminate. cbn [bind] in E.
    destruct (value e n) as [k| | |] eqn:Ek; try discriminate. cbn [bind] in E. rewrite (val_ok _ _ _ Ep), (val_ok _ _ _ Ek), (val_ok _ _ _ Eq). cbv zeta.
    unfold copy_all in E.
    assert (r' = copy_labels (copy_labels r (map (fun i => (SCRATCH i, p + i)) (nseq 0 (N.to_nat k)))) (map (fun i => (q + i, SCRATCH i)) (nseq 0 (N.to_nat k)))) as -> by congruence.
    destruct (up_copies (map (fun i => (SCRATCH i, p + i)) (nseq 0 (N.to_nat k))) _ _ _ U) as (s1 & U1 & K1).
    destruct (up_copies (map (fun i => (q + i, SCRATCH i)) (nseq 0 (N.to_nat k))) _ _ _ U1) as (s2 & U2 & K2).
    exists s2. split; [exact U2|exact (keeps_trans _ _ _ K1 K2)].
  - assert (r' = rt_set_label r (ARG off) (lab r d v)) as -> by congruence. apply up_set; [exact U|now apply den_lab].
  - assert (r' = rt_set_label r (REG d dst) (r_shadow r (ARG off))) as -> by congruence. apply up_set; [exact U|now apply den_shadow].
  - assert (r' = rt_set_label r RET (lab r d v)) as -> by congruence. apply up_set; [exact U|now apply den_lab].
  - assert (r' = rt_set_label r (REG d dst) (r_shadow r RET)) as -> by congruence. apply up_set; [exact U|now apply den_shadow].
  - assert (r' = rt_set_label r VALUE (lab r d v)) as -> by congruence. apply up_set; [exact U|now apply den_lab].
  - assert (r' = rt_set_label r (REG d dst) (r_shadow r VALUE)) as -> by congruence. apply up_set; [exact U|now apply den_shadow].
Qed.

(** ** Processes *)
Definition alive (argv : bool) (p : proc) (s : ast) : Prop :=
  p_flag p = true /\ p_argv p = argv /\ exists r s', p_tdag p = Live r /\ up base fl r s s'.

Lemma alive_sim argv p s : alive argv p s <-> sim base argv fl p s.
Proof.
  unfold alive, sim, up. split.
  - intros (F & Ar & r & s' & Lv & h & R & Al & En & L). repeat (split; [assumption|]). exists h, r, s'. auto.
  - intros (F & Ar & L & h & r & s' & Lv & R & Al & En). repeat (split; [assumption|]). exists r, s'. split; [exact Lv|]. exists h. auto.
Qed.

Lemma code_alive argv d e c : forall p p' s, alive argv p s -> Forall sized c -> run_code d e p c = Ok p' ->
  alive argv p' (pcode d e s c).
Proof.
  induction c as [|i c IH]; intros p p' s A Sz E; cbn [run_code] in E.
  - assert (p' = p) as -> by congruence. exact A.
  - destruct A as (F & Ar & r & s' & Lv & U). unfold get_tdag in E. rewrite Lv in E. cbn [bind] in E. rewrite F in E.
    destruct (sx true d e r i) as [r1| | |] eqn:Es; try discriminate. cbn [bind] in E.
    apply Forall_cons_iff in Sz as [S1 S2]. destruct (up_sx d e r i r1 s s' U S1 Es) as (s2 & U2 & _).
    cbn [pcode fold_left]. apply (IH (set_rt p r1)); [|exact S2|exact E]. split; [exact F|]. split; [exact Ar|]. exists r1, s2. auto.
Qed.

Lemma up_phi1 d l : forall r s s', up base fl r s s' ->
  exists s2, up base fl (fold_left (fun r kv => rt_set_label r (SCRATCH (fst kv)) (lab r d (snd kv))) l r)
    (fold_left (fun s kv => p_set s (SCRATCH (fst kv)) (pdep d s (snd kv))) l s) s2 /\ keeps s' s2.
Proof.
  induction l as [|[k v] l IH]; intros r s s' U; [exists s'; split; [exact U|apply keeps_refl]|]. cbn [fold_left fst snd].
  destruct (up_set r s s' (SCRATCH k) _ _ U (den_lab r s s' d v U)) as (s1 & U1 & K1). destruct (IH _ _ s1 U1) as (s2 & U2 & K2).
  exists s2. split; [exact U2|exact (keeps_trans _ _ _ K1 K2)].
Qed.
Lemma phi_alive argv d l p p' s : alive argv p s -> phi_code d p l = Ok p' -> alive argv p' (p_phis d s l).
Proof.
  intros A E. unfold phi_code in E. destruct l as [|x l]; [assert (p' = p) as -> by congruence; exact A|].
  destruct A as (F & Ar & r & s' & Lv & U). unfold get_tdag in E. rewrite Lv in E. cbn [bind] in E. cbv zeta in E.
  remember (x :: l) as ls eqn:El. clear El. unfold p_phis. cbv zeta.
  destruct (up_phi1 d (combine (nseq 0 (length ls)) (map snd ls)) _ _ _ U) as (s1 & U1 & _).
  destruct (up_copies (combine (map (fun x => REG d (fst x)) ls) (map SCRATCH (nseq 0 (length ls)))) _ _ _ U1) as (s2 & U2 & _).
  match type of E with Ok (set_rt p ?q) = _ => assert (p' = set_rt p q) as -> by congruence end.
  split; [exact F|]. split; [exact Ar|]. eexists _, s2. split; [reflexivity|exact U2].
Qed.
End Up.
