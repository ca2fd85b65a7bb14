(** Proofs about the process-level runtime. *)
From Coq Require Import NArith ZArith List Bool Lia.
From Verif Require Import M_Base M_Memory M_Encoding M_Labels M_Bitmap M_Section M_StringTable M_Sources M_Functions M_CfLog M_OutputFile
  M_Dfsan M_PySections M_Api M_Runtime
  S_Section S_Provenance S_Labels S_Strings S_Functions S_CallStack S_OutputFile S_Bitmap S_Api S_History S_Dfsan S_Runtime
  P_Base P_Labels P_History P_Bitmap P_ApiMem P_Api P_ApiRun T_Api.
Import ListNotations.
Open Scope N_scope.

(** ** Lengths, offsets, strings *)
Lemma from_off_t_ok pos o : from_off_t pos = Ok o <-> o = offset_of pos /\ (pos <= 2 ^ 54 - 1)%Z.
Proof.
  unfold from_off_t, offset_of. change (Z.of_N max_source_offset) with (2 ^ 54 - 1)%Z.
  destruct (Z.ltb_spec pos 0), (Z.leb_spec 0 pos), (Z.ltb_spec (2 ^ 54 - 1) pos); try lia; split; intros Q;
    try (inversion Q; subst; split; [reflexivity|lia]); try (destruct Q as [-> Q]; first [reflexivity|lia]); discriminate.
Qed.

Lemma c_strlen_ok app fuel : forall p k, c_strlen fuel app p = Ok k <-> c_string app p k /\ (N.to_nat k < fuel)%nat.
Proof.
  induction fuel as [|f IH]; intros p k; cbn [c_strlen].
  - split; [discriminate|lia].
  - destruct (N.eqb_spec (app p) 0) as [E|E].
    + split.
      * intros H. inversion H; subst k. split; [|lia]. split; [now rewrite N.add_0_r|intros i Hi; lia].
      * intros [[Z A] L]. destruct (N.eq_dec k 0) as [->|K]; [reflexivity|]. exfalso. apply (A 0); [lia|]. now rewrite N.add_0_r.
    + split.
      * destruct (c_strlen f app (p + 1)) as [j| | |] eqn:C; cbn [bind]; try discriminate. intros H. assert (k = 1 + j) as -> by congruence.
        apply IH in C as [[Z A] L]. split; [|lia]. split; [replace (p + (1 + j)) with (p + 1 + j) by lia; exact Z|].
        intros i Hi. destruct (N.eq_dec i 0) as [->|K]; [now rewrite N.add_0_r|].
        replace (p + i) with (p + 1 + (i - 1)) by lia. apply A. lia.
      * intros [[Z A] L]. destruct (N.eq_dec k 0) as [->|K]; [rewrite N.add_0_r in Z; congruence|].
        assert (C : c_strlen f app (p + 1) = Ok (k - 1)).
        { apply IH. split; [|lia]. split; [replace (p + 1 + (k - 1)) with (p + k) by lia; exact Z|].
          intros i Hi. replace (p + 1 + i) with (p + (i + 1)) by lia. apply A. lia. }
        rewrite C. cbn [bind]. f_equal. lia.
Qed.

Lemma size_count_ok size n : size < two64 -> n < two64 ->
  from_returned_size_count size n =
  if two64 <=? size * n then Exit else Ok (if size * n =? 0 then None else Some (size * n)).
Proof.
  intros H1 H2. unfold from_returned_size_count, umull_overflow. destruct (N.leb_spec two64 (size * n)); [reflexivity|].
  unfold mul64. rewrite N.mod_small by assumption. now destruct (size * n =? 0).
Qed.

Lemma size_count_some size n o : from_returned_size_count size n = Ok o ->
  o = if size * n =? 0 then None else Some (size * n).
Proof.
  unfold from_returned_size_count, umull_overflow. destruct (N.leb_spec two64 (size * n)); [discriminate|].
  unfold mul64. rewrite N.mod_small by assumption. destruct (size * n =? 0); intros E; now inversion E.
Qed.

(** ** Progress *)
Lemma new_labels_total base r s g idx o n : mapped base shipped -> api_inv base r s g -> o + n <= 2 ^ 54 -> room r n ->
  exists f la r', new_source_labels r idx o n = Ok (f, la, r').
Proof.
  intros M A Ho Rm. unfold room in Rm. change (2 ^ 31 - 64) with 2147483584 in Rm. unfold new_source_labels, create_source_labels.
  change (2 ^ 54) with 18014398509481984 in Ho. rewrite mul64_small by (unfold two64; lia).
  change label_capacity with 2147483648.
  destruct (N.leb_spec (8 * len (r_tab r) + 8 * n) (8 * 2147483648)); [|lia].
  destruct (N.ltb_spec (len (r_tab r)) 2147483648); [|lia]. cbn [bind].
  destruct (bm_step_inv (base + 17197699256) 268435456 2147483648 (r_mem r) (r_mem r) (r_bm r) (g_bops g) (BRange (len (r_tab r)) n))
    as (m' & s' & E & _); [reflexivity|vm_compute; congruence|exact (mi_bm _ _ _ _ _ _ (ai_mem _ _ _ _ A))|right; cbn; lia|].
  cbn [bm_step] in E. rewrite E. cbn [bind fst snd]. eauto.
Qed.

Lemma new_labels_tab base r s g idx o n f la r' : mapped base shipped -> api_inv base r s g -> idx < len (a_regs s) -> o + n <= 2 ^ 54 ->
  new_source_labels r idx o n = Ok (f, la, r') -> f = len (r_tab r) /\ la + 1 = f + n /\ len (r_tab r') = f + n.
Proof.
  intros M A Hi Ho E. assert (W := proj1 (reachable_inv _ (ai_tr _ _ _ _ A))). assert (Z : n = 0 \/ 1 <= n) by lia. destruct Z as [->|Hn].
  { destruct (new_labels_none r idx o f la r' W E) as (-> & -> & H). lia. }
  unfold new_source_labels in E. destruct (create_source_labels (r_tab r) idx o n) as [[[f0 la0] t']| | |] eqn:C; try discriminate. cbn [bind] in E.
  destruct (bm_set_range _ _ _ _) as [b| | |]; try discriminate. cbn [bind] in E. inversion E; subst f0 la0 r'. clear E.
  pose proof (ai_lim _ _ _ _ A) as L.
  assert (Hs : idx <= 255) by lia. destruct (create_source_ok _ _ _ _ _ _ _ W Hs Hn Ho C) as (_ & Hf & Hl & Ln & _). cbn [set_bm set_tab r_tab]. lia.
Qed.

Lemma stream_total off idx n : idx <= 255 -> exists q, stream_increase off idx n = Ok q.
Proof. intros H. unfold stream_increase, stream_count. destruct (N.leb_spec 256 idx); [lia|eauto]. Qed.

Lemma read_offset_total r idx off n : idx <= 255 -> exists o r1, read_offset r idx off n = Ok (o, r1) /\ r_tab r1 = r_tab r.
Proof.
  intros H. unfold read_offset. destruct off; [eauto|]. destruct (stream_total (r_rd r) idx n H) as [q ->]. cbn [bind]. eauto.
Qed.

Lemma mapping_of base r s g fd : mapped base shipped -> api_inv base r s g -> (0 <= fd)%Z ->
  mapping_idx (r_mem r) (r_src r) fd = Ok (last_with (a_regs s) fd).
Proof. intros M A F. exact (inv_mapping_idx base r _ _ _ g fd M (ai_mem _ _ _ _ A) (ai_regs _ _ _ _ A) (ai_lim _ _ _ _ A) F). Qed.

Lemma source_mem_total base r s g fd addr off n : mapped base shipped -> api_inv base r s g -> fd_ok s fd ->
  transfer_ok s (a_rd s) fd off n -> room r n ->
  exists x r', rt_source_mem r fd addr off n = Ok (x, r') /\ ret_ok (RRange x) /\ len (r_tab r') <= len (r_tab r) + n.
Proof.
  intros M A (F & _) T Rm. unfold rt_source_mem. rewrite (mapping_of base r s g fd M A ltac:(lia)). cbn [bind].
  destruct (last_with (a_regs s) fd) as [idx|] eqn:E; [|do 2 eexists; split; [reflexivity|split; [exact I|lia]]].
  assert (Hi := last_with_bound _ _ _ E). pose proof (ai_lim _ _ _ _ A) as Lm.
  destruct (read_offset_total r idx off n ltac:(lia)) as (o & r1 & Ro & T1). rewrite Ro. cbn [bind fst snd].
  destruct (inv_read_offset _ _ _ _ _ _ _ _ _ A (T _ E) Ro) as [-> A1].
  destruct (new_labels_total base r1 _ g idx (position (a_rd s) idx off) n M A1 (T _ E)) as (f & la & r2 & N1).
  { unfold room in *. now rewrite T1. }
  assert (Tb := new_labels_tab base r1 _ g idx _ n f la r2 M A1 ltac:(exact Hi) (T _ E) N1). rewrite T1 in Tb.
  unfold create_source_taint. rewrite N1. cbn [bind]. do 2 eexists. split; [reflexivity|].
  unfold room in Rm. split; [cbn [ret_ok]; lia|]. cbn [set_shadow r_tab]. lia.
Qed.

Lemma source_range_total base r s g fd off n : mapped base shipped -> api_inv base r s g -> fd_ok s fd ->
  transfer_ok s (a_rd s) fd off n -> room r n ->
  exists x r', rt_source_range r fd off n = Ok (x, r') /\ ret_ok (RRange x) /\ len (r_tab r') <= len (r_tab r) + n.
Proof.
  intros M A (F & _) T Rm. unfold rt_source_range. rewrite (mapping_of base r s g fd M A ltac:(lia)). cbn [bind].
  destruct (last_with (a_regs s) fd) as [idx|] eqn:E; [|do 2 eexists; split; [reflexivity|split; [exact I|lia]]].
  assert (Hi := last_with_bound _ _ _ E). pose proof (ai_lim _ _ _ _ A) as Lm.
  destruct (read_offset_total r idx off n ltac:(lia)) as (o & r1 & Ro & T1). rewrite Ro. cbn [bind fst snd].
  destruct (inv_read_offset _ _ _ _ _ _ _ _ _ A (T _ E) Ro) as [-> A1].
  destruct (new_labels_total base r1 _ g idx (position (a_rd s) idx off) n M A1 (T _ E)) as (f & la & r2 & N1).
  { unfold room in *. now rewrite T1. }
  assert (Tb := new_labels_tab base r1 _ g idx _ n f la r2 M A1 ltac:(exact Hi) (T _ E) N1). rewrite T1 in Tb.
  rewrite N1. cbn [bind]. do 2 eexists. split; [reflexivity|].
  unfold room in Rm. split; [cbn [ret_ok]; lia|]. lia.
Qed.

Lemma sink_mem_total base pad r s g fd off addr n : mapped base shipped -> api_inv base r s g -> (0 <= fd)%Z ->
  exists r', rt_sink_mem pad r fd off addr n = Ok r'.
Proof.
  intros M A F. unfold rt_sink_mem. rewrite (mapping_of base r s g fd M A F). cbn [bind].
  destruct (last_with (a_regs s) fd) as [idx|] eqn:E; [|eauto].
  assert (Hi := last_with_bound _ _ _ E). pose proof (ai_lim _ _ _ _ A) as Lm.
  unfold write_offset. destruct off; cbn [bind]; [eauto|].
  destruct (stream_total (r_wr r) idx n ltac:(lia)) as [q ->]. cbn [bind]. eauto.
Qed.

Lemma sink_label_total base pad r s g fd off l n : mapped base shipped -> api_inv base r s g -> (0 <= fd)%Z ->
  exists r', rt_sink_label pad r fd off l n = Ok r'.
Proof.
  intros M A F. unfold rt_sink_label. rewrite (mapping_of base r s g fd M A F). cbn [bind].
  destruct (last_with (a_regs s) fd) as [idx|] eqn:E; [|eauto].
  assert (Hi := last_with_bound _ _ _ E). pose proof (ai_lim _ _ _ _ A) as Lm.
  unfold write_offset. destruct off; cbn [bind].
  - destruct (l =? 0); eauto.
  - destruct (stream_total (r_wr r) idx n ltac:(lia)) as [q ->]. cbn [bind]. destruct (l =? 0); eauto.
Qed.

Lemma set_rt_same p r : p_tdag p = Live r -> set_rt p r = p.
Proof. unfold set_rt. destruct p as [f a t]. cbn. now intros ->. Qed.

(** ** Pages *)
Lemma round_up_pages n : M_Dfsan.round_up n = pages n.
Proof.
  unfold M_Dfsan.round_up, pages, M_Dfsan.PAGE. change (4096 - 1) with (N.ones 12). rewrite N.ldiff_ones_r, N.shiftl_mul_pow2, N.shiftr_div_pow2. reflexivity.
Qed.
Lemma pages_le n : n <= pages n.
Proof. unfold pages. assert (H := N.div_mod' (n + 4095) 4096). assert (L : (n + 4095) mod 4096 < 4096) by (apply N.mod_lt; lia). lia. Qed.
Lemma api_limits base h r s : api_run base h r s -> within_limits s.
Proof. intros R. inversion R; subst; [|assumption]. unfold within_limits, strings_of, len. cbn. lia. Qed.
Lemma clear_run base n : forall h r s addr, api_run base h r s ->
  exists h' f, api_run base (h ++ h') (clear_bytes r addr n) (with_mem s f) /\ registered (h ++ h') = registered h.
Proof.
  induction n as [|n IH]; intros h r s addr R; cbn [clear_bytes].
  - exists [], (a_mem s). rewrite app_nil_r. split; [|reflexivity]. destruct s. exact R.
  - assert (R1 : api_run base (h ++ [(CSet addr 0, RNone)]) (rt_set_label r addr 0) (astep s (CSet addr 0) RNone)).
    { apply ar_call with r; [exact R|now left|constructor|exact I|]. exact (api_limits base h r s R). }
    destruct (IH _ _ _ (addr + 1) R1) as (h' & f & R2 & G). exists ((CSet addr 0, RNone) :: h'), f. rewrite <- app_assoc in R2, G. split; [exact R2|]. cbn [app] in G. rewrite G. unfold registered. rewrite flat_map_app. cbn. now rewrite app_nil_r.
Qed.
Lemma clear_shadow_of n : forall r addr, unlabelled r (clear_bytes r addr n) addr (N.of_nat n).
Proof.
  induction n as [|n IH]; intros r addr; cbn [clear_bytes].
  - split; [reflexivity|]. intros a H. lia.
  - destruct (IH (rt_set_label r addr 0) (addr + 1)) as [H1 H2]. rewrite Nnat.Nat2N.inj_succ. split.
    + intros a Ha. rewrite H1 by lia. cbn [rt_set_label set_shadow r_shadow]. destruct (N.eqb_spec a addr); [lia|reflexivity].
    + intros a Ha. destruct (N.eq_dec a addr) as [->|Q]; [|apply H2; lia]. rewrite H1 by lia. cbn [rt_set_label set_shadow r_shadow]. now rewrite N.eqb_refl.
Qed.
Lemma clear_table n : forall r addr, r_tab (clear_bytes r addr n) = r_tab r.
Proof. induction n as [|n IH]; intros r addr; [reflexivity|]. cbn [clear_bytes]. now rewrite IH. Qed.

(** ** Reads *)
Lemma read_call base h r s fd addr off n : mapped base shipped -> api_run base h r s -> fd_ok s fd ->
  transfer_ok s (a_rd s) fd off n -> room r n ->
  exists x r', rt_source_mem r fd addr off n = Ok (x, r') /\
    (forall i, most_recent (registered h) fd i -> tainted r r' addr n i (position (a_rd s) i off)) /\
    (untracked h fd -> r' = r).
Proof.
  intros M R F T Rm. destruct (api_run_inv base h r s M R) as (g & A).
  destruct (source_mem_total base r s g fd addr off n M A F T Rm) as (x & r' & E & Rk & _). exists x, r'. split; [exact E|].
  assert (S : api_step r (CReadMem fd addr off n) (RRange x) r') by (constructor; exact E).
  assert (C := C25_reads_attributed base h r s fd addr off n x r' M R (conj F T) S).
  destruct x as [[f la]|].
  - destruct C as (i & Mi & La & Out & In_). split.
    + intros j Mj. assert (j = i).
      { apply last_with_most_recent in Mi. apply last_with_most_recent in Mj. congruence. }
      subst j. split; [exact Out|]. intros k Hk. destruct (In_ k Hk) as (-> & D1 & D2). split.
      * assert (U : f <> 0); [|lia]. intros ->.
        destruct D1 as (m & cf & Hb & V). assert (I := reachable_inv _ (ai_tr _ _ _ _ A)).
        unfold rt_source_mem in E. rewrite (mapping_of base r s g fd M A ltac:(destruct F; lia)) in E. cbn [bind] in E.
        destruct (last_with (a_regs s) fd) as [idx|] eqn:El; [|discriminate].
        destruct (read_offset r idx off n) as [[o r1]| | |] eqn:Ro; try discriminate. cbn [bind fst snd] in E.
        destruct (inv_read_offset _ _ _ _ _ _ _ _ _ A (T _ El) Ro) as [-> A1].
        unfold create_source_taint in E. destruct (new_source_labels r1 idx _ n) as [[[f0 la0] r2]| | |] eqn:C0; try discriminate.
        cbn [bind] in E. assert (f0 = 0) by congruence. subst f0.
        destruct (new_labels_tab base r1 _ g idx _ n 0 la0 r2 M A1 ltac:(exact (last_with_bound _ _ _ El)) (T _ El) C0) as (L0 & _).
        destruct (reachable_inv _ (ai_tr _ _ _ _ A1)) as ((G0 & _) & _). destruct (r_tab r1); [discriminate|]. rewrite len_cons in L0. lia.
      * intros b. split; [apply D2|]. intros ->. exact D1.
    + intros U. exfalso. exact (U _ Mi).
  - destruct C as (U & ->). split; [|reflexivity]. intros i Mi. exfalso. exact (U _ Mi).
Qed.

Lemma range_call base h r s fd off n : mapped base shipped -> api_run base h r s -> fd_ok s fd ->
  transfer_ok s (a_rd s) fd off n -> room r n -> 1 <= n ->
  exists x r', rt_source_range r fd off n = Ok (x, r') /\ r_shadow r' = r_shadow r /\
    (forall i, most_recent (registered h) fd i -> exists f la, x = Some (f, la) /\ la + 1 = f + n /\
       forall k, k < n -> stands_for r' (f + k) (i, position (a_rd s) i off + k)) /\
    (untracked h fd -> x = None /\ r' = r).
Proof.
  intros M R F T Rm Hn. destruct (api_run_inv base h r s M R) as (g & A).
  destruct (source_range_total base r s g fd off n M A F T Rm) as (x & r' & E & Rk & _). exists x, r'. split; [exact E|].
  unfold rt_source_range in E. rewrite (mapping_of base r s g fd M A ltac:(destruct F; lia)) in E. cbn [bind] in E.
  unfold untracked. rewrite <- (run_regs _ _ _ _ R).
  destruct (last_with (a_regs s) fd) as [idx|] eqn:El.
  - destruct (read_offset r idx off n) as [[o r1]| | |] eqn:Ro; try discriminate. cbn [bind fst snd] in E.
    destruct (inv_read_offset _ _ _ _ _ _ _ _ _ A (T _ El) Ro) as [-> A1].
    assert (Sh : r_shadow r1 = r_shadow r).
    { unfold read_offset in Ro. destruct off; [inversion Ro; reflexivity|].
      destruct (stream_increase _ _ _) as [q| | |]; try discriminate. cbn [bind] in Ro. inversion Ro. reflexivity. }
    destruct (new_source_labels r1 idx _ n) as [[[f la] r2]| | |] eqn:C0; try discriminate. cbn [bind] in E.
    inversion E; subst x r2. clear E. assert (Hi := last_with_bound _ _ _ El).
    destruct (new_labels_tab base r1 _ g idx _ n f la r' M A1 ltac:(exact Hi) (T _ El) C0) as (L0 & La & Lt).
    destruct (inv_new_labels base r1 _ g idx _ n f la r' M A1 ltac:(exact Hi) (T _ El) C0 ltac:(cbn [ret_ok] in Rk; exact Rk))
      as (Sh' & _ & _ & Us & _ & g' & A').
    split; [congruence|]. split.
    + intros i Mi. apply last_with_most_recent in Mi. assert (i = idx) by congruence. subst i. exists f, la. split; [reflexivity|].
      split; [lia|]. intros k Hk. assert (U := Us (f + k) ltac:(lia) ltac:(lia)). split; [destruct U; lia|].
      intros b. rewrite <- (proj2 (ai_lab _ _ _ _ A') (f + k) b U). cbn [with_lab a_lab]. unfold add_labels.
      destruct (N.leb_spec f (f + k)); [|lia]. destruct (N.ltb_spec (f + k) (f + n)); [|lia]. cbn [andb In].
      replace (f + k - f) with k by lia. split; [intros [<-|[]]; reflexivity|]. intros ->. now left.
    + intros U. exfalso. apply (U idx). now apply last_with_most_recent.
  - inversion E; subst. split; [reflexivity|]. split; [|auto].
    intros i Mi. apply last_with_most_recent in Mi. congruence.
Qed.

(** ** Writes *)
Lemma write_call base h r s pad fd off addr n : mapped base shipped -> api_run base h r s -> (forall i, is_bytes (pad i)) -> fd_ok s fd ->
  transfer_ok s (a_wr s) fd off n -> within_limits (astep s (CWriteMem fd off addr n) RNone) ->
  exists r', rt_sink_mem pad r fd off addr n = Ok r' /\
    (forall i, most_recent (registered h) fd i -> exists old, py_sinks (content (r_mem r) (r_sink r)) = Ok old /\
       py_sinks (content (r_mem r') (r_sink r')) = Ok (old ++ logged (r_shadow r) i addr (position (a_wr s) i off) (N.to_nat n))) /\
    (untracked h fd -> r' = r).
Proof.
  intros M R P F T L. destruct (api_run_inv base h r s M R) as (g & A).
  destruct (sink_mem_total base pad r s g fd off addr n M A ltac:(destruct F; lia)) as (r' & E). exists r'. split; [exact E|].
  assert (S : api_step r (CWriteMem fd off addr n) RNone r') by (apply as_write_mem with pad; assumption).
  split.
  - intros i Mi. exact (C23_write_memory base h r s fd off addr n r' i M R (conj F T) S L Mi).
  - intros U. eapply (C23_unopened base h r s fd off (CWriteMem fd off addr n)); eauto. exact (conj F T).
Qed.

Lemma write_value_call base h r s pad fd off l n : mapped base shipped -> api_run base h r s -> (forall i, is_bytes (pad i)) -> fd_ok s fd ->
  transfer_ok s (a_wr s) fd off n -> l = 0 \/ S_Api.known s l -> within_limits (astep s (CWriteVal fd off l n) RNone) ->
  exists r', rt_sink_label pad r fd off l n = Ok r' /\
    (forall i, most_recent (registered h) fd i -> exists old, py_sinks (content (r_mem r) (r_sink r)) = Ok old /\
       py_sinks (content (r_mem r') (r_sink r')) = Ok (old ++ logged (fun _ => l) i 0 (position (a_wr s) i off) (N.to_nat n))) /\
    (untracked h fd -> r' = r).
Proof.
  intros M R P F T Kn L. destruct (api_run_inv base h r s M R) as (g & A).
  destruct (sink_label_total base pad r s g fd off l n M A ltac:(destruct F; lia)) as (r' & E). exists r'. split; [exact E|].
  assert (S : api_step r (CWriteVal fd off l n) RNone r') by (apply as_write_val with pad; assumption).
  split.
  - intros i Mi. exact (C23_write_value base h r s fd off l n r' i M R (conj F (conj T Kn)) S L Mi).
  - intros U. eapply (C23_unopened base h r s fd off (CWriteVal fd off l n)); eauto. exact (conj F (conj T Kn)).
Qed.
