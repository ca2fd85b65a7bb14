(** What the Python reader finds in the file left by a run. *)
From Coq Require Import NArith ZArith List Bool Lia Sorted.
From Verif Require Import M_Base M_Encoding M_Memory M_Labels M_Section M_StringTable M_Sources M_Functions M_CfLog M_Bitmap M_OutputFile
  M_PyNode M_PySections M_PyFile M_PyAnalysis M_Api S_Provenance S_Labels S_Section S_Strings S_Functions S_CallStack S_Bitmap S_OutputFile S_Api
  S_PyAnalysis P_Base P_Encoding P_Labels P_PyNode P_ControlFlow P_History P_Memory P_Section P_PyBase P_Strings P_Functions P_CfLog P_Bitmap P_OutputFile
  P_ApiMem P_Api T_OutputFile.
Import ListNotations.
Open Scope N_scope.

Definition tab_bytes (t : table) : list N := concat (map (le_bytes 8) t).
Lemma recs_tab t : recs_ok 8 (map (le_bytes 8) t).
Proof. apply Forall_forall. intros r H. apply in_map_iff in H as (x & <- & _). apply len_le_bytes. Qed.
Lemma len_tab_bytes t : len (tab_bytes t) = 8 * len t.
Proof. unfold tab_bytes. rewrite (len_concat 8) by apply recs_tab. unfold len. now rewrite map_length. Qed.

Lemma labels_start_eq base : base mod 4096 = 0 -> labels_start base = base + 4280.
Proof. intros B. unfold labels_start. rewrite (shipped_ranges base B). reflexivity. Qed.

Section Open.
  Context (base : N) (r : rt) (s : ast) (g : ghost).
  Hypothesis M : mapped base shipped.
  Hypothesis A : api_inv base r s g.

  Let t := r_tab r.

  Lemma tab_fits : 8 * len t <= 17179869184.
  Proof.
    destruct (reachable_inv _ (ai_tr _ _ _ _ A)) as [(_ & W & _) _]. fold t in W. change label_capacity with 2147483648 in W. lia.
  Qed.

  Lemma image_at a : a < base + 4280 \/ base + 4280 + 8 * len t <= a -> image r a = r_mem r a.
  Proof.
    intros H. unfold image. rewrite (mi_base _ _ _ _ _ _ (ai_mem _ _ _ _ A)), labels_start_eq by apply M.
    apply store_other. fold (tab_bytes (r_tab r)). rewrite len_tab_bytes. exact H.
  Qed.

  Lemma image_tab : load (image r) (base + 4280) (8 * len t) = tab_bytes t.
  Proof.
    unfold image. rewrite (mi_base _ _ _ _ _ _ (ai_mem _ _ _ _ A)), labels_start_eq by apply M.
    fold (tab_bytes (r_tab r)). fold t. rewrite <- len_tab_bytes. apply load_store.
  Qed.

  Lemma image_only : only_inside (layout base shipped) (output_init base shipped) (image r).
  Proof.
    intros a H. pose proof tab_fits. rewrite image_at.
    - now apply (mi_only _ _ _ _ _ _ (ai_mem _ _ _ _ A)).
    - rewrite (shipped_ranges base) in H by apply M. destruct (H (base + 4280) (base + 17179873464)); [cbn; tauto| |]; lia.
  Qed.

  Lemma bm_size_eq : bm_size (r_bm r) = 8 * bm_used (r_bm r) /\ bm_used (r_bm r) <= 33554432.
  Proof.
    assert (U : bm_used (r_bm r) <= bucket_count 2147483648).
    { apply (bi_fits _ _ _ _ _ _ _ (mi_bm _ _ _ _ _ _ (ai_mem _ _ _ _ A))). apply (ai_bmf _ _ _ _ A). }
    change (bucket_count 2147483648) with 33554432 in U. split; [|exact U].
    unfold bm_size, mul64, two64. rewrite N.mod_small by lia. lia.
  Qed.

  Lemma run_sizes_ok : sizes_ok shipped (rt_sizes r).
  Proof.
    destruct (mi_placed _ _ _ _ _ _ (ai_mem _ _ _ _ A)) as (P1 & P2 & P3 & P4 & P5 & P6 & P7).
    assert (Q : forall s' c, holds (r_mem r) s' c -> sect_size s' <= send s' - sbeg s').
    { intros s' c ((K1 & K2 & K3) & W & _). unfold sect_size. lia. }
    destruct (ai_mem _ _ _ _ A) as [_ _ _ I1 _ I2 _ I3 I4 I5 _ _ _].
    assert (Q1 := Q _ _ I1). assert (Q2 := Q _ _ (fi_st _ _ _ _ _ _ _ I2)). assert (Q3 := Q _ _ I3).
    assert (Q4 := Q _ _ (fi_fs _ _ _ _ _ _ _ I2)). assert (Q5 := Q _ _ I4). assert (Q6 := Q _ _ I5).
    pose proof tab_fits. destruct bm_size_eq as [B1 B2]. fold t. unfold rt_sizes, shipped.
    fold t. repeat (apply so_cons || apply so_nil); cbn [ss_tag ss_alloc]; try (intros; discriminate).
    all: try (match goal with |- ?x <= ?y => let z := eval vm_compute in y in change y with z end; lia).
    intros _. rewrite B1, N.mul_comm. apply N.mod_mul. lia.
  Qed.

  Lemma section_bytes s' c : holds (r_mem r) s' c -> base + 17179873464 <= sbeg s' \/ send s' <= base + 4280 ->
    load (image r) (sbeg s') (sect_size s') = c.
  Proof.
    intros H D. pose proof tab_fits. assert (C := holds_content _ _ _ H). unfold content in C.
    rewrite <- C. destruct H as ((K1 & K2 & K3) & W & _). unfold sect_size in *. apply load_ext.
    intros x X1 X2. apply image_at. lia.
  Qed.

  Definition found_sections : list (N * list N) :=
    [(1, src_content (g_soffs g) (a_regs s)); (2, tab_bytes t); (3, st_bytes (g_acc g)); (4, sink_content (g_recs g));
     (5, load (r_mem r) (bm_beg (r_bm r)) (8 * bm_used (r_bm r))); (6, fn_bytes (g_offs g)); (7, ev_bytes (g_evs g)); (8, cf_bytes (a_log s))].

  Lemma found : sections_found (image r) shipped (layout base shipped) (rt_sizes r) = found_sections.
  Proof.
    destruct (mi_placed _ _ _ _ _ _ (ai_mem _ _ _ _ A)) as (P1 & P2 & P3 & P4 & P5 & P6 & P7).
    destruct (ai_mem _ _ _ _ A) as [_ _ _ I1 _ I2 _ I3 I4 I5 _ _ _].
    rewrite (shipped_ranges base) by apply M. unfold shipped, rt_sizes. cbn [sections_found ss_tag].
    destruct bm_size_eq as [B1 B2]. pose proof tab_fits as TF.
    unfold found_sections.
    assert (E1 : load (image r) (base + 200) (sect_size (r_src r)) = src_content (g_soffs g) (a_regs s)).
    { rewrite <- (proj1 P1). apply section_bytes; [exact I1|lia]. }
    assert (E3 : load (image r) (base + 17179873464) (sect_size (r_st r)) = st_bytes (g_acc g)).
    { rewrite <- (proj1 P2). apply section_bytes; [apply I2|lia]. }
    assert (E4 : load (image r) (base + 17180922040) (sect_size (r_sink r)) = sink_content (g_recs g)).
    { rewrite <- (proj1 P3). apply section_bytes; [exact I3|lia]. }
    assert (E5 : load (image r) (base + 17197699256) (bm_size (r_bm r)) = load (r_mem r) (bm_beg (r_bm r)) (8 * bm_used (r_bm r))).
    { rewrite B1, (proj1 P4). apply load_ext. intros x X1 X2. apply image_at. lia. }
    assert (E6 : load (image r) (base + 17466134712) (sect_size (r_fn r)) = fn_bytes (g_offs g)).
    { rewrite <- (proj1 P5). apply section_bytes; [apply I2|lia]. }
    assert (E7 : load (image r) (base + 17466396852) (sect_size (r_ev r)) = ev_bytes (g_evs g)).
    { rewrite <- (proj1 P6). apply section_bytes; [exact I4|lia]. }
    assert (E8 : load (image r) (base + 34646266032) (sect_size (r_cf r)) = cf_bytes (a_log s)).
    { rewrite <- (proj1 P7). apply section_bytes; [exact I5|lia]. }
    rewrite E1, E3, E4, E5, E6, E7, E8. fold t. rewrite image_tab. reflexivity.
  Qed.

  Lemma shipped_ok : specs_ok shipped.
  Proof. split; [|vm_compute; reflexivity]. repeat (apply Forall_cons || apply Forall_nil); repeat split; vm_compute; congruence. Qed.

  Lemma read_sections : py_section_count (trace_file base r) = Ok 8 /\
    py_section_loop (trace_file base r) 8 8 = Ok found_sections.
  Proof.
    pose proof (C28_header_round_trip base shipped (image r) (rt_sizes r) shipped_ok M run_sizes_ok image_only) as [C L].
    unfold trace_file, rt_shutdown. rewrite (mi_base _ _ _ _ _ _ (ai_mem _ _ _ _ A)). rewrite <- found. split; [exact C|exact L].
  Qed.

  (** Names. *)
  Lemma read_name acc names offs texts : named acc names offs -> are_texts names texts -> Forall name_ok names ->
    Forall2 (fun o text => py_read_string (st_bytes acc) o = Ok text) offs texts.
  Proof.
    intros Hn. revert texts. induction Hn as [|x o names offs (a & b & -> & ->) Hn IH]; intros texts T K.
    - inversion T. constructor.
    - inversion T as [|? text ? texts' [T1 T2] T3]; subst. inversion K as [|? ? K1 K2]; subst. constructor; auto.
      apply read_string_spec; [exact T1|]. apply K1.
  Qed.

  Lemma py_map_forall2 {X Y} (f : X -> Res Y) l ys : Forall2 (fun x y => f x = Ok y) l ys -> py_map f l = Ok ys.
  Proof. induction 1 as [|x y l ys H _ IH]; [reflexivity|]. cbn [py_map]. now rewrite H, IH. Qed.

  Definition fd_of (o : N) (q : reg) : py_fdhdr := mkFd o (fd_value q) (size_value q).
  Lemma py_fdhdr_of_src o q : o < two32 -> reg_ok q -> py_fdhdr_of (src_rec (o, q)) = fd_of o q.
  Proof.
    intros O R. unfold py_fdhdr_of, src_rec, source_bytes, fd_of. cbn [fst snd].
    pose proof (slice_mid [] (le_bytes 4 o) (le_bytes 4 (int_bits (fd_value q)) ++ le_bytes 8 (size_value q)) 0 4 eq_refl) as S1.
    cbn [app] in S1.
    pose proof (slice_mid (le_bytes 4 o) (le_bytes 4 (int_bits (fd_value q))) (le_bytes 8 (size_value q)) 4 8) as S2.
    pose proof (slice_mid (le_bytes 4 o ++ le_bytes 4 (int_bits (fd_value q))) (le_bytes 8 (size_value q)) [] 8 16) as S3.
    rewrite app_nil_r, <- app_assoc in S3.
    rewrite S1 by (rewrite ?len_app, ?len_le_bytes; reflexivity).
    rewrite S2 by (rewrite ?len_app, ?len_le_bytes; reflexivity).
    rewrite S3 by (rewrite ?len_app, ?len_le_bytes; reflexivity).
    f_equal.
    - exact (le_round 4 _ O).
    - assert (E : le_val (le_bytes 4 (int_bits (fd_value q))) = int_bits (fd_value q)) by exact (le_round 4 _ (int_bits_small _)).
      rewrite E. etransitivity; [|apply int_round, fd_value_range, R]. reflexivity.
    - assert (X : size_value q < two64).
      { unfold size_value, two64. destruct (reg_size q) as [n|] eqn:Q.
        - apply (proj2 R) in Q. change (2 ^ 64) with 18446744073709551616 in Q. lia.
        - unfold invalid_size. lia. }
      exact (le_round 8 _ X).
  Qed.

  Lemma py_sources_spec offs regs : Forall (fun o => o < two32) offs -> Forall reg_ok regs -> length offs = length regs ->
    py_sources (src_content offs regs) = Ok (map (fun p => fd_of (fst p) (snd p)) (combine offs regs)).
  Proof.
    intros O R L. unfold py_sources, src_content. rewrite py_enumerate_concat by (try lia; apply recs_src). cbn [bind].
    f_equal. rewrite map_map. apply map_ext_in. intros [o q] H. assert (H1 := H). apply in_combine_l in H. apply in_combine_r in H1.
    rewrite Forall_forall in O, R. apply py_fdhdr_of_src; auto.
  Qed.

  Definition sink_of (e : sink_entry) : py_sink := let '(_, o, l, i) := e in mkSink (Z.of_N o) l i.
  Definition entry_ok (e : sink_entry) : Prop := let '(_, o, l, i) := e in o < 2 ^ 54 /\ l < two32 /\ i < two8.
  Lemma py_sinks_spec recs : Forall entry_ok recs -> py_sinks (sink_content recs) = Ok (map sink_of recs).
  Proof.
    intros K. unfold py_sinks, sink_content. rewrite py_enumerate_concat by (try lia; apply recs_sink). cbn [bind].
    f_equal. rewrite map_map. apply map_ext_in. intros [[[pad o] l] i] H. rewrite Forall_forall in K. apply K in H.
    destruct H as (H1 & H2 & H3). change (2 ^ 54) with 18014398509481984 in H1.
    unfold py_sink_of, sink_rec, sink_bytes, sink_of.
    set (rest := firstn 3 (pad ++ [0; 0; 0])).
    pose proof (slice_mid [] (le_bytes 8 o) (le_bytes 4 l ++ le_bytes 1 i ++ rest) 0 8 eq_refl) as S1. cbn [app] in S1.
    pose proof (slice_mid (le_bytes 8 o) (le_bytes 4 l) (le_bytes 1 i ++ rest) 8 12) as S2.
    pose proof (slice_mid (le_bytes 8 o ++ le_bytes 4 l) (le_bytes 1 i) rest 12 13) as S3.
    rewrite <- app_assoc in S3.
    rewrite S1 by (rewrite ?len_app, ?len_le_bytes; reflexivity).
    rewrite S2 by (rewrite ?len_app, ?len_le_bytes; reflexivity).
    rewrite S3 by (rewrite ?len_app, ?len_le_bytes; reflexivity).
    f_equal.
    - assert (E : le_val (le_bytes 8 o) = o).
      { assert (X : o < two64) by (unfold two64; lia). exact (le_round 8 _ X). }
      rewrite E. unfold py_signed. change (2 ^ (64 - 1)) with 9223372036854775808.
      destruct (N.ltb_spec o 9223372036854775808); [reflexivity|lia].
    - exact (le_round 4 _ H2).
    - exact (le_round 1 _ H3).
  Qed.

  Lemma read_raw_spec l w : get t l = Some w -> w < two64 -> py_read_raw (tab_bytes t) l = Ok w.
  Proof.
    intros G W. apply get_split in G as (a & b & E & L). unfold py_read_raw. rewrite E.
    unfold tab_bytes. rewrite map_app, concat_app. cbn [map concat].
    apply py_uint_mid; [|exact W]. fold (tab_bytes a). rewrite len_tab_bytes. lia.
  Qed.

  (** ** The opened file *)
  Record opened (d : tdfile) (paths fnames : list (list N)) (bits : list N) : Prop := {
    op_dec : forall l tn, view t l = Some tn -> td_decode_node d l = Ok (node_of tn);
    op_out : forall l, len t <= l -> td_decode_node d l = Exit;
    op_count : td_label_count d = Ok (len t);
    op_sinks : td_sinks d = Ok (map sink_of (g_recs g));
    op_labels : td_input_labels d = Ok bits;
    op_sorted : StronglySorted N.lt bits;
    op_bits : forall l, In l bits <-> exists cf i o, view t l = Some (TSource cf i o);
    op_fds : forall i q text, get (a_regs s) i = Some q -> get paths i = Some text ->
      exists h, td_fd_header d i = Ok (py_path_of text, h) /\ fd_fd h = recorded_fd q /\ fd_size h = recorded_size q;
    op_nfds : length (td_fd_headers d) = length (a_regs s);
    op_fns : map fst (td_fn_headers d) = fnames;
    op_events : td_events d = Ok (map (fun e => (kind_code (fst e), snd e)) (a_events s));
    op_log : py_by_type (td_sections d) 8 = Ok (cf_bytes (a_log s));
    op_strings : py_by_type (td_sections d) 3 = Ok (st_bytes (g_acc g))
  }.

  Lemma Forall2_get {X Y} (R : X -> Y -> Prop) l m i x y : Forall2 R l m -> get l i = Some x -> get m i = Some y -> R x y.
  Proof.
    unfold get. generalize (N.to_nat i). intros n H. revert n. induction H as [|a b l m H F IH]; intros [|n]; cbn; try discriminate; auto.
    - intros X1 X2. inversion X1; inversion X2; subst. exact H.
    - intros X1 X2. eapply IH; eauto.
  Qed.
  Lemma map_get {X Y} (f : X -> Y) l i : get (map f l) i = option_map f (get l i).
  Proof. unfold get. apply nth_error_map. Qed.

  Lemma src_offs_small : Forall (fun o => o < two32) (g_soffs g).
  Proof.
    destruct (ai_mem _ _ _ _ A) as [_ _ _ _ I1 I2 _ _ _ _ _ _ _].
    eapply named_small; [apply I2|apply I2|exact I1].
  Qed.

  Lemma open_spec paths fnames : are_texts (map reg_name (a_regs s)) paths -> are_texts (a_names s) fnames ->
    exists d bits, py_open (trace_file base r) = Ok d /\ opened d paths fnames bits.
  Proof.
    intros T1 T2. destruct (ai_mem _ _ _ _ A) as [_ _ _ _ I1 I2 _ _ _ _ Ibm _ _].
    assert (Fo := src_offs_small).
    assert (Lo : length (g_soffs g) = length (a_regs s)).
    { assert (X := Forall2_len _ _ _ I1). unfold len in X. rewrite map_length in X. lia. }
    assert (R1 := read_name _ _ _ _ I1 T1 (proj1 (ai_nam _ _ _ _ A))).
    assert (R2 := read_name _ _ _ _ (fi_named _ _ _ _ _ _ _ I2) T2 (proj2 (ai_nam _ _ _ _ A))).
    set (fds := combine (map py_path_of paths) (map (fun p => fd_of (fst p) (snd p)) (combine (g_soffs g) (a_regs s)))).
    set (fns := combine fnames (g_offs g)).
    set (d := mkTd found_sections fds fns).
    assert (Lp : length paths = length (a_regs s)).
    { clear - T1. unfold are_texts in T1. assert (X := Forall2_len _ _ _ T1). unfold len in X. rewrite map_length in X. lia. }
    assert (Eop : py_open (trace_file base r) = Ok d).
    { unfold py_open. change (f_len (trace_file base r) =? 0) with false. cbv iota.
      destruct read_sections as [-> RL]. cbn [bind]. change (N.to_nat 8) with 8%nat. rewrite RL. cbn [bind].
      assert (E1 : py_read_fd_headers found_sections = Ok fds).
      { unfold py_read_fd_headers.
        change (py_by_type found_sections 1) with (Ok (src_content (g_soffs g) (a_regs s))).
        change (py_by_type found_sections 3) with (Ok (st_bytes (g_acc g))). cbn [bind].
        rewrite py_sources_spec by (auto; apply A). cbn [bind]. apply py_map_forall2. unfold fds.
        clear - R1 Lo. revert R1 Lo. generalize (g_soffs g) (a_regs s). intros offs regs R1. revert regs.
        induction R1 as [|o text offs paths H R1 IH]; intros regs L; destruct regs as [|q regs]; try discriminate L; [constructor|].
        cbn [map combine]. constructor; [|apply IH; cbn in L; lia]. cbn [fst snd fd_of fd_name_offset]. now rewrite H. }
      rewrite E1. cbn [bind].
      assert (E2 : py_read_fn_headers found_sections = Ok fns).
      { unfold py_read_fn_headers.
        change (py_by_type found_sections 6) with (Ok (fn_bytes (g_offs g))).
        change (py_by_type found_sections 3) with (Ok (st_bytes (g_acc g))). cbn [bind].
        rewrite py_functions_spec by (eapply named_small; apply I2). cbn [bind]. apply py_map_forall2. unfold fns.
        clear - R2. induction R2 as [|o text offs texts H R2 IH]; [constructor|]. cbn [combine]. constructor; [now rewrite H|exact IH]. }
      rewrite E2. reflexivity. }
    assert (I := reachable_inv _ (ai_tr _ _ _ _ A)). assert (W := proj1 I). fold t in I, W.
    exists d, (filter (mbit (r_mem r) (r_bm r)) (nseq 0 (N.to_nat (64 * bm_used (r_bm r))))).
    split; [exact Eop|]. constructor.
    - intros l tn V. assert (U := V). apply view_in_use in U; [|exact W]. destruct (wf_view t l W U) as (tn' & G & V' & _ & Vv).
      assert (tn' = tn) by congruence. subst tn'. unfold td_decode_node.
      destruct (N.eqb_spec l 0) as [->|Ne]; [destruct U; lia|].
      change (py_by_type (td_sections d) 2) with (Ok (tab_bytes t)). cbn [bind].
      rewrite (read_raw_spec l _ G) by now apply encode_bound. cbn [bind]. f_equal. apply py_decode_agrees; [exact Ne|]. now apply decode_encode.
    - intros l Hl. assert (L1 : 1 <= len t) by (destruct W as (W0 & _); unfold get in W0; destruct t; [discriminate W0|rewrite len_cons; lia]).
      unfold td_decode_node. destruct (N.eqb_spec l 0) as [->|Ne]; [lia|].
      change (py_by_type (td_sections d) 2) with (Ok (tab_bytes t)). cbn [bind]. unfold py_read_raw, py_uint. rewrite len_tab_bytes.
      destruct (N.ltb_spec (8 * len t) (l * 8 + N.of_nat 8)); [reflexivity|]. change (N.of_nat 8) with 8 in *. lia.
    - unfold td_label_count. change (py_by_type (td_sections d) 2) with (Ok (tab_bytes t)). cbn [bind].
      unfold py_label_count. rewrite len_tab_bytes. f_equal. rewrite N.mul_comm. apply N.div_mul. lia.
    - unfold td_sinks. change (py_by_type (td_sections d) 4) with (Ok (sink_content (g_recs g))). cbn [bind]. apply py_sinks_spec.
      assert (O := ai_out _ _ _ _ A). pose proof (ai_lim _ _ _ _ A) as Lm.
      assert (Cp : len t <= 2147483648) by apply W. fold t in O. clear - O Lm Cp.
      induction O as [|[[[pad o] l] i] [[i' o'] bs] l1 l2 H O IH]; constructor; auto.
      destruct H as (-> & -> & [_ U] & _ & H1 & H2). unfold entry_ok, two8, two32. lia.
    - unfold td_input_labels. change (py_by_type (td_sections d) 5) with (Ok (load (r_mem r) (bm_beg (r_bm r)) (8 * bm_used (r_bm r)))).
      cbn [bind]. apply py_set_bits_spec.
    - apply filter_sorted, nseq_sorted.
    - intros l. rewrite filter_In, in_nseq. unfold t. rewrite <- (ai_bm _ _ _ _ A). destruct Ibm as [Hf Hb Hbits Hu Hsm Hft Hfr].
      destruct bm_size_eq as [_ B2]. split.
      + intros [Hl Hm]. apply Hbits in Hm; [exact Hm|].
        assert (l / 64 < bm_used (r_bm r)) by (apply N.div_lt_upper_bound; lia). lia.
      + intros H. assert (U := Hu _ H). pose proof (N.div_mod l 64 ltac:(lia)). pose proof (N.mod_lt l 64 ltac:(lia)).
        split; [lia|]. apply Hbits; [lia|exact H].
    - intros i q text G1 G2.
      assert (Go : exists o, get (g_soffs g) i = Some o).
      { apply get_lt. unfold len. rewrite Lo. apply get_some in G1. exact G1. }
      destruct Go as (o & Go). exists (fd_of o q). unfold td_fd_header. cbn [d td_fd_headers]. unfold fds.
      rewrite (get_combine _ _ i (py_path_of text) (fd_of o q)); [auto| |].
      + rewrite map_get, G2. reflexivity.
      + rewrite map_get, (get_combine _ _ i o q Go G1). reflexivity.
    - cbn [d td_fd_headers]. unfold fds. rewrite combine_length, !map_length, combine_length. lia.
    - cbn [d td_fn_headers]. unfold fns. clear - R2. induction R2 as [|o text offs texts H R2 IH]; [reflexivity|].
      cbn [combine map fst]. now rewrite IH.
    - unfold td_events. change (py_by_type (td_sections d) 7) with (Ok (ev_bytes (g_evs g))). cbn [bind].
      rewrite py_events_spec by exact (ai_evb _ _ _ _ A). f_equal. rewrite <- (ai_ev _ _ _ _ A), map_map. reflexivity.
    - reflexivity.
    - reflexivity.
  Qed.
End Open.
