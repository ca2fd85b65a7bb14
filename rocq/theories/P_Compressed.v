(** Compressing the file of a run. *)
From Coq Require Import NArith ZArith List Bool Lia.
From Verif Require Import M_Base M_Encoding M_Memory M_Labels M_Section M_StringTable M_Sources M_Functions M_CfLog M_Bitmap M_OutputFile
  M_PyNode M_PySections M_PyFile M_PyAnalysis M_PyCompress M_Api S_Provenance S_Labels S_Section S_Strings S_Functions S_CallStack S_Bitmap S_OutputFile S_Api
  S_PyAnalysis S_Compress P_Base P_Memory P_Section P_Strings P_Functions P_Bitmap P_OutputFile P_ApiMem P_Api P_ApiFile P_ApiRun P_PyCompress T_OutputFile.
Import ListNotations.
Open Scope N_scope.

Definition total (l : list N) : N := fold_right N.add 0 l.

Ltac Zify.zify_post_hook ::= Z.div_mod_to_equations.
Lemma spaced_eight k1 k2 z3 k4 k5 k6 k7 z8 o1 o2 o3 o4 o5 o6 o7 o8 : z3 mod 8 = 0 \/ z3 mod 8 = 6 ->
  exists stop, spaced 200 [mkSmeta 1 8 o1 (16 * k1); mkSmeta 2 8 o2 (8 * k2); mkSmeta 3 2 o3 z3; mkSmeta 4 8 o4 (16 * k4);
    mkSmeta 5 8 o5 (8 * k5); mkSmeta 6 4 o6 (4 * k6); mkSmeta 7 2 o7 (4 * k7); mkSmeta 8 1 o8 z8] stop /\
  stop <= 202 + total [16 * k1; 8 * k2; z3; 16 * k4; 8 * k5; 4 * k6; 4 * k7; z8].
Proof.
  intros H. unfold total. cbn [fold_right].
  assert (T : forall a e, a mod 8 = 0 -> a <= e -> exists stop, spaced a [mkSmeta 5 8 o5 (8 * k5); mkSmeta 6 4 o6 (4 * k6);
    mkSmeta 7 2 o7 (4 * k7); mkSmeta 8 1 o8 z8] stop /\ stop <= e + (8 * k5 + (4 * k6 + (4 * k7 + z8)))).
  { intros a e Ha He. eexists. split.
    - apply spaced_next; cbn [sm_align sm_size]; [lia|lia|]. apply spaced_next; cbn [sm_align sm_size]; [lia|lia|].
      apply spaced_next; cbn [sm_align sm_size]; [lia|lia|]. apply spaced_next; cbn [sm_align sm_size]; [lia|apply N.mod_1_r|]. apply spaced_nil.
    - lia. }
  destruct H as [H|H].
  - destruct (T (200 + 16 * k1 + 8 * k2 + z3 + 16 * k4) (200 + 16 * k1 + 8 * k2 + z3 + 16 * k4)) as (stop & Sp & L); [lia|lia|].
    exists stop. split; [|lia]. do 4 (apply spaced_next; cbn [sm_align sm_size]; [lia|lia|]). exact Sp.
  - destruct (T (200 + 16 * k1 + 8 * k2 + z3 + (8 - (200 + 16 * k1 + 8 * k2 + z3) mod 8) + 16 * k4) (200 + 16 * k1 + 8 * k2 + z3 + 2 + 16 * k4)) as (stop & Sp & L); [lia|lia|].
    exists stop. split; [|lia]. do 3 (apply spaced_next; cbn [sm_align sm_size]; [lia|lia|]).
    apply spaced_gap; cbn [sm_align sm_size]; [lia|left; lia|]. exact Sp.
Qed.
Ltac Zify.zify_post_hook ::= idtac.

Lemma open_sections f d n secs : py_open f = Ok d -> py_section_count f = Ok n -> py_section_loop f 8 (N.to_nat n) = Ok secs ->
  td_sections d = secs.
Proof.
  intros O E1 E2. unfold py_open in O. destruct (f_len f =? 0); try discriminate. rewrite E1 in O. cbn [bind] in O. rewrite E2 in O. cbn [bind] in O.
  destruct (py_read_fd_headers _) as [x| | |]; try discriminate. cbn [bind] in O. destruct (py_read_fn_headers _) as [y| | |]; try discriminate.
  cbn [bind] in O. now injection O as <-.
Qed.

Section Run.
  Context (base : N) (r : rt) (s : ast) (g : ghost).
  Hypothesis M : mapped base shipped.
  Hypothesis A : api_inv base r s g.

  Lemma run_header : header_ok (rt_shutdown r) base shipped (layout base shipped) (rt_sizes r).
  Proof.
    assert (Sz := run_sizes_ok base r s g A). unfold rt_shutdown. rewrite (mi_base _ _ _ _ _ _ (ai_mem _ _ _ _ A)).
    assert (H := init_header base shipped shipped_ok M).
    apply (header_ok_ext _ (image r)) in H; [|apply inside_header; [|now apply (image_only base r s g)]].
    2:{ destruct shipped_ok as [F _]. eapply Forall_impl; [|exact F]. now intros x (_ & X & _). }
    apply (close_header _ _ _ (rt_sizes r)) in H; [exact H|vm_compute; lia|].
    clear H. unfold shipped in Sz. inversion Sz; subst. repeat match goal with X : sizes_ok (_ :: _) _ |- _ => inversion X; subst; clear X end.
    repeat (apply Forall_cons || apply Forall_nil); cbn [ss_alloc] in *;
      (eapply N.le_lt_trans; [eassumption|vm_compute; reflexivity]).
  Qed.

  Definition run_metas : list py_smeta :=
    [mkSmeta 1 8 200 (sect_size (r_src r)); mkSmeta 2 8 4280 (8 * len (r_tab r)); mkSmeta 3 2 17179873464 (sect_size (r_st r));
     mkSmeta 4 8 17180922040 (sect_size (r_sink r)); mkSmeta 5 8 17197699256 (bm_size (r_bm r)); mkSmeta 6 4 17466134712 (sect_size (r_fn r));
     mkSmeta 7 2 17466396852 (sect_size (r_ev r)); mkSmeta 8 1 34646266032 (sect_size (r_cf r))].

  Lemma run_headers : section_headers (trace_file base r) run_metas.
  Proof.
    exists 8. split; [apply (read_sections base r s g M A)|]. split; [reflexivity|]. split; [vm_compute; discriminate|].
    destruct run_header as [_ H]. intros i h G. unfold trace_file, file_of. cbn [f_bytes].
    rewrite load_shift, py_smeta_load. rewrite (shipped_ranges base) in H by apply M.
    assert (L := get_some _ _ _ G). change (len run_metas) with 8 in L.
    assert (Q : forall sp b e n, get shipped i = Some sp ->
       get [(base + 200, base + 4280); (base + 4280, base + 17179873464); (base + 17179873464, base + 17180922040);
            (base + 17180922040, base + 17197699256); (base + 17197699256, base + 17466134712);
            (base + 17466134712, base + 17466396852); (base + 17466396852, base + 34646266032); (base + 34646266032, base + 35720007856)] i = Some (base + b, e) ->
       get (rt_sizes r) i = Some n -> h = mkSmeta (ss_tag sp) (ss_align sp) b n ->
       h = mkSmeta (load_int (rt_shutdown r) (base + (8 + 24 * i)) 4) (load_int (rt_shutdown r) (base + (8 + 24 * i) + 4) 4)
             (load_int (rt_shutdown r) (base + (8 + 24 * i) + 8) 8) (load_int (rt_shutdown r) (base + (8 + 24 * i) + 16) 8)).
    { intros sp b e n G1 G2 G3 ->. destruct (H i sp (base + b) e n G1 G2 G3) as (F1 & F2 & F3 & F4).
      assert (E : smeta_addr base i = base + (8 + 24 * i)) by (unfold smeta_addr, meta_size, smeta_size; lia).
      rewrite E in *. rewrite F1, F2, F3, F4. f_equal. lia. }
    assert (C : i = 0 \/ i = 1 \/ i = 2 \/ i = 3 \/ i = 4 \/ i = 5 \/ i = 6 \/ i = 7) by lia.
    destruct C as [->|[->|[->|[->|[->|[->|[->| ->]]]]]]]; eapply Q; try reflexivity; cbn in G; injection G as <-; reflexivity.
  Qed.

  Lemma run_bytes : forall a, f_bytes (trace_file base r) a < 256.
  Proof.
    intros a. unfold trace_file, file_of. cbn [f_bytes]. unfold rt_shutdown, output_close.
    assert (Am : all_bytes (image r)).
    { unfold image. apply all_bytes_store; [apply (mi_bm _ _ _ _ _ _ (ai_mem _ _ _ _ A))|].
      induction (r_tab r) as [|x l IH]; [constructor|]. cbn [map concat]. apply Forall_app. split; [apply le_bytes_small|exact IH]. }
    assert (W : forall sizes i m, all_bytes m -> all_bytes (write_sizes m base i sizes)).
    { induction sizes as [|n sizes IH]; intros i m Hm; [exact Hm|]. cbn [write_sizes]. apply IH. now apply all_bytes_store_int. }
    rewrite (mi_base _ _ _ _ _ _ (ai_mem _ _ _ _ A)). apply W. exact Am.
  Qed.

  Lemma holds_size m q c : holds m q c -> sect_size q = len c.
  Proof. intros H. rewrite <- (holds_content _ _ _ H). unfold content. now rewrite len_load. Qed.

  Lemma run_spaced : len (st_bytes (g_acc g)) mod 8 = 0 \/ len (st_bytes (g_acc g)) mod 8 = 6 ->
    exists stop, spaced 200 run_metas stop /\ stop <= 202 + total (map sm_size run_metas).
  Proof.
    intros N8. destruct (ai_mem _ _ _ _ A) as [_ _ _ I1 I1' I2 _ I3 I4 I5 I6 _ _].
    assert (Q1 := holds_size _ _ _ I1). assert (Q2 := holds_size _ _ _ (fi_st _ _ _ _ _ _ _ I2)). assert (Q3 := holds_size _ _ _ I3).
    assert (Q4 := holds_size _ _ _ (fi_fs _ _ _ _ _ _ _ I2)). assert (Q5 := holds_size _ _ _ I4).
    unfold src_content in Q1. rewrite (len_concat 16) in Q1 by apply recs_src.
    unfold sink_content in Q3. rewrite (len_concat 16) in Q3 by apply recs_sink.
    rewrite len_fn_bytes in Q4. rewrite len_ev_bytes in Q5. rewrite <- Q2 in N8.
    destruct (bm_size_eq base r s g A) as [B1 _].
    unfold run_metas. cbn [map sm_size total fold_right].
    generalize dependent (sect_size (r_src r)). intros z1 ->. generalize dependent (sect_size (r_st r)). intros z3 N8 _.
    generalize dependent (sect_size (r_sink r)). intros z4 ->. generalize dependent (sect_size (r_fn r)). intros z6 ->.
    generalize dependent (sect_size (r_ev r)). intros z7 ->. rewrite B1.
    apply spaced_eight. exact N8.
  Qed.

  Lemma run_bounds : sect_size (r_src r) <= 4080 /\ 8 * len (r_tab r) <= 17179869184 /\ sect_size (r_st r) <= 1048576 /\
    sect_size (r_sink r) <= 16777216 /\ bm_size (r_bm r) <= 268435456 /\ sect_size (r_fn r) <= 262140 /\
    sect_size (r_ev r) <= 17179869180 /\ sect_size (r_cf r) <= 1073741824.
  Proof.
    assert (Sz := run_sizes_ok base r s g A). unfold shipped, rt_sizes in Sz.
    repeat match goal with X : sizes_ok (_ :: _) _ |- _ => inversion X; subst; clear X end. cbn [ss_alloc] in *.
    do 7 (apply conj; [eapply N.le_trans; [eassumption|apply N.leb_le; vm_compute; reflexivity]|]).
    eapply N.le_trans; [eassumption|apply N.leb_le; vm_compute; reflexivity].
  Qed.

  Lemma run_inside : sound_file (trace_file base r) run_metas.
  Proof.
    split; [exact run_bytes|]. destruct run_bounds as (B1 & B2 & B3 & B4 & B5 & B6 & B7 & B8).
    assert (Fl : f_len (trace_file base r) = 35720007889) by (vm_compute; reflexivity). rewrite Fl.
    intros h I. unfold run_metas in I. cbn [In] in I.
    repeat match goal with X : _ \/ _ |- _ => destruct X as [X|X] end; try contradiction; subst h; cbn [sm_offset sm_size]; lia.
  Qed.

  Lemma opened_sections d : py_open (trace_file base r) = Ok d -> td_sections d = found_sections r s g.
  Proof.
    intros O. destruct (read_sections base r s g M A) as [E1 E2]. exact (open_sections _ _ _ _ O E1 E2).
  Qed.
  Lemma found_names : py_by_type (found_sections r s g) 3 = Ok (st_bytes (g_acc g)).
  Proof. reflexivity. Qed.
  Lemma run_at : 8 + 24 * len run_metas = 200.
  Proof. reflexivity. Qed.

  Lemma run_compressed copied d names : py_open (trace_file base r) = Ok d -> py_by_type (td_sections d) 3 = Ok names ->
    len names mod 8 = 0 \/ len names mod 8 = 6 -> (forall tag bytes, In (tag, bytes) (td_sections d) -> copied (len bytes) = len bytes) ->
    exists c, compress copied (trace_file base r) = Ok c /\ py_open c = Ok d /\
      f_len c <= 202 + total (map (fun q => len (snd q)) (td_sections d)).
  Proof.
    intros O Bt N8 Cp.
    assert (Sd := opened_sections d O).
    rewrite Sd in *. assert (En : names = st_bytes (g_acc g)) by (rewrite found_names in Bt; now injection Bt as <-). subst names.
    destruct (run_spaced N8) as (stop & Sp & L).
    assert (Sz : map sm_size run_metas = map (fun q => len (snd q)) (found_sections r s g)).
    { destruct (ai_mem _ _ _ _ A) as [_ _ _ I1 I1' I2 _ I3 I4 I5 I6 _ _]. destruct (bm_size_eq base r s g A) as [B1 _].
      unfold run_metas, found_sections. cbn [map sm_size snd]. rewrite len_tab_bytes, len_load, B1.
      rewrite (holds_size _ _ _ I1), (holds_size _ _ _ (fi_st _ _ _ _ _ _ _ I2)), (holds_size _ _ _ I3),
        (holds_size _ _ _ (fi_fs _ _ _ _ _ _ _ I2)), (holds_size _ _ _ I4), (holds_size _ _ _ I5). reflexivity. }
    rewrite Sz in L. assert (Bd : total (map sm_size run_metas) <= 8 * 17179869184).
    { destruct run_bounds as (B1 & B2 & B3 & B4 & B5 & B6 & B7 & B8).
      unfold run_metas, total. cbn [map fold_right sm_size]. lia. }
    rewrite Sz in Bd.
    destruct (compress_keeps copied (trace_file base r) run_metas stop) as (c & C1 & C2 & C3 & _).
    - intros h I. assert (J : In (sm_size h) (map (fun q => len (snd q)) (found_sections r s g))) by (rewrite <- Sz; now apply in_map).
      apply in_map_iff in J as ([tag bytes] & J1 & J2). cbn [snd] in J1. rewrite <- J1. exact (Cp _ _ J2).
    - exact run_headers.
    - exact run_inside.
    - rewrite run_at. exact Sp.
    - apply N.le_lt_trans with (202 + 8 * 17179869184); [lia|reflexivity].
    - exists c. split; [exact C1|]. split; [now rewrite C2|]. lia.
  Qed.
End Run.
