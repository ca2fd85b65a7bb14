(** C27, C28, C29: layout, header and crash behaviour of the output file. *)
From Coq Require Import NArith List Bool Lia.
From Verif Require Import M_Base M_Memory M_Section M_StringTable M_Sources M_Functions M_CfLog M_Bitmap M_Labels
  M_OutputFile M_PySections M_PyFile S_OutputFile P_Base P_Memory P_OutputFile.
Import ListNotations.
Open Scope N_scope.

(** C27: for every list of section types, the regions handed out have the requested sizes
    and lie, in order and without overlap, between the header and the end of the file. *)
Theorem C27_disjoint_regions : forall base specs, Forall (fun s => 1 <= ss_align s) specs ->
  length (layout base specs) = length specs /\
  (forall i s b e, get specs i = Some s -> get (layout base specs) i = Some (b, e) ->
     e = b + ss_alloc s /\ base + (8 + 24 * len specs) <= b /\ e <= base + required_allocation_size specs) /\
  (forall i j b e b' e', i < j -> get (layout base specs) i = Some (b, e) ->
     get (layout base specs) j = Some (b', e') -> e <= b').
Proof.
  intros base specs F. destruct (allocate_all_spec specs F (base + header_size specs)) as (A & B & C).
  split; [exact A|]. split; [|exact C]. intros i s b e Hs Hr. destruct (B i s b e Hs Hr) as (B1 & B2 & B3).
  unfold required_allocation_size. unfold header_size, meta_size, smeta_size in *. lia.
Qed.

(** ... and in the shipped file every section starts at a multiple of its alignment, so
    that no section constructor rejects its region. *)
Theorem C27_shipped_aligned : forall base, base mod 4096 = 0 ->
  (forall i s b e, get shipped i = Some s -> get (layout base shipped) i = Some (b, e) -> b mod ss_align s = 0) /\
  exists b1 e1 b2 e2 b3 e3 b4 e4 b5 e5 b6 e6 b7 e7 b8 e8,
    layout base shipped = [(b1, e1); (b2, e2); (b3, e3); (b4, e4); (b5, e5); (b6, e6); (b7, e7); (b8, e8)] /\
    src_new b1 e1 = Ok (sect_new b1 e1) /\
    fixed_new 8 8 b2 e2 = Ok (sect_new b2 e2) /\
    st_new b3 e3 = Ok (sect_new b3 e3) /\
    fixed_new sink_align_of sink_entry_size b4 e4 = Ok (sect_new b4 e4) /\
    (exists bm, bm_new index_capacity b5 e5 = Ok bm) /\
    fixed_new fn_align_of fn_entry_size b6 e6 = Ok (sect_new b6 e6) /\
    fixed_new ev_align_of ev_entry_size b7 e7 = Ok (sect_new b7 e7).
Proof.
  intros base B. rewrite (shipped_layout base B).
  assert (D : forall o al, 4096 mod al = 0 -> al <> 0 -> (base + o) mod al = o mod al).
  { intros o al H1 H2. apply N.mod_divide in H1 as [c Hc]; [|exact H2]. apply N.mod_divide in B as [q Hq]; [|lia].
    rewrite Hq, Hc. replace (q * (c * al) + o) with (o + (q * c) * al) by lia. now apply N.mod_add. }
  assert (S8 : layout 0 shipped =
    [(200, 4280); (4280, 17179873464); (17179873464, 17180922040); (17180922040, 17197699256);
     (17197699256, 17466134712); (17466134712, 17466396852); (17466396852, 34646266032); (34646266032, 35720007856)])
    by (vm_compute; reflexivity).
  split.
  - intros i s b e Hs Hr. rewrite get_map in Hr. destruct (get (layout 0 shipped) i) as [[b0 e0]|] eqn:G; [|discriminate].
    cbn [option_map fst snd] in Hr. inversion Hr; subst b e; clear Hr.
    assert (Al : Forall (fun p => ss_align (fst p) <> 0 /\ 4096 mod ss_align (fst p) = 0 /\ fst (snd p) mod ss_align (fst p) = 0)
                   (combine shipped (layout 0 shipped))).
    { rewrite S8. repeat (apply Forall_cons || apply Forall_nil); repeat split; vm_compute; congruence. }
    rewrite Forall_forall in Al. specialize (Al (s, (b0, e0))). cbn [fst snd] in Al.
    destruct Al as (A1 & A2 & A3).
    { eapply in_combine_get; eauto. }
    rewrite D; auto.
  - rewrite S8. cbn [map fst snd]. do 16 eexists. split; [reflexivity|].
    assert (Sub : forall x y, base + x - (base + y) = x - y) by (intros; lia).
    unfold src_new, fixed_new, st_new, bm_new. rewrite !Sub.
    rewrite !D by (vm_compute; congruence).
    repeat split. eexists. reflexivity.
Qed.

(** The padding computation is wrong in general: a section of one byte followed by one
    that asks for alignment 4 gives a misaligned region, which the constructor of a
    fixed-size section rejects by terminating the program. *)
Theorem C27_general_alignment_refuted : exists specs base i s b e,
  Forall (fun s => 1 <= ss_align s) specs /\ base mod 4096 = 0 /\
  get specs i = Some s /\ get (layout base specs) i = Some (b, e) /\
  ss_align s = 4 /\ b mod 4 <> 0 /\ fixed_new 4 4 b e = Exit.
Proof.
  exists [mkSpec 8 1 1; mkSpec 6 4 40], 4096, 1, (mkSpec 6 4 40), 4154, 4194.
  split; [repeat constructor; cbn; lia|]. repeat split; vm_compute; congruence.
Qed.

(** C28: whatever the run did inside its sections, after an orderly shutdown the reader
    finds every section under its tag, with exactly the bytes the runtime had used. *)
Theorem C28_header_round_trip : forall base specs m sizes,
  specs_ok specs -> mapped base specs -> sizes_ok specs sizes ->
  only_inside (layout base specs) (output_init base specs) m ->
  let f := file_of base specs (output_close base m sizes) in
  py_section_count f = Ok (len specs) /\
  py_section_loop f 8 (length specs) = Ok (sections_found m specs (layout base specs) sizes).
Proof.
  intros base specs m sizes S M Z O. cbv zeta.
  assert (F' : Forall (fun s => 1 <= ss_align s) specs).
  { destruct S as [S _]. eapply Forall_impl; [|exact S]. intros s (_ & X & _). exact X. }
  destruct (allocate_all_spec specs F' (base + header_size specs)) as (LL & LA & _). fold (layout base specs) in *.
  assert (LS : length sizes = length specs).
  { clear - Z. induction Z; cbn [length]; congruence. }
  assert (F64 : Forall (fun n => n < two64) sizes).
  { destruct M as [_ M]. change (2 ^ 64) with two64 in M. unfold required_allocation_size in M.
    assert (X : sum_alloc specs < two64) by lia. clear - Z X. revert X.
    induction Z as [|s n specs sizes Z1 _ Z IH]; intros X; [constructor|].
    change (sum_alloc (s :: specs)) with (ss_alloc s + sum_alloc specs) in X. constructor; [lia|]. apply IH. lia. }
  assert (H := init_header base specs S M).
  apply (header_ok_ext _ m) in H; [|now apply inside_header].
  apply (close_header _ _ _ sizes) in H; [|lia|exact F64].
  rewrite LS, PeanoNat.Nat.sub_diag in H. cbn [repeat] in H. rewrite app_nil_r in H.
  split; [eapply section_count_spec; eauto|].
  rewrite (section_loop_spec base specs _ S M sizes Z H). f_equal.
  (* closing only writes to the header *)
  assert (G : forall sp rg sz, (forall b e, In (b, e) rg -> base + header_size specs <= b) ->
     sections_found (output_close base m sizes) sp rg sz = sections_found m sp rg sz).
  { induction sp as [|s sp IH]; intros rg sz R; [reflexivity|]. destruct rg as [|[b e] rg]; [reflexivity|].
    destruct sz as [|n sz]; [reflexivity|]. cbn [sections_found]. f_equal.
    - f_equal. apply load_ext. intros x A B. unfold output_close. rewrite write_sizes_wr. apply wr_other.
      intros j _ C. specialize (R b e (or_introl eq_refl)). unfold header_size, smeta_addr, meta_size, smeta_size in *.
      unfold len in C, R. rewrite LS in C. lia.
    - apply IH. intros b' e' I. apply (R b' e'). now right. }
  apply G. intros b e I. apply In_nth_error in I as [k Hk].
  assert (Gk : get (layout base specs) (N.of_nat k) = Some (b, e)) by (unfold get; now rewrite Nnat.Nat2N.id).
  assert (Lk := get_some _ _ _ Gk). destruct (get_lt specs (N.of_nat k)) as [s Gs]; [unfold len in *; lia|].
  destruct (LA _ _ _ _ Gs Gk) as (_ & L2 & _). exact L2.
Qed.

(** C29: at any moment between start-up and shutdown (the run has only written inside its
    sections) the file on disk opens, and every section is seen as empty. *)
Theorem C29_crash_while_running : forall base m, mapped base shipped ->
  only_inside (layout base shipped) (output_init base shipped) m ->
  py_open (file_of base shipped m) =
  Ok (mkTd [(1, []); (2, []); (3, []); (4, []); (5, []); (6, []); (7, []); (8, [])] [] []).
Proof.
  intros base m M O.
  assert (S : specs_ok shipped).
  { split; [|vm_compute; reflexivity]. repeat (apply Forall_cons || apply Forall_nil); repeat split; vm_compute; congruence. }
  assert (F' : Forall (fun s => 1 <= ss_align s) shipped).
  { destruct S as [S _]. eapply Forall_impl; [|exact S]. intros s (_ & X & _). exact X. }
  assert (H := init_header base shipped S M). apply (header_ok_ext _ m) in H; [|now apply inside_header].
  unfold py_open. change (f_len (file_of base shipped m) =? 0) with false. cbv iota.
  rewrite (section_count_spec _ _ _ _ _ M H). cbn [bind].
  change (N.to_nat (len shipped)) with (length shipped).
  rewrite (section_loop_spec base shipped m S M (zero_sizes shipped)); [| |exact H].
  2: { unfold zero_sizes, shipped. repeat constructor; cbn; lia. }
  rewrite (shipped_layout base) by apply M. reflexivity.
Qed.

(** ... also when the process dies in the middle of creating the header: the reader then
    refuses the file or sees nothing in it.  The stores are those of the constructor in
    program order, any prefix of them having reached the file. *)
Theorem C29_crash_during_startup : forall base specs k, len specs < 2 ^ 16 ->
  let f := file_of base specs (do_stores mem_zero (firstn k (init_stores base specs))) in
  py_open f = Exit \/
  exists d, py_open f = Ok d /\ Forall (fun s => snd s = []) (td_sections d) /\ td_fd_headers d = [] /\ td_fn_headers d = [].
Proof.
  intros base specs k Ln. cbv zeta. set (m := do_stores _ _).
  assert (C := startup_count base specs k Ln). fold m in C. cbv zeta in C.
  assert (Z : forall i, i < len specs -> load_int m (smeta_addr base i + 16) 8 = 0).
  { intros i Hi. rewrite (load_int_ext _ mem_zero); [reflexivity|]. intros x A B. unfold m.
    apply do_stores_sizes with (base := base) (n := len specs).
    - apply firstn_Forall, init_stores_harmless.
    - reflexivity.
    - exists i. lia. }
  assert (Cn : exists n, py_section_count (file_of base specs m) = Ok n /\ n <= len specs).
  { exists (load_int m (base + 6) 2). split; [|lia]. unfold py_section_count, fstruct. cbn [file_of f_len f_bytes].
    assert (8 <= required_allocation_size specs) by (unfold required_allocation_size, header_size, meta_size; lia).
    destruct (N.ltb_spec (required_allocation_size specs) (0 + 8)); [lia|]. cbn [bind]. f_equal.
    rewrite load_shift, N.add_0_r. unfold load_int. f_equal.
    change (load m base 8) with (load m base (6 + 2)). rewrite load_app. change (N.of_nat 2) with 2.
    rewrite <- (app_nil_r (load m (base + 6) 2)) at 1. apply P_PyBase.slice_mid; rewrite ?len_load; reflexivity. }
  destruct Cn as (n & Cn & Hn). apply (py_open_empty base specs m n Cn). intros i Hi. apply Z. lia.
Qed.

(** The stores in that theorem add up to the state the running program starts from. *)
Theorem C29_startup_completes : forall base specs a, Forall (fun s => 1 <= ss_align s) specs ->
  do_stores mem_zero (init_stores base specs) a = output_init base specs a.
Proof. intros. now apply init_stores_all. Qed.

(** ... and when it dies while the sizes are being written: the first [k] sections are
    complete and the others are empty. *)
Theorem C29_crash_during_shutdown : forall base specs m sizes k,
  specs_ok specs -> mapped base specs -> sizes_ok specs sizes ->
  only_inside (layout base specs) (output_init base specs) m ->
  let f := file_of base specs (output_close base m (firstn k sizes)) in
  py_section_count f = Ok (len specs) /\
  py_section_loop f 8 (length specs) =
    Ok (sections_found m specs (layout base specs) (firstn k sizes ++ repeat 0 (length sizes - k))).
Proof.
  intros base specs m sizes k S M Z O. cbv zeta.
  assert (Z' : sizes_ok specs (firstn k sizes ++ repeat 0 (length sizes - k))).
  { clear - Z. revert k. induction Z as [|s n specs sizes Z1 Z2 Z IH]; intros k; [rewrite firstn_nil; constructor|].
    destruct k as [|k]; cbn [firstn length app].
    - specialize (IH O). cbn [firstn app] in IH. rewrite PeanoNat.Nat.sub_0_r in *. cbn [repeat].
      constructor; auto; lia.
    - cbn [PeanoNat.Nat.sub]. constructor; auto. }
  destruct (C28_header_round_trip base specs m _ S M Z' O) as [A B]. cbv zeta in A, B.
  assert (F' : Forall (fun s => 1 <= ss_align s) specs).
  { destruct S as [S _]. eapply Forall_impl; [|exact S]. intros s (_ & X & _). exact X. }
  (* writing zeros over the zero size fields changes nothing *)
  set (m' := output_close base m (firstn k sizes)).
  assert (LS : length sizes = length specs).
  { clear - Z. induction Z; cbn [length]; congruence. }
  assert (H := init_header base specs S M).
  apply (header_ok_ext _ m) in H; [|now apply inside_header].
  assert (F64 : Forall (fun n => n < two64) (firstn k sizes)).
  { apply firstn_Forall. destruct M as [_ M]. change (2 ^ 64) with two64 in M. unfold required_allocation_size in M.
    assert (X : sum_alloc specs < two64) by lia. clear - Z X. revert X.
    induction Z as [|s n specs sizes Z1 _ Z IH]; intros X; [constructor|].
    change (sum_alloc (s :: specs)) with (ss_alloc s + sum_alloc specs) in X. constructor; [lia|]. apply IH. lia. }
  apply (close_header _ _ _ (firstn k sizes)) in H; [|rewrite firstn_length; lia|exact F64]. fold m' in H.
  assert (Eq : firstn k sizes ++ repeat 0 (length specs - length (firstn k sizes)) = firstn k sizes ++ repeat 0 (length sizes - k)).
  { rewrite firstn_length, LS. f_equal. f_equal. lia. }
  rewrite Eq in H. split; [eapply section_count_spec; eauto|].
  rewrite (section_loop_spec base specs _ S M _ Z' H). f_equal.
  destruct (allocate_all_spec specs F' (base + header_size specs)) as (LL & LA & _). fold (layout base specs) in *.
  assert (G : forall sp rg sz, (forall b e, In (b, e) rg -> base + header_size specs <= b) ->
     sections_found m' sp rg sz = sections_found m sp rg sz).
  { induction sp as [|s sp IH]; intros rg sz R; [reflexivity|]. destruct rg as [|[b e] rg]; [reflexivity|].
    destruct sz as [|n sz]; [reflexivity|]. cbn [sections_found]. f_equal.
    - f_equal. apply load_ext. intros x X Y. unfold m', output_close. rewrite write_sizes_wr. apply wr_other.
      intros j _ C. specialize (R b e (or_introl eq_refl)). unfold header_size, smeta_addr, meta_size, smeta_size in *.
      unfold len in C, R. rewrite firstn_length, LS in C. lia.
    - apply IH. intros b' e' I. apply (R b' e'). now right. }
  apply G. intros b e I. apply In_nth_error in I as [j Hk].
  assert (Gk : get (layout base specs) (N.of_nat j) = Some (b, e)) by (unfold get; now rewrite Nnat.Nat2N.id).
  assert (Lk := get_some _ _ _ Gk). destruct (get_lt specs (N.of_nat j)) as [s Gs]; [unfold len in *; lia|].
  destruct (LA _ _ _ _ Gs Gk) as (_ & L2 & _). exact L2.
Qed.

(** A small file with three sections that satisfies the hypotheses: five bytes written to
    the first, none to the second (a bitmap), two to the third. *)
Definition three : list secspec := [mkSpec 3 2 64; mkSpec 5 8 16; mkSpec 8 1 10].
Definition three_mem : mem :=
  store (store (output_init 8192 three) 8272 [1; 2; 3; 4; 5]) 8352 [9; 9].
Example C28_case :
  specs_ok three /\ mapped 8192 three /\ sizes_ok three [5; 0; 2] /\
  layout 8192 three = [(8272, 8336); (8336, 8352); (8352, 8362)] /\
  only_inside (layout 8192 three) (output_init 8192 three) three_mem /\
  py_section_loop (file_of 8192 three (output_close 8192 three_mem [5; 0; 2])) 8 3 =
    Ok [(3, [1; 2; 3; 4; 5]); (5, []); (8, [9; 9])] /\
  py_section_loop (file_of 8192 three (output_close 8192 three_mem [5])) 8 3 =
    Ok [(3, [1; 2; 3; 4; 5]); (5, []); (8, [])].
Proof.
  assert (L : layout 8192 three = [(8272, 8336); (8336, 8352); (8352, 8362)]) by (vm_compute; reflexivity).
  split; [split; [repeat (apply Forall_cons || apply Forall_nil); repeat split; cbn; lia|vm_compute; reflexivity]|].
  split; [split; vm_compute; reflexivity|].
  split; [repeat constructor; cbn; try lia; discriminate|]. split; [exact L|]. split.
  - rewrite L. intros a H. unfold three_mem.
    assert (A := H _ _ (or_introl eq_refl)). assert (B := H _ _ (or_intror (or_intror (or_introl eq_refl)))).
    rewrite !store_other; [reflexivity| |]; change (len [9; 9]) with 2; change (len [1; 2; 3; 4; 5]) with 5; lia.
  - split; vm_compute; reflexivity.
Qed.

Example C29_case : mapped 8192 shipped /\
  only_inside (layout 8192 shipped) (output_init 8192 shipped)
    (store (output_init 8192 shipped) (8192 + 200) [1; 2; 3]).
Proof.
  split; [split; vm_compute; reflexivity|]. rewrite shipped_layout by reflexivity. intros a H.
  assert (A : a < 8192 + 200 \/ 8192 + 4280 <= a).
  { apply H. left. vm_compute. reflexivity. }
  apply store_other. change (len [1; 2; 3]) with 3. lia.
Qed.

Print Assumptions C27_disjoint_regions.
Print Assumptions C27_shipped_aligned.
Print Assumptions C27_general_alignment_refuted.
Print Assumptions C28_header_round_trip.
Print Assumptions C29_crash_while_running.
Print Assumptions C29_crash_during_startup.
Print Assumptions C29_startup_completes.
Print Assumptions C29_crash_during_shutdown.
