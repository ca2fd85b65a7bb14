(** Proofs about the output file layout and its header. *)
From Coq Require Import NArith Arith List Bool Lia.
From Verif Require Import M_Base M_Memory M_OutputFile M_PySections M_PyFile S_OutputFile
  P_Base P_Memory P_Section P_PyBase.
Import ListNotations.
Open Scope N_scope.

(** ** Layout *)
Lemma allocate_all_spec specs : Forall (fun s => 1 <= ss_align s) specs -> forall p,
  length (allocate_all p specs) = length specs /\
  (forall i s b e, get specs i = Some s -> get (allocate_all p specs) i = Some (b, e) ->
     e = b + ss_alloc s /\ p <= b /\ e <= p + sum_alloc specs + (sum_align specs - len specs)) /\
  (forall i j b e b' e', i < j -> get (allocate_all p specs) i = Some (b, e) ->
     get (allocate_all p specs) j = Some (b', e') -> e <= b').
Proof.
  induction 1 as [|s specs H F IH]; intros p; cbn [allocate_all].
  - split; [reflexivity|]. split; intros; [rewrite get_nil in *|rewrite get_nil in *]; discriminate.
  - unfold do_allocation. cbn [snd].
    assert (M : p mod ss_align s < ss_align s) by (apply N.mod_lt; lia).
    set (b0 := p + p mod ss_align s) in *.
    destruct (IH (b0 + ss_alloc s)) as (L & A & D). cbn [sum_alloc sum_align fold_right].
    change (fold_right (fun s0 n => ss_alloc s0 + n) 0 specs) with (sum_alloc specs).
    change (fold_right (fun s0 n => ss_align s0 + n) 0 specs) with (sum_align specs).
    assert (SA : len specs <= sum_align specs).
    { clear - F. induction F; [reflexivity|]. rewrite len_cons. cbn [sum_align fold_right].
      change (fold_right (fun s0 n => ss_align s0 + n) 0 l) with (sum_align l). lia. }
    rewrite len_cons. split; [cbn [length]; now rewrite L|]. split.
    + intros i s1 b e Hs Hr. destruct (N.eq_dec i 0) as [->|Hi].
      * rewrite get_cons_0 in *. inversion Hs; inversion Hr; subst. lia.
      * rewrite get_cons_S in Hs by lia. rewrite get_cons_S in Hr by lia. destruct (A _ _ _ _ Hs Hr) as (A1 & A2 & A3). lia.
    + intros i j b e b' e' Hij Hi Hj. rewrite (get_cons_S _ _ j) in Hj by lia.
      destruct (get_lt specs (j - 1)) as [sj Sj].
      { apply get_some in Hj. unfold len in *. lia. }
      destruct (A _ _ _ _ Sj Hj) as (A1 & A2 & A3).
      destruct (N.eq_dec i 0) as [->|Hi0].
      * rewrite get_cons_0 in Hi. inversion Hi; subst. lia.
      * rewrite get_cons_S in Hi by lia. eapply (D (i - 1) (j - 1)); eauto; lia.
Qed.

(** ** Header fields *)
Definition wr (k : N) (base : N) := fix wr (m : mem) (i : N) (vals : list N) : mem :=
  match vals with
  | [] => m
  | v :: rest => wr (store_int m (smeta_addr base i + k) 8 v) (i + 1) rest
  end.

Lemma write_offsets_wr base ranges : forall m i,
  write_offsets m base i ranges = wr 8 base m i (map (fun r => fst r - base) ranges).
Proof. induction ranges as [|[b e] r IH]; intros m i; [reflexivity|]. cbn [write_offsets map wr fst]. apply IH. Qed.
Lemma write_sizes_wr base sizes : forall m i, write_sizes m base i sizes = wr 16 base m i sizes.
Proof. induction sizes as [|n r IH]; intros m i; [reflexivity|]. cbn [write_sizes wr]. apply IH. Qed.

Lemma wr_other k base vals : forall m i x,
  (forall j, i <= j -> j < i + len vals -> x < smeta_addr base j + k \/ smeta_addr base j + k + 8 <= x) ->
  wr k base m i vals x = m x.
Proof.
  induction vals as [|v r IH]; intros m i x H; [reflexivity|]. cbn [wr]. rewrite len_cons in H.
  rewrite IH by (intros; apply H; lia).
  unfold store_int. apply store_other. rewrite len_le_bytes. apply H; lia.
Qed.

Lemma wr_at k base vals : k + 8 <= 24 -> forall m i j v, get vals j = Some v -> v < two64 ->
  load_int (wr k base m i vals) (smeta_addr base (i + j) + k) 8 = v.
Proof.
  intros K. induction vals as [|w r IH]; intros m i j v G V; [rewrite get_nil in G; discriminate|].
  cbn [wr]. destruct (N.eq_dec j 0) as [->|Hj].
  - rewrite get_cons_0 in G. inversion G; subst w. rewrite N.add_0_r.
    rewrite (load_int_ext _ (store_int m (smeta_addr base i + k) 8 v)).
    + apply load_int_store. exact V.
    + intros x H1 H2. apply wr_other. intros j H3 H4. unfold smeta_addr, smeta_size in *. lia.
  - rewrite get_cons_S in G by lia. replace (i + j) with (i + 1 + (j - 1)) by lia. now apply IH.
Qed.

Lemma load_mid m p a x b : load (store m p (a ++ x ++ b)) (p + len a) (len x) = x.
Proof.
  assert (H := load_store m p (a ++ x ++ b)). rewrite !len_app in H.
  rewrite (load_sub _ p (len a + (len x + len b))) by lia. rewrite H.
  unfold len. rewrite !Nat2N.id. rewrite skipn_app, skipn_all, Nat.sub_diag. cbn [skipn app].
  rewrite firstn_app, Nat.sub_diag, firstn_all. cbn [firstn]. now rewrite app_nil_r.
Qed.

Lemma len_filemeta specs : len (filemeta_bytes specs) = 8.
Proof. unfold filemeta_bytes. rewrite !len_app, !len_le_bytes. reflexivity. Qed.
Lemma len_smeta s o n : len (smeta_bytes s o n) = 24.
Proof. unfold smeta_bytes. rewrite !len_app, !len_le_bytes. reflexivity. Qed.

Lemma len_header specs : len (header_bytes specs) = header_size specs.
Proof.
  unfold header_bytes, header_size. rewrite len_app, len_filemeta, (len_concat 24).
  - rewrite len_map. reflexivity.
  - apply Forall_forall. intros r H. apply in_map_iff in H as (s & <- & _). apply len_smeta.
Qed.

(** A record of the header as freshly constructed. *)
Lemma header_rec m base specs i s : get specs i = Some s ->
  load (store m base (header_bytes specs)) (smeta_addr base i) 24 = smeta_bytes s 0 0.
Proof.
  intros G. apply get_split in G as (a & b & -> & <-). unfold header_bytes.
  rewrite map_app, concat_app. cbn [map concat]. rewrite app_assoc.
  set (pre := filemeta_bytes _ ++ concat _).
  assert (E : smeta_addr base (len a) = base + len pre).
  { unfold smeta_addr, pre. rewrite len_app, len_filemeta, (len_concat 24).
    - rewrite len_map. unfold meta_size, smeta_size. lia.
    - apply Forall_forall. intros r H. apply in_map_iff in H as (q & <- & _). apply len_smeta. }
  rewrite E, <- (len_smeta s 0 0). apply load_mid.
Qed.

Lemma load_split24 m a : load m a 24 = load m a 4 ++ load m (a + 4) 4 ++ load m (a + 8) 8 ++ load m (a + 16) 8.
Proof.
  change 24 with (4 + (4 + (8 + 8))). rewrite !load_app. replace (a + 4 + 4) with (a + 8) by lia.
  replace (a + 8 + 8) with (a + 16) by lia. reflexivity.
Qed.

Lemma py_smeta_load m a :
  py_smeta_of (load m a 24) = mkSmeta (load_int m a 4) (load_int m (a + 4) 4) (load_int m (a + 8) 8) (load_int m (a + 16) 8).
Proof.
  rewrite load_split24. unfold py_smeta_of, load_int. f_equal; f_equal.
Qed.

Definition fields (m : mem) (base i : N) (s : secspec) (offset size : N) : Prop :=
  load_int m (smeta_addr base i) 4 = ss_tag s /\ load_int m (smeta_addr base i + 4) 4 = ss_align s /\
  load_int m (smeta_addr base i + 8) 8 = offset /\ load_int m (smeta_addr base i + 16) 8 = size.

(** What a reader needs to know about the header. *)
Definition header_ok (m : mem) (base : N) (specs : list secspec) (ranges : list (N * N)) (sizes : list N) : Prop :=
  load_int m (base + 6) 2 = len specs /\
  forall i s b e n, get specs i = Some s -> get ranges i = Some (b, e) -> get sizes i = Some n ->
    fields m base i s (b - base) n.

Lemma header_ok_ext m m' base specs ranges sizes :
  (forall x, base <= x -> x < base + header_size specs -> m x = m' x) ->
  header_ok m base specs ranges sizes -> header_ok m' base specs ranges sizes.
Proof.
  intros E [H1 H2]. split.
  - rewrite <- H1. apply load_int_ext. intros x A B. symmetry. apply E; unfold header_size, meta_size; lia.
  - intros i s b e n G1 G2 G3. destruct (H2 i s b e n G1 G2 G3) as (F1 & F2 & F3 & F4).
    assert (L : i < len specs) by (eapply get_some; eauto).
    assert (Q : forall x, smeta_addr base i <= x -> x < smeta_addr base i + 24 -> m x = m' x).
    { intros x A B. apply E; unfold smeta_addr, header_size, meta_size, smeta_size in *; nia. }
    repeat split.
    + etransitivity; [|exact F1]. apply load_int_ext. intros x A B. symmetry. apply Q; lia.
    + etransitivity; [|exact F2]. apply load_int_ext. intros x A B. symmetry. apply Q; lia.
    + etransitivity; [|exact F3]. apply load_int_ext. intros x A B. symmetry. apply Q; lia.
    + etransitivity; [|exact F4]. apply load_int_ext. intros x A B. symmetry. apply Q; lia.
Qed.

Lemma load_int_smeta m a s o n : load m a 24 = smeta_bytes s o n -> ss_tag s < two32 -> ss_align s < two32 ->
  o < two64 -> n < two64 ->
  load_int m a 4 = ss_tag s /\ load_int m (a + 4) 4 = ss_align s /\ load_int m (a + 8) 8 = o /\ load_int m (a + 16) 8 = n.
Proof.
  intros E T A O Nn. assert (P := py_smeta_load m a). rewrite E in P.
  assert (Q : py_smeta_of (smeta_bytes s o n) = mkSmeta (ss_tag s) (ss_align s) o n).
  { unfold py_smeta_of, smeta_bytes. f_equal.
    - change (le_val (le_bytes 4 (ss_tag s)) = ss_tag s). exact (le_round 4 _ T).
    - change (le_val (le_bytes 4 (ss_align s)) = ss_align s). exact (le_round 4 _ A).
    - change (le_val (le_bytes 8 o) = o). exact (le_round 8 _ O).
    - change (le_val (le_bytes 8 n) = n). exact (le_round 8 _ Nn). }
  rewrite Q in P. inversion P. auto.
Qed.

Definition zero_sizes (specs : list secspec) : list N := repeat 0 (length specs).

Lemma get_repeat {A} (x y : A) n i : get (repeat x n) i = Some y -> y = x.
Proof. unfold get. intros H. apply nth_error_In, repeat_spec in H. auto. Qed.

Lemma init_header base specs : specs_ok specs -> mapped base specs ->
  header_ok (output_init base specs) base specs (layout base specs) (zero_sizes specs).
Proof.
  intros [F Ln] [_ Mp]. change (2 ^ 16) with two16 in Ln. change (2 ^ 64) with two64 in Mp.
  assert (F' : Forall (fun s => 1 <= ss_align s) specs).
  { eapply Forall_impl; [|exact F]. intros s (_ & H & _). exact H. }
  destruct (allocate_all_spec specs F' (base + header_size specs)) as (LL & LA & _).
  fold (layout base specs) in *. unfold output_init. rewrite write_offsets_wr. split.
  - rewrite (load_int_ext _ (store mem_zero base (header_bytes specs))).
    + unfold header_bytes, filemeta_bytes, load_int.
      set (pre := [84; 68; 65; 71] ++ le_bytes 2 (magic specs)).
      replace ((([84; 68; 65; 71] ++ le_bytes 2 (magic specs) ++ le_bytes 2 (len specs)) ++
                 concat (map (fun s => smeta_bytes s 0 0) specs)))
        with (pre ++ le_bytes 2 (len specs) ++ concat (map (fun s => smeta_bytes s 0 0) specs))
        by (unfold pre; rewrite <- !app_assoc; reflexivity).
      replace (base + 6) with (base + len pre) by reflexivity.
      replace (N.of_nat 2) with (len (le_bytes 2 (len specs))) by reflexivity.
      rewrite load_mid. exact (le_round 2 _ Ln).
    + intros x A B. apply wr_other. intros j C D. unfold smeta_addr, meta_size, smeta_size. lia.
  - intros i s b e n G1 G2 G3. apply get_repeat in G3. subst n.
    assert (Hs : spec_ok s).
    { rewrite Forall_forall in F. apply F. unfold get in G1. eapply nth_error_In; eauto. }
    destruct Hs as ((T1 & T2) & A1 & A2). change (2 ^ 32) with two32 in A2.
    destruct (load_int_smeta (store mem_zero base (header_bytes specs)) (smeta_addr base i) s 0 0)
      as (E1 & E2 & E3 & E4); auto; try (unfold two32, two64; lia).
    { now apply header_rec. }
    assert (Skip : forall x, (forall j, x < smeta_addr base j + 8 \/ smeta_addr base j + 16 <= x) ->
        wr 8 base (store mem_zero base (header_bytes specs)) 0 (map (fun r => fst r - base) (layout base specs)) x =
        store mem_zero base (header_bytes specs) x).
    { intros x H. apply wr_other. intros j _ _. specialize (H j). lia. }
    destruct (LA _ _ _ _ G1 G2) as (B1 & B2 & B3).
    repeat split.
    + etransitivity; [|exact E1]. apply load_int_ext. intros x A B. apply Skip. intros j. unfold smeta_addr, meta_size, smeta_size in *. lia.
    + etransitivity; [|exact E2]. apply load_int_ext. intros x A B. apply Skip. intros j. unfold smeta_addr, meta_size, smeta_size in *. lia.
    + replace i with (0 + i) at 1 by lia. apply wr_at; [lia| |].
      * rewrite get_map, G2. reflexivity.
      * unfold required_allocation_size in Mp. lia.
    + etransitivity; [|exact E4]. apply load_int_ext. intros x A B. apply Skip. intros j. unfold smeta_addr, meta_size, smeta_size in *. lia.
Qed.

(** Nothing inside the sections overlaps the header. *)
Lemma inside_header base specs m0 m : Forall (fun s => 1 <= ss_align s) specs ->
  only_inside (layout base specs) m0 m ->
  forall x, base <= x -> x < base + header_size specs -> m0 x = m x.
Proof.
  intros F O x A B. symmetry. apply O. intros b e H.
  destruct (allocate_all_spec specs F (base + header_size specs)) as (LL & LA & _).
  apply In_nth_error in H as [k Hk].
  assert (G : get (layout base specs) (N.of_nat k) = Some (b, e)) by (unfold get; now rewrite Nat2N.id).
  assert (Lk := get_some _ _ _ G).
  destruct (get_lt specs (N.of_nat k)) as [s Gs].
  { unfold layout, len in *. lia. }
  destruct (LA _ _ _ _ Gs G) as (_ & L2 & _). lia.
Qed.

Lemma close_header base specs ranges sizes m : header_ok m base specs ranges (zero_sizes specs) ->
  (length sizes <= length specs)%nat -> Forall (fun n => n < two64) sizes ->
  header_ok (output_close base m sizes) base specs ranges (sizes ++ repeat 0 (length specs - length sizes)).
Proof.
  intros [H1 H2] Ln Fs. unfold output_close. rewrite write_sizes_wr. split.
  - rewrite <- H1. apply load_int_ext. intros x A B. apply wr_other. intros j _ _.
    unfold smeta_addr, meta_size, smeta_size. lia.
  - intros i s b e n G1 G2 G3.
    assert (Z : get (zero_sizes specs) i = Some 0).
    { unfold zero_sizes, get. apply nth_error_repeat. apply get_some in G1. unfold len in *. lia. }
    destruct (H2 _ _ _ _ _ G1 G2 Z) as (F1 & F2 & F3 & F4).
    assert (Skip : forall x, (forall j, x < smeta_addr base j + 16 \/ smeta_addr base j + 24 <= x) ->
        wr 16 base m 0 sizes x = m x).
    { intros x H. apply wr_other. intros j _ _. specialize (H j). lia. }
    repeat split.
    + etransitivity; [|exact F1]. apply load_int_ext. intros x A B. apply Skip. intros j. unfold smeta_addr, meta_size, smeta_size in *. lia.
    + etransitivity; [|exact F2]. apply load_int_ext. intros x A B. apply Skip. intros j. unfold smeta_addr, meta_size, smeta_size in *. lia.
    + etransitivity; [|exact F3]. apply load_int_ext. intros x A B. apply Skip. intros j. unfold smeta_addr, meta_size, smeta_size in *. lia.
    + destruct (N.ltb_spec i (len sizes)) as [L|L].
      * rewrite get_app_l in G3 by assumption. replace i with (0 + i) at 1 by lia. apply wr_at; [lia|auto|].
        rewrite Forall_forall in Fs. apply Fs. unfold get in G3. eapply nth_error_In; eauto.
      * rewrite get_app_r in G3 by assumption. apply get_repeat in G3. subst n.
        etransitivity; [|exact F4]. apply load_int_ext. intros x A B. apply wr_other. intros j _ C.
        unfold smeta_addr, meta_size, smeta_size in *. lia.
Qed.

(** ** The reader *)
Lemma load_shift (m : mem) base a n : load (fun x => m (base + x)) a n = load m (base + a) n.
Proof.
  unfold load. generalize (N.to_nat n). clear n. intros k. revert a. induction k as [|k IH]; intros a; [reflexivity|].
  cbn [nseq map]. f_equal. rewrite IH. f_equal. f_equal. lia.
Qed.

Lemma fslice_in f a n : a + n <= f_len f -> fslice f a (a + n) = load (f_bytes f) a n.
Proof. intros H. unfold fslice. rewrite !N.min_l by lia. f_equal. lia. Qed.

Lemma get_snoc_list {A} (l : list A) i : len l <= i -> get l i = None.
Proof. apply get_none. Qed.

Lemma section_loop_spec base specs m : specs_ok specs -> mapped base specs ->
  forall sizes, sizes_ok specs sizes ->
  header_ok m base specs (layout base specs) sizes ->
  py_section_loop (file_of base specs m) 8 (length specs) = Ok (sections_found m specs (layout base specs) sizes).
Proof.
  intros [Fs Ln] [_ Mp] sizes So [_ H].
  assert (F' : Forall (fun s => 1 <= ss_align s) specs).
  { eapply Forall_impl; [|exact Fs]. intros s (_ & X & _). exact X. }
  destruct (allocate_all_spec specs F' (base + header_size specs)) as (LL & LA & _).
  fold (layout base specs) in *.
  set (ranges := layout base specs) in *.
  assert (G : forall sp rg sz k, sizes_ok sp sz -> length rg = length sp ->
     (forall i, get sp i = get specs (k + i)) -> (forall i, get rg i = get ranges (k + i)) ->
     (forall i, get sz i = get sizes (k + i)) -> k + len sp = len specs ->
     py_section_loop (file_of base specs m) (8 + 24 * k) (length sp) = Ok (sections_found m sp rg sz)).
  { induction sp as [|s sp IH]; intros rg sz k Sz Lr E1 E2 E3 Lk.
    - destruct rg; [|discriminate]. reflexivity.
    - destruct rg as [|[b e] rg]; [discriminate|]. inversion Sz as [|s' n sp' sz' Sn Sm Sz']; subst.
      cbn [length py_section_loop sections_found].
      assert (G1 : get specs k = Some s) by (rewrite <- (E1 0), get_cons_0 || (specialize (E1 0); rewrite N.add_0_r, get_cons_0 in E1; auto)).
      assert (G2 : get ranges k = Some (b, e)) by (specialize (E2 0); rewrite N.add_0_r, get_cons_0 in E2; auto).
      assert (G3 : get sizes k = Some n) by (specialize (E3 0); rewrite N.add_0_r, get_cons_0 in E3; auto).
      destruct (LA _ _ _ _ G1 G2) as (A1 & A2 & A3).
      destruct (H _ _ _ _ _ G1 G2 G3) as (H1 & H2 & H3 & H4).
      assert (Hs : spec_ok s). { rewrite Forall_forall in Fs. apply Fs. unfold get in G1. eapply nth_error_In; eauto. }
      destruct Hs as ((T1 & T2) & _).
      assert (Lk' := get_some _ _ _ G1).
      assert (Hd : header_size specs = 8 + 24 * len specs) by reflexivity.
      assert (Rq : required_allocation_size specs = header_size specs + sum_alloc specs + (sum_align specs - len specs)) by reflexivity.
      unfold fstruct. cbn [file_of f_len f_bytes]. destruct (N.ltb_spec (required_allocation_size specs) (8 + 24 * k + 24)) as [X|X]; [lia|].
      cbn [bind]. rewrite load_shift. replace (base + (8 + 24 * k)) with (smeta_addr base k) by (unfold smeta_addr, meta_size, smeta_size; lia).
      rewrite py_smeta_load, H1, H2, H3, H4. unfold py_section. cbn [sm_tag sm_offset sm_size].
      destruct (N.leb_spec 1 (ss_tag s)); [|lia]. destruct (N.leb_spec (ss_tag s) 8); [|lia]. cbn [andb].
      rewrite fslice_in by (cbn [file_of f_len]; lia). cbn [file_of f_bytes]. rewrite load_shift, len_load.
      replace (base + (b - base)) with b by lia.
      assert (M5 : (ss_tag s =? 5) && negb (n mod 8 =? 0) = false).
      { destruct (N.eqb_spec (ss_tag s) 5) as [T5|]; [|reflexivity]. rewrite (Sm T5). reflexivity. }
      rewrite M5. cbn [bind]. replace (8 + 24 * k + 24) with (8 + 24 * (k + 1)) by lia.
      rewrite (IH rg sz' (k + 1)); [reflexivity|exact Sz'|now inversion Lr| | | |].
      + intros i. specialize (E1 (i + 1)). rewrite get_cons_S in E1 by lia. replace (i + 1 - 1) with i in E1 by lia.
        rewrite E1. f_equal. lia.
      + intros i. specialize (E2 (i + 1)). rewrite get_cons_S in E2 by lia. replace (i + 1 - 1) with i in E2 by lia.
        rewrite E2. f_equal. lia.
      + intros i. specialize (E3 (i + 1)). rewrite get_cons_S in E3 by lia. replace (i + 1 - 1) with i in E3 by lia.
        rewrite E3. f_equal. lia.
      + rewrite len_cons in Lk. lia. }
  apply (G specs ranges sizes 0); auto.
Qed.

Lemma section_count_spec base specs m ranges sizes : mapped base specs -> header_ok m base specs ranges sizes ->
  py_section_count (file_of base specs m) = Ok (len specs).
Proof.
  intros _ [H _]. unfold py_section_count, fstruct. cbn [file_of f_len f_bytes].
  assert (8 <= required_allocation_size specs).
  { unfold required_allocation_size, header_size, meta_size. lia. }
  destruct (N.ltb_spec (required_allocation_size specs) (0 + 8)); [lia|]. cbn [bind]. f_equal.
  rewrite load_shift, N.add_0_r. rewrite <- H. unfold load_int. f_equal.
  change (load m base 8) with (load m base (6 + 2)). rewrite load_app.
  change (N.of_nat 2) with 2.
  rewrite <- (app_nil_r (load m (base + 6) 2)) at 1. apply slice_mid; rewrite ?len_load; reflexivity.
Qed.

(** ** Crashes *)
Definition in_size_field (base n x : N) : Prop :=
  exists i, i < n /\ smeta_addr base i + 16 <= x /\ x < smeta_addr base i + 24.

(** A store that leaves zeroed size fields zero. *)
Definition harmless (base n : N) (st : N * list N) : Prop :=
  forall j v, get (snd st) j = Some v -> in_size_field base n (fst st + j) -> v = 0.

Lemma do_stores_sizes base n l : Forall (harmless base n) l -> forall m,
  (forall x, in_size_field base n x -> m x = 0) ->
  forall x, in_size_field base n x -> do_stores m l x = 0.
Proof.
  induction 1 as [|[a bs] l H F IH]; intros m Z x I; [now apply Z|]. cbn [do_stores]. apply IH; [|exact I].
  clear x I. intros x I. unfold store. destruct (N.leb_spec a x); [|now apply Z].
  destruct (N.ltb_spec x (a + len bs)); [|now apply Z]. cbn [andb].
  destruct (get_lt bs (x - a)) as [v G]; [lia|]. unfold get in G. rewrite (nth_error_nth _ _ _ G).
  apply (H (x - a)); [exact G|]. cbn [fst]. now replace (a + (x - a)) with x by lia.
Qed.

Lemma harmless_outside base n a bs :
  (forall i x, i < n -> a <= x -> x < a + len bs -> x < smeta_addr base i + 16 \/ smeta_addr base i + 24 <= x) ->
  harmless base n (a, bs).
Proof.
  intros H j v G (i & Hi & A & B). cbn [fst snd] in *. apply get_some in G.
  specialize (H i (a + j) Hi). lia.
Qed.

Lemma harmless_zero base n a : harmless base n (a, le_bytes 8 0).
Proof.
  intros j v G _. cbn [snd] in G. change (le_bytes 8 0) with (repeat 0 8) in G. now apply get_repeat in G.
Qed.

Lemma init_stores_harmless base specs : Forall (harmless base (len specs)) (init_stores base specs).
Proof.
  unfold init_stores. apply Forall_app. split.
  { repeat (apply Forall_cons || apply Forall_nil); apply harmless_outside; intros i x _; unfold smeta_addr, meta_size, smeta_size;
    rewrite ?len_le_bytes; cbn [len length]; try (change (len [84; 68; 65; 71]) with 4); lia. }
  apply Forall_app. split.
  - apply Forall_concat, Forall_forall. intros l H. apply in_map_iff in H as ([i s] & <- & _). cbn [fst snd].
    repeat (apply Forall_cons || apply Forall_nil).
    + apply harmless_outside. intros j x _. rewrite len_le_bytes. unfold smeta_addr, meta_size, smeta_size. lia.
    + apply harmless_outside. intros j x _. rewrite len_le_bytes. unfold smeta_addr, meta_size, smeta_size. lia.
    + apply harmless_zero.
    + apply harmless_zero.
  - apply Forall_forall. intros l H. apply in_map_iff in H as ([i r] & <- & _). cbn [fst snd].
    apply harmless_outside. intros j x _. rewrite len_le_bytes. unfold offset_field, smeta_addr, meta_size, smeta_size. lia.
Qed.

(** With zero size fields every section the reader accepts is empty. *)
Lemma empty_loop base specs m n k :
  (forall i, i < k + N.of_nat n -> load_int m (smeta_addr base i + 16) 8 = 0) ->
  py_section_loop (file_of base specs m) (8 + 24 * k) n = Exit \/
  exists l, py_section_loop (file_of base specs m) (8 + 24 * k) n = Ok l /\ Forall (fun p => snd p = []) l.
Proof.
  revert k. induction n as [|n IH]; intros k Z; [right; exists []; auto|]. cbn [py_section_loop].
  unfold fstruct. cbn [file_of f_len f_bytes].
  destruct (required_allocation_size specs <? 8 + 24 * k + 24); [now left|]. cbn [bind].
  rewrite load_shift. replace (base + (8 + 24 * k)) with (smeta_addr base k) by (unfold smeta_addr, meta_size, smeta_size; lia).
  rewrite py_smeta_load. rewrite (Z k) by lia. unfold py_section. cbn [sm_tag sm_offset sm_size].
  destruct (_ && _); [|now left]. rewrite N.add_0_r. unfold fslice. rewrite N.sub_diag, load_0.
  change (len (@nil N)) with 0. change (0 mod 8 =? 0) with true. cbn [negb]. rewrite andb_false_r. cbn [bind].
  replace (8 + 24 * k + 24) with (8 + 24 * (k + 1)) by lia.
  destruct (IH (k + 1)) as [E|(l & E & F)]; [intros; apply Z; lia| |]; rewrite E; cbn [bind]; [now left|].
  right. eexists. split; [reflexivity|]. now constructor.
Qed.

Lemma get_section_empty l t : Forall (fun p : N * list N => snd p = []) l -> forall b, py_get_section l t = Some b -> b = [].
Proof.
  induction 1 as [|[t0 b0] l E F IH]; intros b H; [discriminate|]. cbn [py_get_section] in H. cbn [snd] in E. subst b0.
  destruct (py_get_section l t); [inversion H; subst; now apply IH|]. destruct (t0 =? t); inversion H; auto.
Qed.

Definition sees_nothing (d : tdfile) : Prop :=
  Forall (fun p => snd p = []) (td_sections d) /\ td_fd_headers d = [] /\ td_fn_headers d = [].

Lemma py_open_empty base specs m n :
  py_section_count (file_of base specs m) = Ok n ->
  (forall i, i < n -> load_int m (smeta_addr base i + 16) 8 = 0) ->
  py_open (file_of base specs m) = Exit \/ exists d, py_open (file_of base specs m) = Ok d /\ sees_nothing d.
Proof.
  intros C Z. unfold py_open. destruct (f_len _ =? 0); [now left|]. rewrite C. cbn [bind].
  destruct (empty_loop base specs m (N.to_nat n) 0) as [E|(l & E & F)]; [intros; apply Z; lia| |];
    change (8 + 24 * 0) with 8 in E; rewrite E; cbn [bind]; [now left|].
  unfold py_read_fd_headers, py_read_fn_headers, py_by_type.
  destruct (py_get_section l 1) as [b1|] eqn:E1; [|now left].
  destruct (py_get_section l 3) as [b3|] eqn:E3; [|now left]. cbn [bind].
  assert (b1 = []) by (eapply get_section_empty; eauto). subst.
  assert (b3 = []) by (eapply get_section_empty; eauto). subst. cbn [bind].
  change (py_sources []) with (@Ok (list py_fdhdr) []). cbn [bind py_map].
  destruct (py_get_section l 6) as [b6|] eqn:E6; [|now left]. cbn [bind].
  assert (b6 = []) by (eapply get_section_empty; eauto). subst.
  change (py_functions []) with (@Ok (list N) []). cbn [bind py_map]. right. eexists. split; [reflexivity|].
  split; [exact F|]. auto.
Qed.

(** The fine-grained start-up ends where [output_init] does. *)
Lemma do_stores_app l1 : forall m l2, do_stores m (l1 ++ l2) = do_stores (do_stores m l1) l2.
Proof. induction l1 as [|[a bs] l1 IH]; intros m l2; [reflexivity|]. apply IH. Qed.

Lemma store_ext m m' a bs x : m x = m' x -> store m a bs x = store m' a bs x.
Proof. intros H. unfold store. now rewrite H. Qed.

Lemma do_stores_ext l : forall m m' x, m x = m' x -> do_stores m l x = do_stores m' l x.
Proof. induction l as [|[a bs] l IH]; intros m m' x H; [exact H|]. cbn [do_stores]. now apply IH, store_ext. Qed.

Lemma store_nil m a x : store m a [] x = m x.
Proof. apply store_other. rewrite len_nil. lia. Qed.

Lemma store_split m a p q x : store m a (p ++ q) x = store (store m a p) (a + len p) q x.
Proof.
  destruct (N.ltb_spec x a); [rewrite !store_other by lia; reflexivity|].
  destruct (N.leb_spec (a + len (p ++ q)) x) as [L|L]; rewrite len_app in L.
  { rewrite !store_other by (rewrite ?len_app; lia). reflexivity. }
  destruct (N.ltb_spec x (a + len p)).
  - rewrite (store_other _ (a + len p)) by lia. destruct (get_lt p (x - a)) as [v G]; [lia|].
    replace x with (a + (x - a)) by lia. rewrite (store_same m a p _ v G).
    apply store_same. now rewrite get_app_l by lia.
  - destruct (get_lt q (x - a - len p)) as [v G]; [lia|].
    replace x with (a + len p + (x - a - len p)) at 2 by lia. rewrite (store_same _ _ q _ v G).
    replace x with (a + (x - a)) at 1 by lia. apply store_same. now rewrite get_app_r by lia.
Qed.

Lemma header_stores base specs : forall k m x,
  do_stores m (concat (map (fun p => let a := smeta_addr base (fst p) in
                 [(a, le_bytes 4 (ss_tag (snd p))); (a + 4, le_bytes 4 (ss_align (snd p)));
                  (a + 8, le_bytes 8 0); (a + 16, le_bytes 8 0)])
            (combine (nseq k (length specs)) specs))) x =
  store m (smeta_addr base k) (concat (map (fun s => smeta_bytes s 0 0) specs)) x.
Proof.
  induction specs as [|s specs IH]; intros k m x; [symmetry; apply store_nil|].
  cbn [length nseq combine map concat fst snd]. rewrite do_stores_app, IH. cbn [do_stores].
  rewrite store_split, len_smeta. replace (smeta_addr base k + 24) with (smeta_addr base (k + 1)) by (unfold smeta_addr, smeta_size; lia).
  apply store_ext. unfold smeta_bytes. rewrite !store_split, !len_le_bytes.
  change (N.of_nat 4) with 4. change (N.of_nat 8) with 8.
  replace (smeta_addr base k + 4 + 4) with (smeta_addr base k + 8) by lia.
  replace (smeta_addr base k + 8 + 8) with (smeta_addr base k + 16) by lia. reflexivity.
Qed.

Lemma offset_stores base ranges : forall k m,
  do_stores m (map (fun p => (offset_field base (fst p), le_bytes 8 (fst (snd p) - base)))
         (combine (nseq k (length ranges)) ranges)) = write_offsets m base k ranges.
Proof.
  induction ranges as [|[b e] r IH]; intros k m; [reflexivity|].
  cbn [length nseq combine map do_stores write_offsets fst snd]. apply IH.
Qed.

Lemma offset_stores_len base ranges k m n : length ranges = n ->
  do_stores m (map (fun p => (offset_field base (fst p), le_bytes 8 (fst (snd p) - base)))
         (combine (nseq k n) ranges)) = write_offsets m base k ranges.
Proof. intros <-. apply offset_stores. Qed.

Lemma write_offsets_ext base ranges : forall k m m' x, m x = m' x ->
  write_offsets m base k ranges x = write_offsets m' base k ranges x.
Proof. intros k m m' x H. rewrite <- !offset_stores. now apply do_stores_ext. Qed.

Lemma init_stores_all base specs x : Forall (fun s => 1 <= ss_align s) specs ->
  do_stores mem_zero (init_stores base specs) x = output_init base specs x.
Proof.
  intros F. destruct (allocate_all_spec specs F (base + header_size specs)) as (LL & _ & _).
  fold (layout base specs) in LL. unfold init_stores, output_init. rewrite !do_stores_app.
  rewrite offset_stores_len by exact LL. apply write_offsets_ext.
  rewrite header_stores. unfold header_bytes. rewrite store_split, len_filemeta.
  replace (smeta_addr base 0) with (base + 8) by (unfold smeta_addr, meta_size, smeta_size; lia).
  apply store_ext. cbn [do_stores]. unfold filemeta_bytes. rewrite !store_split, len_le_bytes.
  change (len [84; 68; 65; 71]) with 4. change (N.of_nat 2) with 2. now replace (base + 4 + 2) with (base + 6) by lia.
Qed.

(** The section count read after any number of start-up stores. *)
Definition after_count base (st : N * list N) : Prop := base + 8 <= fst st.
Lemma do_stores_count base l : Forall (after_count base) l -> forall m x, x < base + 8 -> do_stores m l x = m x.
Proof.
  induction 1 as [|[a bs] l H F IH]; intros m x L; [reflexivity|]. cbn [do_stores]. rewrite IH by assumption.
  apply store_other. unfold after_count in H. cbn [fst] in H. lia.
Qed.

Lemma firstn_Forall {A} (P : A -> Prop) l n : Forall P l -> Forall P (firstn n l).
Proof. intros F. revert n. induction F; intros [|n]; cbn [firstn]; auto. Qed.

Lemma startup_count base specs k : len specs < two16 ->
  let v := load_int (do_stores mem_zero (firstn k (init_stores base specs))) (base + 6) 2 in v = 0 \/ v = len specs.
Proof.
  intros Ln. cbv zeta. unfold init_stores.
  match goal with |- context [_ :: _ :: _ :: [] ++ ?r] => set (rest := r) | |- context [[_; _; _] ++ ?r] => set (rest := r) end.
  assert (R : Forall (after_count base) rest).
  { unfold rest. apply Forall_app. split.
    - apply Forall_concat, Forall_forall. intros l H. apply in_map_iff in H as ([i s] & <- & _). cbn [fst snd].
      repeat (apply Forall_cons || apply Forall_nil); unfold after_count, smeta_addr, meta_size, smeta_size; cbn [fst]; lia.
    - apply Forall_forall. intros l H. apply in_map_iff in H as ([i r] & <- & _).
      unfold after_count, offset_field, smeta_addr, meta_size, smeta_size. cbn [fst]. lia. }
  destruct k as [|[|[|k]]]; cbn [app firstn do_stores].
  - left. reflexivity.
  - left. rewrite (load_int_ext _ mem_zero); [reflexivity|]. intros x A B. apply store_other.
    change (len [84; 68; 65; 71]) with 4. lia.
  - left. rewrite (load_int_ext _ mem_zero); [reflexivity|]. intros x A B.
    rewrite !store_other; [reflexivity| |]; rewrite ?len_le_bytes; change (len [84; 68; 65; 71]) with 4; lia.
  - right. etransitivity.
    + apply load_int_ext. intros x A B. apply do_stores_count with (base := base); [|lia]. apply firstn_Forall. exact R.
    + apply (load_int_store _ (base + 6) 2). exact Ln.
Qed.

(** With a page-aligned base the layout is a translation of the layout at 0. *)
Lemma allocate_all_shift base specs : base mod 4096 = 0 ->
  Forall (fun s => ss_align s <> 0 /\ 4096 mod ss_align s = 0) specs -> forall p,
  allocate_all (base + p) specs = map (fun r => (base + fst r, base + snd r)) (allocate_all p specs).
Proof.
  intros B. induction 1 as [|s specs [H1 H2] F IH]; intros p; [reflexivity|].
  cbn [allocate_all map]. unfold do_allocation. cbn [fst snd].
  assert (E : (base + p) mod ss_align s = p mod ss_align s).
  { apply N.mod_divide in H2 as [c Hc]; [|exact H1]. apply N.mod_divide in B as [q Hq]; [|lia].
    rewrite Hq, Hc. replace (q * (c * ss_align s) + p) with (p + (q * c) * ss_align s) by lia. now apply N.mod_add. }
  rewrite E. f_equal; [f_equal; lia|]. rewrite <- IH. f_equal. lia.
Qed.

Lemma shipped_layout base : base mod 4096 = 0 ->
  layout base shipped = map (fun r => (base + fst r, base + snd r)) (layout 0 shipped).
Proof.
  intros B. unfold layout. rewrite N.add_0_l. apply allocate_all_shift; [exact B|].
  repeat (apply Forall_cons || apply Forall_nil); split; vm_compute; congruence.
Qed.

Lemma in_combine_get {A B} (l : list A) (l' : list B) i x y :
  get l i = Some x -> get l' i = Some y -> In (x, y) (combine l l').
Proof.
  unfold get. generalize (N.to_nat i). intros n. revert l l'. induction n as [|n IH]; intros [|a l] [|b l'] H1 H2;
    try discriminate; cbn in *.
  - inversion H1; inversion H2; subst. now left.
  - right. now apply IH.
Qed.
