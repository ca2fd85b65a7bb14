(** C100: mapping and unmapping of memory. *)
From Coq Require Import NArith ZArith List Bool Lia.
From Verif Require Import M_Base M_Memory M_Dfsan M_DfsanMap S_Dfsan S_DfsanMap P_Base P_Memory P_Dfsan T_Dfsan.
Import ListNotations.
Open Scope N_scope.

Lemma pages_eq n : round_up n = pages n.
Proof.
  unfold round_up, pages, PAGE. change (4096 - 1) with (N.ones 12). rewrite N.ldiff_ones_r, N.shiftl_mul_pow2, N.shiftr_div_pow2. reflexivity.
Qed.
Lemma pages_ge n : n <= pages n.
Proof. unfold pages. assert (H := N.div_mod' (n + 4095) 4096). assert (L : (n + 4095) mod 4096 < 4096) by (apply N.mod_lt; lia). lia. Qed.
Lemma rounded n a : a + pages n < 0x800000000000 -> round_up n mod two64 = pages n.
Proof. intros L. rewrite pages_eq. apply N.mod_small. change two64 with 18446744073709551616. lia. Qed.

Lemma set_labels_meaning m f l p n : l < 2 ^ 32 -> app_range p n -> p + n < 0x800000000000 -> (forall q, app_byte q -> label_at m q = f q) ->
  forall q, app_byte q -> label_at (set_label m l p n) q = relabel f l p n q.
Proof.
  intros L A E H q Q. destruct (C36_set_label m l p n L A (or_intror E)) as (S1 & S2 & _). unfold relabel.
  destruct (N.leb_spec p q), (N.ltb_spec q (p + n)); cbn [andb]; try (rewrite S2; [apply H; exact Q|exact Q|unfold within; lia]). apply S1; [exact Q|split; lia].
Qed.
Lemma relabel_twice f p n k q : k <= n -> relabel (relabel f 0 p n) 0 p k q = relabel f 0 p n q.
Proof. intros L. unfold relabel. destruct (N.leb_spec p q), (N.ltb_spec q (p + k)), (N.ltb_spec q (p + n)); cbn [andb]; try reflexivity. lia. Qed.
Lemma relabel_ext f g l p n q : f q = g q -> relabel f l p n q = relabel g l p n q.
Proof. intros H. unfold relabel. now rewrite H. Qed.
Lemma range_le p n k : k <= n -> app_range p n -> app_range p k.
Proof. unfold app_range. lia. Qed.
Lemma op_meaning m f o : op_ok o -> (forall a n, o <> OUnmap a n (-1)) -> (forall q, app_byte q -> label_at m q = f q) ->
  forall q, app_byte q -> label_at (op_step m o) q = meaning f o q.
Proof.
  intros K N H. destruct o as [n [a|]|a n res|l a n]; cbn [op_step icpt_mmap meaning op_ok] in *.
  - destruct K as [K1 K2]. rewrite (rounded n a K2). now apply set_labels_meaning.
  - exact H.
  - destruct K as [K1 K2]. unfold dfsw_munmap, icpt_munmap. rewrite (rounded n a K2). assert (G := pages_ge n). destruct (Z.eqb_spec res (-1)) as [->|R]; [exfalso; exact (N a n eq_refl)|].
    intros q Q. rewrite <- (relabel_twice f a (pages n) n q G). apply set_labels_meaning; [reflexivity|exact (range_le _ _ _ G K1)|lia| |exact Q].
    apply set_labels_meaning; [reflexivity|exact K1|exact K2|exact H].
  - destruct K as (K0 & K1 & K2). now apply set_labels_meaning.
Qed.

(** In every history of mappings, unmappings and labellings by one thread, in which no
    unmapping failed, a byte has the label it got last since it was mapped.  Missing: failed
    unmappings and other threads, see below. *)
Theorem C100_labels_partial : forall os m, Forall op_ok os -> (forall a n, ~ In (OUnmap a n (-1)) os) ->
  forall q, app_byte q -> label_at (run_ops m os) q = fold_left meaning os (label_at m) q.
Proof.
  intros os m K N. unfold run_ops. assert (H : forall q, app_byte q -> label_at m q = label_at m q) by reflexivity. revert H. generalize (label_at m) at 2 3. revert m K N.
  induction os as [|o os IH]; intros m K N f H; [exact H|]. inversion K as [|x l K1 K2]; subst. cbn [fold_left]. apply IH; [exact K2|intros a n I; apply (N a n); now right|].
  apply op_meaning; [exact K1|intros a n ->; apply (N a n); now left|exact H].
Qed.

(** The updates of labels never write application memory itself. *)
Theorem C100_contents : forall os m, Forall op_ok os -> same_app m (run_ops m os).
Proof.
  intros os. induction os as [|o os IH]; intros m K; [intros x _; reflexivity|]. inversion K as [|x l K1 K2]; subst. intros x X. unfold run_ops. cbn [fold_left]. fold (run_ops (op_step m o) os).
  rewrite (IH (op_step m o) K2 x X). clear IH K K2. destruct o as [n [a|]|a n res|lb a n]; cbn [op_step icpt_mmap op_ok] in *.
  - destruct K1 as [A E]. rewrite (rounded n a E). now apply (C36_set_label m 0 a (pages n) eq_refl A (or_intror E)).
  - reflexivity.
  - destruct K1 as [A E]. assert (G := pages_ge n). unfold dfsw_munmap. assert (E' : a + n < 0x800000000000) by lia.
    destruct (C36_set_label (icpt_munmap m a n res) 0 a n eq_refl (range_le _ _ _ G A) (or_intror E')) as (_ & _ & _ & S). rewrite (S x X).
    unfold icpt_munmap. rewrite (rounded n a E). destruct (res =? -1)%Z; [reflexivity|]. now apply (C36_set_label m 0 a (pages n) eq_refl A (or_intror E)).
  - destruct K1 as (L & A & E). now apply (C36_set_label m lb a n L A (or_intror E)).
Qed.

(** An unmapping that fails (of an address that is not on a page boundary, say) unmaps nothing,
    but the labels of the memory are lost. *)
Theorem C100_failed_unmap_refuted : forall m a n q, op_ok (OUnmap a n (-1)) -> app_byte q -> within a n q ->
  meaning (label_at m) (OUnmap a n (-1)) q = label_at m q /\ label_at (op_step m (OUnmap a n (-1))) q = 0.
Proof.
  intros m a n q [A E] Q W. split; [reflexivity|]. cbn [op_step]. unfold dfsw_munmap, icpt_munmap. cbn [Z.eqb]. change (if (-1 =? -1)%Z then m else set_label m 0 a (round_up n mod two64)) with m.
  assert (G := pages_ge n). assert (E' : a + n < 0x800000000000) by lia.
  now apply (C36_set_label m 0 a n eq_refl (range_le _ _ _ G A) (or_intror E')).
Qed.

(** While one thread unmaps a region another one can get the same memory and label it, before
    the first has removed its labels: the labels of the second are lost.  Thread 1 unmaps what
    it owns; thread 2 maps memory that is free, and labels it.  At the end the second thread
    owns memory without labels. *)
Theorem C100_race_refuted : forall m (o : owners) l p n, 0 < l < 2 ^ 32 -> app_range p (pages n) -> p + pages n < 0x800000000000 ->
  (forall q, within p (pages n) q -> o q = Some 1) ->
  exists acts o', of_thread 1 acts = acts_munmap p n /\ of_thread 2 acts = acts_mmap p n ++ [ALabel l p n] /\
    (forall t, t <> 1 -> t <> 2 -> of_thread t acts = []) /\ kernel_ok o acts o' /\
    forall q, within p n q -> o' q = Some 2 /\ label_at (run_acts m (map snd acts)) q = 0.
Proof.
  intros m o l p n L A E O. assert (G := pages_ge n). set (k := round_up n mod two64). assert (Ek : k = pages n) by exact (rounded n p E).
  exists [(1, AUnmap p n); (2, AMap p n); (2, ALabel 0 p k); (2, ALabel l p n); (1, ALabel 0 p k); (1, ALabel 0 p n)].
  exists (set_owner (set_owner o None p (pages n)) (Some 2) p (pages n)). split; [reflexivity|]. split; [reflexivity|]. split.
  { intros t N1 N2. unfold of_thread. cbn [filter fst]. destruct (N.eqb_spec 1 t); [congruence|]. destruct (N.eqb_spec 2 t); [congruence|reflexivity]. }
  split.
  { apply ko_unmap; [exact O|]. apply ko_map; [|repeat constructor]. intros q [Q1 Q2]. unfold set_owner. destruct (N.leb_spec p q), (N.ltb_spec q (p + pages n)); cbn [andb]; try reflexivity; lia. }
  intros q [Q1 Q2]. split.
  { unfold set_owner. destruct (N.leb_spec p q), (N.ltb_spec q (p + pages n)); cbn [andb]; try reflexivity; lia. }
  unfold run_acts. cbn [map snd fold_left act_step]. assert (E' : p + n < 0x800000000000) by lia.
  assert (Q : app_byte q) by (unfold app_range, app_byte in *; lia). match goal with |- label_at (set_label ?m2 0 p n) q = 0 => now apply (C36_set_label m2 0 p n eq_refl (range_le _ _ _ G A) (or_intror E')) end.
Qed.
(** If the unmapping is over before the mapping starts the labels are kept. *)
Theorem C100_sequential : forall m l p n, l < 2 ^ 32 -> app_range p (pages n) -> p + pages n < 0x800000000000 ->
  forall q, within p n q -> label_at (run_acts m (acts_munmap p n ++ acts_mmap p n ++ [ALabel l p n])) q = l.
Proof.
  intros m l p n L A E q W. assert (G := pages_ge n). assert (E' : p + n < 0x800000000000) by lia. assert (Q : app_byte q) by (unfold app_range, app_byte, within in *; lia).
  unfold run_acts. rewrite !fold_left_app. cbn [fold_left act_step].
  match goal with |- label_at (set_label ?m2 l p n) q = l => now apply (C36_set_label m2 l p n L (range_le _ _ _ G A) (or_intror E')) end.
Qed.

(** A region is mapped and labelled, a part of it unmapped, and the part mapped again. *)
Example C100_case : let p := 0x7fff00000000 in
  let os := [OMap 10000 (Some p); OLabel 7 p 12000; OUnmap p 4096 0; OMap 5 (Some p); OLabel 9 (p + 3) 1; OMap 1 None] in
  Forall op_ok os /\ (forall a n, ~ In (OUnmap a n (-1)) os) /\
  map (label_at (run_ops mem_zero os)) [p; p + 3; p + 4; p + 4095; p + 4096; p + 11999; p + 12000] = [0; 9; 0; 0; 7; 7; 0].
Proof.
  cbv zeta. split; [repeat constructor; vm_compute; congruence|]. split.
  - intros a n I. cbn [In] in I. repeat destruct I as [I|I]; try discriminate I. destruct I.
  - assert (K : Forall op_ok [OMap 10000 (Some 0x7fff00000000); OLabel 7 0x7fff00000000 12000; OUnmap 0x7fff00000000 4096 0; OMap 5 (Some 0x7fff00000000); OLabel 9 (0x7fff00000000 + 3) 1; OMap 1 None])
      by (repeat constructor; vm_compute; congruence).
    assert (N : forall a n, ~ In (OUnmap a n (-1)) [OMap 10000 (Some 0x7fff00000000); OLabel 7 0x7fff00000000 12000; OUnmap 0x7fff00000000 4096 0; OMap 5 (Some 0x7fff00000000); OLabel 9 (0x7fff00000000 + 3) 1; OMap 1 None])
      by (intros a n I; cbn [In] in I; repeat destruct I as [I|I]; try discriminate I; destruct I).
    assert (H := C100_labels_partial _ mem_zero K N). cbn [map]. rewrite !H by (split; vm_compute; congruence).
    vm_compute. reflexivity.
Qed.

Print Assumptions C100_labels_partial.
Print Assumptions C100_contents.
Print Assumptions C100_failed_unmap_refuted.
Print Assumptions C100_race_refuted.
Print Assumptions C100_sequential.
