(** The sections of the runtime in one memory: how the calls change them. *)
From Coq Require Import NArith ZArith List Bool Lia.
From Verif Require Import M_Base M_Memory M_Labels M_Section M_StringTable M_Sources M_Functions M_CfLog M_Bitmap M_OutputFile
  M_PySections M_PyFile M_Api S_Section S_Strings S_Functions S_CallStack S_Bitmap S_OutputFile S_Api
  P_Base P_Memory P_Section P_PyBase P_Strings P_Functions P_CfLog P_Bitmap P_OutputFile.
Import ListNotations.
Open Scope N_scope.

(** ** Records *)
Definition fd_value (g : reg) : Z := match reg_fd g with Some z => z | None => invalid_fd end.
Definition size_value (g : reg) : N := match reg_size g with Some n => n | None => invalid_size end.
Definition src_rec (p : N * reg) : list N := source_bytes (fst p) (fd_value (snd p)) (size_value (snd p)).
Definition src_content (offs : list N) (regs : list reg) : list N := concat (map src_rec (combine offs regs)).

Lemma len_src_rec p : len (src_rec p) = 16.
Proof. unfold src_rec, source_bytes. rewrite !len_app, !len_le_bytes. reflexivity. Qed.
Lemma recs_src l : recs_ok 16 (map src_rec l).
Proof. apply Forall_forall. intros r H. apply in_map_iff in H as (x & <- & _). apply len_src_rec. Qed.

Definition sink_entry : Type := list N * N * N * N.   (* padding, offset, label, index *)
Definition sink_rec (e : sink_entry) : list N := let '(pad, o, l, i) := e in sink_bytes pad o l i.
Definition sink_content (recs : list sink_entry) : list N := concat (map sink_rec recs).

Lemma len_sink_rec e : len (sink_rec e) = 16.
Proof.
  destruct e as [[[pad o] l] i]. unfold sink_rec, sink_bytes. rewrite !len_app, !len_le_bytes.
  assert (len (firstn 3 (pad ++ [0; 0; 0])) = 3).
  { unfold len. rewrite firstn_length, app_length. cbn [length]. lia. }
  rewrite H. reflexivity.
Qed.
Lemma recs_sink l : recs_ok 16 (map sink_rec l).
Proof. apply Forall_forall. intros r H. apply in_map_iff in H as (x & <- & _). apply len_sink_rec. Qed.

(** ** Regions *)
Record ghost := mkG {
  g_soffs : list N; g_acc : list (list N); g_offs : list N;
  g_recs : list sink_entry; g_evs : list (N * event_kind * N); g_bops : list bop }.

Definition placed (base : N) (r : rt) : Prop :=
  (sbeg (r_src r) = base + 200 /\ send (r_src r) = base + 4280) /\
  (sbeg (r_st r) = base + 17179873464 /\ send (r_st r) = base + 17180922040) /\
  (sbeg (r_sink r) = base + 17180922040 /\ send (r_sink r) = base + 17197699256) /\
  (bm_beg (r_bm r) = base + 17197699256 /\ bm_len (r_bm r) = 268435456 /\ bm_cap (r_bm r) = 2147483648) /\
  (sbeg (r_fn r) = base + 17466134712 /\ send (r_fn r) = base + 17466396852) /\
  (sbeg (r_ev r) = base + 17466396852 /\ send (r_ev r) = base + 34646266032) /\
  (sbeg (r_cf r) = base + 34646266032 /\ send (r_cf r) = base + 35720007856).

Lemma shipped_ranges base : base mod 4096 = 0 -> layout base shipped =
    [(base + 200, base + 4280); (base + 4280, base + 17179873464); (base + 17179873464, base + 17180922040);
     (base + 17180922040, base + 17197699256); (base + 17197699256, base + 17466134712);
     (base + 17466134712, base + 17466396852); (base + 17466396852, base + 34646266032);
     (base + 34646266032, base + 35720007856)].
Proof. intros B. rewrite (shipped_layout base B). reflexivity. Qed.

Record mem_inv (base : N) (r : rt) (regs : list reg) (names : list (list N)) (log : list cf_event) (g : ghost) : Prop := {
  mi_base : r_base r = base;
  mi_placed : placed base r;
  mi_only : only_inside (layout base shipped) (output_init base shipped) (r_mem r);
  mi_src : holds (r_mem r) (r_src r) (src_content (g_soffs g) regs);
  mi_snamed : named (g_acc g) (map reg_name regs) (g_soffs g);
  mi_fn : fn_inv (r_mem r) (r_st r) (r_fn r) (r_map r) names (g_acc g) (g_offs g);
  mi_perm : names_size (g_acc g) <= names_size (map reg_name regs ++ names);
  mi_sink : holds (r_mem r) (r_sink r) (sink_content (g_recs g));
  mi_ev : holds (r_mem r) (r_ev r) (ev_bytes (g_evs g));
  mi_cf : holds (r_mem r) (r_cf r) (cf_bytes log);
  mi_bm : binv (base + 17197699256) 268435456 2147483648 (r_mem r) (r_mem r) (r_bm r) (g_bops g);
  mi_strs : Forall is_bytes (g_acc g);
  mi_clean : forall a, base + 4280 <= a -> a < base + 17179873464 -> r_mem r a = 0
}.

(** ** Framing *)
Lemma holds_agree m m' s c : holds m s c -> (forall a, sbeg s <= a -> a < send s -> m' a = m a) -> holds m' s c.
Proof.
  intros ((K1 & K2 & K3) & W & L & Z) F. repeat split; auto.
  - rewrite <- L at 2. apply load_ext. intros x X1 X2. apply F; lia.
  - intros a A1 A2. rewrite F by lia. auto.
Qed.

Lemma fn_inv_agree m m' st fs f names acc offs : fn_inv m st fs f names acc offs ->
  (forall a, sbeg st <= a -> a < send st -> m' a = m a) -> (forall a, sbeg fs <= a -> a < send fs -> m' a = m a) ->
  fn_inv m' st fs f names acc offs.
Proof.
  intros [A B C D E F G H] X Y. constructor; auto; eapply holds_agree; eauto.
Qed.

Lemma binv_agree b l cap m0 m m' s ops : binv b l cap m0 m s ops -> all_bytes m' ->
  8 * bucket_count cap <= l -> (forall a, b <= a -> a < b + l -> m' a = m a) -> binv b l cap m' m' s ops.
Proof.
  intros [F B Bi U Sm Ft Fr] A L E. destruct F as (F1 & F2 & F3). constructor; auto.
  intros i Hi. rewrite <- (Bi i Hi). unfold mbit, bucket_value, load_int, bucket_addr.
  rewrite (load_ext m' m); [reflexivity|]. intros x X1 X2. apply E.
  - lia.
  - change (N.of_nat 8) with 8 in X2. lia.
Qed.

Lemma frame_bytes m m' s s' c : all_bytes m -> frame s m m' -> holds m' s' c ->
  sbeg s' = sbeg s -> send s' = send s -> Forall (fun b => b < two8) c -> all_bytes m'.
Proof.
  intros A F ((K1 & K2 & K3) & W & L & Z) E1 E2 C a.
  destruct (N.ltb_spec a (sbeg s)); [rewrite F by lia; apply A|].
  destruct (N.leb_spec (send s) a); [rewrite F by lia; apply A|].
  destruct (N.ltb_spec a (wit s')).
  - assert (G := get_load m' (sbeg s') (len c) (a - sbeg s') ltac:(lia)). rewrite L in G.
    replace (sbeg s' + (a - sbeg s')) with a in G by lia.
    rewrite Forall_forall in C. apply C. unfold get in G. eapply nth_error_In; eauto.
  - rewrite Z by lia. reflexivity.
Qed.

Lemma only_frame R m0 m m' b e : only_inside R m0 m -> In (b, e) R ->
  (forall a, a < b \/ e <= a -> m' a = m a) -> only_inside R m0 m'.
Proof. intros O I F a H. rewrite F by (apply H; exact I). now apply O. Qed.

Lemma only_frame2 R m0 m m' b e b' e' : only_inside R m0 m -> In (b, e) R -> In (b', e') R ->
  (forall a, (a < b \/ e <= a) -> (a < b' \/ e' <= a) -> m' a = m a) -> only_inside R m0 m'.
Proof. intros O I I' F a H. rewrite F by (apply H; assumption). now apply O. Qed.

(** ** Bytes *)
Lemma le_bytes_small k v : Forall (fun b => b < two8) (le_bytes k v).
Proof. apply le_bytes_byte. Qed.
Lemma Forall_concat_map {A} (f : A -> list N) l : (forall x, In x l -> Forall (fun b => b < two8) (f x)) ->
  Forall (fun b => b < two8) (concat (map f l)).
Proof. intros H. apply Forall_concat, Forall_forall. intros x I. apply in_map_iff in I as (y & <- & I). now apply H. Qed.
Lemma zeros_small n : Forall (fun b => b < two8) (zeros n).
Proof. apply Forall_forall. intros x H. apply repeat_spec in H. subst. reflexivity. Qed.

Lemma st_bytes_small acc : Forall is_bytes acc -> Forall (fun b => b < two8) (st_bytes acc).
Proof.
  intros F. unfold st_bytes. apply Forall_concat_map. intros x I. rewrite Forall_forall in F.
  unfold st_entry. apply Forall_app. split; [apply le_bytes_small|]. apply Forall_app. split; [exact (F x I)|apply zeros_small].
Qed.
Lemma src_content_small offs regs : Forall (fun b => b < two8) (src_content offs regs).
Proof.
  apply Forall_concat_map. intros x _. unfold src_rec, source_bytes.
  apply Forall_app; split; [|apply Forall_app; split]; apply le_bytes_small.
Qed.
Lemma fn_bytes_small offs : Forall (fun b => b < two8) (fn_bytes offs).
Proof. apply Forall_concat_map. intros x _. apply le_bytes_small. Qed.

(** ** Strings *)
Lemma names_size_app a b : names_size (a ++ b) = names_size a + names_size b.
Proof. induction a as [|x a IH]; cbn [app names_size]; [lia|]. rewrite IH. lia. Qed.
Lemma len_st_bytes acc : len (st_bytes acc) = names_size acc.
Proof.
  induction acc as [|x acc IH]; [reflexivity|]. unfold st_bytes in *. cbn [map concat names_size].
  rewrite len_app, len_entry, IH, allocated_len_spec. lia.
Qed.

Lemma named_snoc acc names offs x : named acc names offs ->
  named (acc ++ [x]) (names ++ [x]) (offs ++ [len (st_bytes acc)]).
Proof.
  intros H. apply Forall2_app; [apply named_ext; exact H|]. constructor; [|constructor].
  exists acc, []. auto.
Qed.

Lemma combine_snoc {A B} (l : list A) (l' : list B) a b : length l = length l' ->
  combine (l ++ [a]) (l' ++ [b]) = combine l l' ++ [(a, b)].
Proof. revert l'. induction l as [|x l IH]; intros [|y l'] H; try discriminate; cbn; [reflexivity|]. f_equal. apply IH. now inversion H. Qed.

Lemma src_content_snoc offs regs o g : length offs = length regs ->
  src_content (offs ++ [o]) (regs ++ [g]) = src_content offs regs ++ src_rec (o, g).
Proof.
  intros H. unfold src_content. rewrite combine_snoc by exact H. rewrite map_app, concat_app. cbn [map concat].
  now rewrite app_nil_r.
Qed.

Lemma named_length acc names offs : named acc names offs -> length offs = length names.
Proof. intros H. apply Forall2_length in H || (induction H; cbn; congruence). Qed.

Lemma len_src_content offs regs : length offs = length regs -> len (src_content offs regs) = 16 * len regs.
Proof.
  intros H. unfold src_content. rewrite (len_concat 16) by apply recs_src. rewrite len_map. f_equal.
  unfold len. rewrite combine_length, H, PeanoNat.Nat.min_id. reflexivity.
Qed.

Ltac placed_facts P := destruct P as ((?A1 & ?A2) & (?B1 & ?B2) & (?C1 & ?C2) & (?D1 & ?D2 & ?D3) & (?E1 & ?E2) & (?F1 & ?F2) & (?G1 & ?G2)).

(** add_source succeeds while there is room, with the next number. *)
Lemma inv_add_source base r regs names log g gr :
  mapped base shipped -> mem_inv base r regs names log g ->
  name_ok (reg_name gr) -> len regs < 255 -> names_size (map reg_name (regs ++ [gr]) ++ names) <= 2 ^ 20 ->
  exists m st src acc' soffs',
    add_source (r_mem r) (r_st r) (r_src r) (reg_name gr) (fd_value gr) (size_value gr) = Ok (Some (len regs), m, st, src) /\
    mem_inv base (set_files r m src st) (regs ++ [gr]) names log
      (mkG soffs' acc' (g_offs g) (g_recs g) (g_evs g) (g_bops g)).
Proof.
  intros [Bm Mp] I [Nb Nl] Lr Ln. destruct I as [Hb P O Hs Hn Hf Hp Hk He Hc Hm Hst Hcl].
  pose proof P as P'. placed_facts P'. pose proof Hf as [Fst Ffs Fnam Ffind Fdis Fstb Ffsb Fstrs].
  change (2 ^ 64) with two64 in Mp.
  destruct (add_string_spec (r_mem r) (r_st r) (g_acc g) (reg_name gr) Fst Fstb Nl) as [Fit _].
  assert (Room : sbeg (r_st r) + len (st_bytes (g_acc g)) + allocated_len (len (reg_name gr)) <= send (r_st r)).
  { rewrite len_st_bytes, allocated_len_spec. rewrite map_app, !names_size_app in Ln. cbn [map names_size] in Ln.
    rewrite names_size_app in Hp. change (2 ^ 20) with 1048576 in Ln. lia. }
  destruct (Fit Room) as (m1 & st1 & E1' & H1 & S1 & S2 & Fr1).
  assert (Ls := named_length _ _ _ Hn). rewrite map_length in Ls.
  set (o := len (st_bytes (g_acc g))) in *.
  assert (Osm : o < two32).
  { destruct Fst as ((K1 & K2 & K3) & W & _). fold o in W. lia. }
  set (rec := src_rec (o, gr)).
  assert (Hs1 : holds m1 (r_src r) (src_content (g_soffs g) regs)).
  { eapply holds_agree; [exact Hs|]. intros a A B. apply Fr1. lia. }
  assert (Lrec : len rec = 16) by apply len_src_rec.
  assert (Lr64 : len rec < two64) by (rewrite Lrec; reflexivity).
  assert (Cn := construct_none m1 (r_src r) _ rec Hs1 Lr64). rewrite Lrec, len_src_content in Cn by exact Ls.
  destruct (construct m1 (r_src r) rec) as [[[p m2] src2]|] eqn:C.
  2: { exfalso. assert (X : send (r_src r) < sbeg (r_src r) + 16 * len regs + 16) by now apply Cn. lia. }
  destruct (construct_some _ _ _ _ _ _ _ Hs1 Lr64 C) as (Q1 & Q2 & Q3 & Q4 & Q5 & Q6).
  rewrite len_src_content in Q1 by exact Ls.
  unfold rec in Q4. rewrite <- src_content_snoc in Q4 by exact Ls.
  exists m2, st1, src2, (g_acc g ++ [reg_name gr]), (g_soffs g ++ [o]). split.
  { unfold add_source. rewrite E1'. cbn [bind]. change (source_bytes o (fd_value gr) (size_value gr)) with rec. rewrite C.
    rewrite (holds_index src2 source_entry_size p (len regs)); [|unfold source_entry_size; lia|unfold source_entry_size; lia|lia].
    cbn [bind]. rewrite N.mod_small by (unfold two8; lia). reflexivity. }
  assert (B0 : all_bytes (r_mem r)) by apply Hm.
  assert (B1' : all_bytes m1).
  { eapply frame_bytes; [exact B0|exact Fr1|exact H1|assumption|assumption|].
    apply st_bytes_small. apply Forall_app. split; [exact Hst|]. constructor; [exact Nb|constructor]. }
  assert (B2' : all_bytes m2).
  { eapply frame_bytes; [exact B1'|exact Q5|exact Q4|assumption|assumption|]. apply src_content_small. }
  assert (Ag : forall a, (a < sbeg (r_st r) \/ send (r_st r) <= a) -> (a < sbeg (r_src r) \/ send (r_src r) <= a) -> m2 a = r_mem r a).
  { intros a X Y. rewrite Q5 by exact Y. apply Fr1. exact X. }
  constructor; cbn [set_files r_base r_mem r_src r_st r_sink r_fn r_ev r_cf r_bm r_map g_soffs g_acc g_offs g_recs g_evs g_bops].
  - exact Hb.
  - unfold placed. cbn [set_files r_base r_mem r_src r_st r_sink r_fn r_ev r_cf r_bm r_map].
    repeat split; congruence.
  - eapply only_frame2; [exact O| | |exact Ag]; rewrite shipped_ranges by exact Bm;
    [rewrite B1, B2|rewrite A1, A2]; cbn [In]; auto.
  - exact Q4.
  - rewrite map_app. apply named_snoc. exact Hn.
  - constructor; auto.
    + eapply holds_agree; [exact H1|]. intros a X Y. apply Q5. lia.
    + eapply holds_agree; [exact Ffs|]. intros a X Y. apply Ag; lia.
    + apply named_ext. exact Fnam.
    + unfold disjoint in *. lia.
    + lia.
    + apply Forall_app. split; [exact Fstrs|]. constructor; [exact Nl|constructor].
  - rewrite map_app, !names_size_app in *. cbn [map names_size]. lia.
  - eapply holds_agree; [exact Hk|]. intros a X Y. apply Ag; lia.
  - eapply holds_agree; [exact He|]. intros a X Y. apply Ag; lia.
  - eapply holds_agree; [exact Hc|]. intros a X Y. apply Ag; lia.
  - eapply binv_agree; [exact Hm|exact B2'|vm_compute; congruence|]. intros a X Y. apply Ag; lia.
  - apply Forall_app. split; [exact Hst|]. constructor; [exact Nb|constructor].
  - intros a X Y. rewrite Ag by lia. now apply Hcl.
Qed.

Lemma content_small m s c : holds m s c -> all_bytes m -> Forall (fun b => b < two8) c.
Proof.
  intros ((K1 & K2 & K3) & W & L & Z) A. apply Forall_forall. intros x I. apply In_nth_error in I as [k G].
  assert (k < length c)%nat by (apply nth_error_Some; congruence).
  assert (Y := get_load m (sbeg s) (len c) (N.of_nat k) ltac:(unfold len; lia)). rewrite L in Y.
  unfold get in Y. rewrite Nnat.Nat2N.id in Y. rewrite G in Y. inversion Y. apply A.
Qed.

Lemma holds_byte m s c a : holds m s c -> Forall (fun b => b < two8) c -> sbeg s <= a -> a < send s -> m a < two8.
Proof.
  intros ((K1 & K2 & K3) & W & L & Z) C A1 A2. destruct (N.ltb_spec a (wit s)).
  - assert (G := get_load m (sbeg s) (len c) (a - sbeg s) ltac:(lia)). rewrite L in G.
    replace (sbeg s + (a - sbeg s)) with a in G by lia.
    rewrite Forall_forall in C. apply C. unfold get in G. eapply nth_error_In; eauto.
  - rewrite Z by lia. reflexivity.
Qed.

Ltac agree H Ag := eapply holds_agree; [exact H|]; intros ?a ?X ?Y; apply Ag; lia.
Ltac rt_fields := cbn [set_files set_sink set_fns set_ev set_cf set_bm set_tab set_rd set_wr set_shadow rt_set_label
   r_base r_mem r_src r_st r_sink r_fn r_ev r_cf r_bm r_map r_tab r_rd r_wr r_shadow
   g_soffs g_acc g_offs g_recs g_evs g_bops].

(** Writing to the sink section. *)
Lemma inv_log_single base r regs names log g pad o l i :
  mapped base shipped -> mem_inv base r regs names log g -> is_bytes pad -> len (g_recs g) < 2 ^ 20 ->
  exists m sink,
    log_single pad (r_mem r) (r_sink r) o l i = (m, sink) /\
    mem_inv base (set_sink r m sink) regs names log
      (mkG (g_soffs g) (g_acc g) (g_offs g) (g_recs g ++ [(pad, o, l, i)]) (g_evs g) (g_bops g)).
Proof.
  intros [Bm Mp] I Pb Lr. destruct I as [Hb P O Hs Hn Hf Hp Hk He Hc Hm Hst Hcl].
  pose proof P as P'. placed_facts P'.
  set (e := (pad, o, l, i) : sink_entry).
  assert (L := len_sink_rec e). cbn [sink_rec e] in L.
  assert (L64 : len (sink_bytes pad o l i) < two64) by (rewrite L; reflexivity).
  assert (Lc : len (sink_content (g_recs g)) = 16 * len (g_recs g)).
  { unfold sink_content. rewrite (len_concat 16) by apply recs_sink. now rewrite len_map. }
  unfold log_single. destruct (construct (r_mem r) (r_sink r) (sink_bytes pad o l i)) as [[[p m'] s']|] eqn:C.
  2: { exfalso. apply (construct_none _ _ _ _ Hk L64) in C. rewrite L, Lc in C. change (2 ^ 20) with 1048576 in Lr. lia. }
  destruct (construct_some _ _ _ _ _ _ _ Hk L64 C) as (Q1 & Q2 & Q3 & Q4 & Q5 & Q6).
  exists m', s'. split; [reflexivity|].
  assert (Pad3 : Forall (fun b => b < two8) (sink_bytes pad o l i)).
  { unfold sink_bytes. repeat (apply Forall_app; split); try apply le_bytes_small.
    apply firstn_Forall. apply Forall_app. split; [exact Pb|]. repeat (apply Forall_cons || apply Forall_nil); reflexivity. }
  assert (B' : all_bytes m').
  { eapply frame_bytes; [apply Hm|exact Q5|exact Q4|assumption|assumption|].
    apply Forall_app. split; [|exact Pad3]. eapply content_small; [exact Hk|apply Hm]. }
  constructor; rt_fields; auto.
  - unfold placed. rt_fields. repeat split; congruence.
  - eapply only_frame; [exact O| |exact Q5]. rewrite shipped_ranges, C1, C2 by exact Bm. cbn [In]. auto 10.
  - agree Hs Q5.
  - eapply fn_inv_agree; [exact Hf| |]; intros a X Y; apply Q5; lia.
  - unfold sink_content. rewrite map_app, concat_app. cbn [map concat]. rewrite app_nil_r. exact Q4.
  - agree He Q5.
  - agree Hc Q5.
  - eapply binv_agree; [exact Hm|exact B'|vm_compute; congruence|]. intros a X Y. apply Q5; lia.
  - intros a X Y. rewrite Q5 by lia. now apply Hcl.
Qed.

(** Writing a function event. *)
Lemma inv_log_event base r regs names log g pad k fn m ev :
  mapped base shipped -> mem_inv base r regs names log g -> pad < 256 ->
  log_fn_event pad (r_mem r) (r_ev r) k fn = Ok (m, ev) ->
  mem_inv base (set_ev r m ev) regs names log
      (mkG (g_soffs g) (g_acc g) (g_offs g) (g_recs g) (g_evs g ++ [(pad, k, fn)]) (g_bops g)).
Proof.
  intros [Bm Mp] I Pb C. destruct I as [Hb P O Hs Hn Hf Hp Hk He Hc Hm Hst Hcl].
  pose proof P as P'. placed_facts P'.
  destruct (log_fn_event_spec (r_mem r) (r_ev r) (g_evs g) pad k fn He) as [S1 S2].
  destruct (N.ltb_spec (send (r_ev r)) (sbeg (r_ev r) + 4 * (len (g_evs g) + 1))) as [X|X].
  { rewrite (S2 X) in C. discriminate. }
  destruct (S1 X) as (m' & s' & E & Q4 & Q2 & Q3 & Q5). rewrite E in C. inversion C; subst m' s'. clear C S1 S2 E X.
  assert (B' : all_bytes m).
  { eapply frame_bytes; [apply Hm|exact Q5|exact Q4|assumption|assumption|].
    unfold ev_bytes. rewrite map_app, concat_app. apply Forall_app.
    split; [eapply content_small; [exact He|apply Hm]|]. cbn [map concat]. rewrite app_nil_r.
    unfold ev_rec, event_bytes. apply Forall_app. split; [|apply le_bytes_small].
    apply Forall_cons; [destruct k; reflexivity|]. apply Forall_cons; [exact Pb|constructor]. }
  constructor; rt_fields; auto.
  - unfold placed. rt_fields. repeat split; congruence.
  - eapply only_frame; [exact O| |exact Q5]. rewrite shipped_ranges, F1, F2 by exact Bm. cbn [In]. auto 10.
  - agree Hs Q5.
  - eapply fn_inv_agree; [exact Hf| |]; intros a X Y; apply Q5; lia.
  - agree Hk Q5.
  - agree Hc Q5.
  - eapply binv_agree; [exact Hm|exact B'|vm_compute; congruence|]. intros a X Y. apply Q5; lia.
  - intros a X Y. rewrite Q5 by lia. now apply Hcl.
Qed.

Lemma varint_small f : forall v, Forall (fun b => b < two8) (varint_loop f v).
Proof.
  assert (H : forall v, N.land v 127 < 128).
  { intros v. change 127 with (N.ones 7). rewrite N.land_ones. apply N.mod_lt. discriminate. }
  induction f as [|f IH]; intros v; cbn [varint_loop].
  - apply Forall_cons; [|constructor]. specialize (H v). unfold two8. lia.
  - destruct (128 <=? v).
    + apply Forall_cons; [|apply IH]. change two8 with (2 ^ 8). specialize (H v).
      destruct (N.eq_dec (N.lor 128 (N.land v 127)) 0) as [E|E]; [rewrite E; reflexivity|].
      apply N.log2_lt_pow2; [lia|]. rewrite N.log2_lor. change (N.log2 128) with 7.
      destruct (N.eq_dec (N.land v 127) 0) as [E'|E']; [rewrite E'; cbn; lia|].
      assert (N.log2 (N.land v 127) < 7) by (apply N.log2_lt_pow2; [lia|exact H]). lia.
    + apply Forall_cons; [|constructor]. specialize (H v). unfold two8. lia.
Qed.

(** Writing to the control-flow log. *)
Lemma inv_cf_log base r regs names log g e m cf :
  mapped base shipped -> mem_inv base r regs names log g -> cf_ok e ->
  cf_log (r_mem r) (r_cf r) e = Ok (m, cf) ->
  mem_inv base (set_cf r m cf) regs names (log ++ [e]) g.
Proof.
  intros [Bm Mp] I Ke C. destruct I as [Hb P O Hs Hn Hf Hp Hk He Hc Hm Hst Hcl].
  pose proof P as P'. placed_facts P'.
  destruct (cf_log_spec (r_mem r) (r_cf r) _ e Hc Ke) as [S1 S2].
  destruct (N.ltb_spec (send (r_cf r)) (sbeg (r_cf r) + len (cf_bytes log) + event_size e)) as [X|X].
  { rewrite (S2 X) in C. discriminate. }
  destruct (S1 X) as (m' & s' & E & Q4 & Q2 & Q3 & Q5). rewrite E in C. inversion C; subst m' s'. clear C S1 S2 E X.
  assert (B' : all_bytes m).
  { eapply frame_bytes; [apply Hm|exact Q5|exact Q4|assumption|assumption|].
    apply Forall_app. split; [eapply content_small; [exact Hc|apply Hm]|].
    destruct e; cbn [cf_buffer]; (apply Forall_cons; [reflexivity|]); try apply varint_small.
    apply Forall_app. split; apply varint_small. }
  constructor; rt_fields; auto.
  - unfold placed. rt_fields. repeat split; congruence.
  - eapply only_frame; [exact O| |exact Q5]. rewrite shipped_ranges, G1, G2 by exact Bm. cbn [In]. auto 10.
  - agree Hs Q5.
  - eapply fn_inv_agree; [exact Hf| |]; intros a X Y; apply Q5; lia.
  - agree Hk Q5.
  - agree He Q5.
  - unfold cf_bytes. rewrite map_app, concat_app. cbn [map concat]. rewrite app_nil_r. exact Q4.
  - eapply binv_agree; [exact Hm|exact B'|vm_compute; congruence|]. intros a X Y. apply Q5; lia.
  - intros a X Y. rewrite Q5 by lia. now apply Hcl.
Qed.

(** Registering source labels in the index. *)
Lemma inv_set_range base r regs names log g first n m bm :
  mapped base shipped -> mem_inv base r regs names log g -> first + n <= 2147483648 ->
  bm_set_range (r_mem r) (r_bm r) first n = Ok (m, bm) ->
  mem_inv base (set_bm r m bm) regs names log
    (mkG (g_soffs g) (g_acc g) (g_offs g) (g_recs g) (g_evs g) (g_bops g ++ [BRange first n])).
Proof.
  intros [Bm Mp] I Kr C. destruct I as [Hb P O Hs Hn Hf Hp Hk He Hc Hm Hst Hcl].
  pose proof P as P'. placed_facts P'.
  destruct (bm_step_inv (base + 17197699256) 268435456 2147483648 (r_mem r) (r_mem r) (r_bm r) (g_bops g) (BRange first n))
    as (m' & s' & E & Hm'); [reflexivity|vm_compute; congruence|exact Hm|right; exact Kr|].
  cbn [bm_step] in E. rewrite E in C. inversion C; subst m' s'. clear C.
  assert (Q5 : forall a, a < base + 17197699256 \/ base + 17466134712 <= a -> m a = r_mem r a).
  { intros a H. apply Hm'. change (bucket_count 2147483648) with 33554432. lia. }
  constructor; rt_fields; auto.
  - unfold placed. rt_fields. repeat split; try congruence; apply Hm'.
  - eapply only_frame; [exact O| |exact Q5]. rewrite shipped_ranges by exact Bm. cbn [In]. auto 10.
  - agree Hs Q5.
  - eapply fn_inv_agree; [exact Hf| |]; intros a X Y; apply Q5; lia.
  - agree Hk Q5.
  - agree He Q5.
  - agree Hc Q5.
  - eapply binv_agree; [exact Hm'|apply Hm'|vm_compute; congruence|]. reflexivity.
  - intros a X Y. rewrite Q5 by lia. now apply Hcl.
Qed.

(** Function names. *)
Lemma index_of_some x l i : index_of x l = Some i -> get l i = Some x.
Proof.
  revert i. induction l as [|y l IH]; intros i; cbn [index_of]; [discriminate|].
  destruct (bytes_eqb y x) eqn:E.
  - intros H. inversion H. apply bytes_eqb_spec in E. now subst.
  - destruct (index_of x l) as [k|]; cbn [option_map]; [|discriminate]. intros H. inversion H.
    unfold get in *. rewrite Nnat.N2Nat.inj_succ. cbn [nth_error]. apply IH. reflexivity.
Qed.
Lemma index_of_none x l : index_of x l = None -> ~ In x l.
Proof.
  induction l as [|y l IH]; cbn [index_of In]; [auto|].
  destruct (bytes_eqb y x) eqn:E; [discriminate|].
  destruct (index_of x l); cbn [option_map]; [discriminate|]. intros _ [->|H]; [|now apply IH].
  assert (bytes_eqb x x = true) by now apply bytes_eqb_spec. congruence.
Qed.

Lemma inv_add_mapping base r regs names log g x :
  mapped base shipped -> mem_inv base r regs names log g -> name_ok x ->
  (index_of x names = None -> names_size (map reg_name regs ++ names ++ [x]) <= 2 ^ 20 /\ len names < 65535) ->
  exists m st fs f acc' offs',
    add_mapping (r_mem r) (r_st r) (r_fn r) (r_map r) x =
      Ok (Some (match index_of x names with Some k => k | None => len names end), m, st, fs, f) /\
    mem_inv base (set_fns r m st fs f) regs
      (match index_of x names with Some _ => names | None => names ++ [x] end) log
      (mkG (g_soffs g) acc' offs' (g_recs g) (g_evs g) (g_bops g)).
Proof.
  intros [Bm Mp] I [Nb Nl] Lim. destruct I as [Hb P O Hs Hn Hf Hp Hk He Hc Hm Hst Hcl].
  pose proof P as P'. placed_facts P'.
  pose proof Hf as [Fst Ffs Fnam Ffind Fdis Fstb Ffsb Fstrs].
  destruct (index_of x names) as [k|] eqn:Ex.
  { apply index_of_some in Ex. apply Ffind in Ex. exists (r_mem r), (r_st r), (r_fn r), (r_map r), (g_acc g), (g_offs g).
    unfold add_mapping. rewrite Ex. split; [reflexivity|]. constructor; rt_fields; auto. }
  apply index_of_none in Ex. destruct (Lim eq_refl) as [Ln Lk]. clear Lim.
  destruct (add_mapping_spec _ _ _ _ _ _ _ x Hf Nl)
    as (o & m & st & fs & f & names' & acc' & offs' & E & Hf' & T1 & T2 & T3 & T4 & Fr & (ext & -> & Hext) & D).
  change (2 ^ 20) with 1048576 in Ln. rewrite !names_size_app in Ln. rewrite names_size_app in Hp. cbn [names_size] in Ln.
  destruct D as [(i & _ & G & _)|[(_ & -> & ->)|(_ & _ & _ & [R|R])]].
  { exfalso. apply Ex. unfold get in G. eapply nth_error_In; eauto. }
  2: { exfalso. apply R. unfold st_room. rewrite len_st_bytes, allocated_len_spec. lia. }
  2: { exfalso. lia. }
  exists m, st, fs, f, (g_acc g ++ ext), offs'. split; [exact E|].
  assert (Hst' : Forall is_bytes (g_acc g ++ ext)).
  { apply Forall_app. split; [exact Hst|]. destruct Hext as [->| ->]; constructor; auto. }
  pose proof Hf' as [Fst' Ffs' _ _ _ _ _ _].
  assert (B' : all_bytes m).
  { intros a. destruct (N.leb_spec (sbeg (r_st r)) a) as [X1|X1].
    2: { rewrite Fr by lia. apply Hm. }
    destruct (N.ltb_spec a (send (r_st r))) as [X2|X2].
    { apply (holds_byte m st _ a Fst'); [now apply st_bytes_small|lia|lia]. }
    destruct (N.leb_spec (sbeg (r_fn r)) a) as [X3|X3].
    2: { rewrite Fr by lia. apply Hm. }
    destruct (N.ltb_spec a (send (r_fn r))) as [X4|X4].
    { apply (holds_byte m fs _ a Ffs'); [apply fn_bytes_small|lia|lia]. }
    rewrite Fr by lia. apply Hm. }
  constructor; rt_fields; auto.
  - unfold placed. rt_fields. repeat split; congruence.
  - eapply only_frame2; [exact O| | |exact Fr]; rewrite shipped_ranges by exact Bm;
    [rewrite B1, B2|rewrite E1, E2]; cbn [In]; auto 10.
  - agree Hs Fr.
  - apply named_ext. exact Hn.
  - rewrite !names_size_app. cbn [names_size]. destruct Hext as [->| ->]; cbn [names_size]; lia.
  - agree Hk Fr.
  - agree He Fr.
  - agree Hc Fr.
  - eapply binv_agree; [exact Hm|exact B'|vm_compute; congruence|]. intros a X Y. apply Fr; lia.
  - intros a X Y. rewrite Fr by lia. now apply Hcl.
Qed.

(** ** Looking up a descriptor *)
Lemma int_round z : (- 2 ^ 31 <= z < 2 ^ 31)%Z -> int_of_bits (int_bits z) = z.
Proof.
  intros H. change (2 ^ 31)%Z with 2147483648%Z in H. unfold int_of_bits, int_bits.
  assert (M := Z.mod_pos_bound z 4294967296 ltac:(lia)).
  destruct (Z.ltb_spec z 0) as [S|S].
  - assert (E : (z mod 4294967296 = z + 4294967296)%Z).
    { symmetry. apply (Z.mod_unique z 4294967296 (-1)); lia. }
    rewrite E. destruct (N.ltb_spec (Z.to_N (z + 4294967296)) 2147483648) as [L|L]; lia.
  - rewrite Z.mod_small by lia. destruct (N.ltb_spec (Z.to_N z) 2147483648) as [L|L]; lia.
Qed.
Lemma int_bits_small z : int_bits z < two32.
Proof. unfold int_bits, two32. assert (M := Z.mod_pos_bound z 4294967296 ltac:(lia)). lia. Qed.

Definition reg_ok (g : reg) : Prop :=
  (forall fd, reg_fd g = Some fd -> (0 <= fd < 2 ^ 31)%Z) /\ (forall n, reg_size g = Some n -> n < 2 ^ 64 - 1).

Lemma fd_value_range g : reg_ok g -> (- 2 ^ 31 <= fd_value g < 2 ^ 31)%Z.
Proof. intros [H _]. unfold fd_value, invalid_fd. destruct (reg_fd g) as [z|]; [specialize (H z eq_refl)|]; lia. Qed.

Lemma get_combine {A B} (l : list A) (l' : list B) i a b : get l i = Some a -> get l' i = Some b -> get (combine l l') i = Some (a, b).
Proof.
  unfold get. generalize (N.to_nat i). clear i. intros n. revert l l'. induction n as [|n IH]; intros [|x l] [|y l']; cbn; try discriminate.
  - intros H1 H2. congruence.
  - apply IH.
Qed.
Lemma get_lt {A} (l : list A) i : i < len l -> exists x, get l i = Some x.
Proof.
  unfold get, len. intros H. destruct (nth_error l (N.to_nat i)) as [x|] eqn:E; [eauto|].
  apply nth_error_None in E. lia.
Qed.

Lemma src_fields m src offs regs i g : length offs = length regs ->
  holds m src (src_content offs regs) -> get regs i = Some g ->
  exists o, get offs i = Some o /\ entry m src 16 i = source_bytes o (fd_value g) (size_value g).
Proof.
  intros L H G.
  destruct (get_lt offs i) as [o Go].
  { unfold get in G. assert (N.to_nat i < length regs)%nat by (apply nth_error_Some; congruence). unfold len. lia. }
  exists o. split; [exact Go|]. unfold src_content in H.
  rewrite (holds_entry m src 16 _ i (src_rec (o, g)) H (recs_src _)); [reflexivity|].
  unfold get. apply map_nth_error. apply get_combine; assumption.
Qed.

Lemma app_inj_len {A} (a b c d : list A) : a ++ b = c ++ d -> len a = len c -> a = c /\ b = d.
Proof.
  revert c. induction a as [|x a IH]; intros [|y c] E L; rewrite ?len_cons, ?len_nil in L; cbn [app] in E; try lia.
  - auto.
  - inversion E; subst. destruct (IH c H1) as [-> ->]; [lia|]. auto.
Qed.
Lemma load_part m p a x b : load m p (len (a ++ x ++ b)) = a ++ x ++ b -> load m (p + len a) (len x) = x.
Proof.
  intros H. rewrite !len_app, !load_app in H.
  apply app_inj_len in H as [_ H]; [|now rewrite len_load]. apply app_inj_len in H as [H _]; [exact H|now rewrite len_load].
Qed.

Lemma src_fd_spec m src offs regs i g : length offs = length regs ->
  holds m src (src_content offs regs) -> get regs i = Some g -> reg_ok g -> src_fd m src i = fd_value g.
Proof.
  intros L H G K. destruct (src_fields m src offs regs i g L H G) as (o & Go & E).
  unfold src_fd, load_int, source_entry_size. unfold entry in E.
  rewrite <- (int_round (fd_value g)) by now apply fd_value_range. f_equal.
  assert (E4 : load m (sbeg src + 16 * i + 4) 4 = le_bytes 4 (int_bits (fd_value g))).
  { exact (load_part m (sbeg src + 16 * i) (le_bytes 4 o) (le_bytes 4 (int_bits (fd_value g))) (le_bytes 8 (size_value g)) E). }
  change (N.of_nat 4) with 4. rewrite E4. exact (le_round 4 _ (int_bits_small _)).
Qed.

(** The registration number found for a descriptor is the most recent one. *)
Lemma last_with_snoc regs g fd : last_with (regs ++ [g]) fd =
  match reg_fd g with
  | Some fd' => if (fd' =? fd)%Z then Some (len regs) else last_with regs fd
  | None => last_with regs fd
  end.
Proof.
  induction regs as [|x regs IH]; cbn [app last_with].
  - destruct (reg_fd g) as [z|]; [destruct (z =? fd)%Z|]; reflexivity.
  - rewrite IH. destruct (reg_fd g) as [z|]; [destruct (z =? fd)%Z|]; try reflexivity.
    rewrite len_cons. f_equal. lia.
Qed.

Lemma last_with_bound regs fd i : last_with regs fd = Some i -> i < len regs.
Proof.
  revert i. induction regs as [|x regs IH]; intros i; cbn [last_with]; [discriminate|]. rewrite len_cons.
  destruct (last_with regs fd) as [k|].
  - intros H. inversion H. specialize (IH k eq_refl). lia.
  - destruct (reg_fd x) as [z|]; [destruct (z =? fd)%Z|]; try discriminate. intros H. inversion H. lia.
Qed.

Lemma find_reverse_spec m src offs regs fd : length offs = length regs ->
  holds m src (src_content offs regs) -> Forall reg_ok regs -> (0 <= fd)%Z ->
  forall n, (n <= length regs)%nat -> find_reverse m src fd n = last_with (firstn n regs) fd.
Proof.
  intros L H K F. induction n as [|n IH]; intros Hn; [reflexivity|].
  cbn [find_reverse]. destruct (nth_error regs n) as [g|] eqn:G.
  2: { apply nth_error_None in G. lia. }
  assert (G' : get regs (N.of_nat n) = Some g) by (unfold get; rewrite Nnat.Nat2N.id; exact G).
  assert (Kg : reg_ok g) by (rewrite Forall_forall in K; apply K; eapply nth_error_In; eauto).
  rewrite (src_fd_spec m src offs regs _ g L H G' Kg).
  assert (Fs : firstn (S n) regs = firstn n regs ++ [g]).
  { clear -G. revert n G. induction regs as [|x l IHl]; intros [|n] G; cbn in *; try discriminate; [congruence|]. f_equal. now apply IHl. }
  rewrite Fs, last_with_snoc, IH by lia.
  assert (Len : len (firstn n regs) = N.of_nat n) by (unfold len; rewrite firstn_length; lia).
  unfold fd_value. destruct (reg_fd g) as [z|].
  - destruct (z =? fd)%Z; [now rewrite Len|reflexivity].
  - destruct (Z.eqb_spec invalid_fd fd) as [E|E]; [unfold invalid_fd in E; lia|reflexivity].
Qed.

Lemma inv_mapping_idx base r regs names log g fd :
  mapped base shipped -> mem_inv base r regs names log g -> Forall reg_ok regs -> len regs <= 255 -> (0 <= fd)%Z ->
  mapping_idx (r_mem r) (r_src r) fd = Ok (last_with regs fd).
Proof.
  intros _ I K L F. destruct I as [Hb P O Hs Hn Hf Hp Hk He Hc Hm Hst Hcl].
  placed_facts P. assert (Ls := named_length _ _ _ Hn). rewrite map_length in Ls.
  unfold mapping_idx.
  assert (Cn : sect_count (r_src r) source_entry_size = len regs).
  { change source_entry_size with 16. unfold src_content in Hs. rewrite (holds_count _ _ 16 _ ltac:(lia) Hs (recs_src _)).
    rewrite len_map. unfold len. rewrite combine_length, Ls, PeanoNat.Nat.min_id. reflexivity. }
  rewrite Cn. rewrite (find_reverse_spec _ _ _ regs fd Ls Hs K F) by (unfold len; lia).
  assert (Fs : firstn (N.to_nat (len regs)) regs = regs).
  { unfold len. rewrite Nnat.Nat2N.id. apply firstn_all. }
  rewrite Fs. destruct (last_with regs fd) as [k|] eqn:E; [|reflexivity].
  apply last_with_bound in E. rewrite (holds_index (r_src r) source_entry_size _ k); [|unfold source_entry_size; lia|reflexivity|unfold source_entry_size; lia].
  cbn [bind]. rewrite N.mod_small by (unfold two8; lia). reflexivity.
Qed.

(** ** The start *)
Lemma all_bytes_store m p bs : all_bytes m -> Forall (fun b => b < two8) bs -> all_bytes (store m p bs).
Proof.
  intros A B a. unfold store. destruct ((p <=? a) && (a <? p + len bs)); [|apply A].
  destruct (nth_in_or_default (N.to_nat (a - p)) bs 0) as [I| ->]; [|reflexivity].
  rewrite Forall_forall in B. now apply B.
Qed.

Lemma write_offsets_bytes base ranges : forall m i, all_bytes m -> all_bytes (write_offsets m base i ranges).
Proof.
  induction ranges as [|[b e] r IH]; intros m i A; cbn [write_offsets]; [exact A|].
  apply IH. apply all_bytes_store; [exact A|apply le_bytes_small].
Qed.

Lemma init_all_bytes base : all_bytes (output_init base shipped).
Proof.
  unfold output_init. apply write_offsets_bytes. apply all_bytes_store; [intros a; reflexivity|].
  vm_compute. repeat (apply Forall_cons; [reflexivity|]). apply Forall_nil.
Qed.

Lemma init_zero base a : base mod 4096 = 0 -> base + 200 <= a -> output_init base shipped a = 0.
Proof.
  intros B H. unfold output_init. rewrite write_offsets_wr, wr_other.
  - rewrite store_other; [reflexivity|]. replace (len (header_bytes shipped)) with 200 by reflexivity. lia.
  - intros j J1 J2. rewrite shipped_ranges in J2 by exact B. rewrite len_map in J2.
    unfold smeta_addr, meta_size, smeta_size. cbn [len length] in J2. change (len _) with 8 in J2. lia.
Qed.

Lemma rt_new_spec base : mapped base shipped -> exists r, rt_new base = Ok r /\
  mem_inv base r [] [] [] (mkG [] [] [] [] [] []) /\
  r_tab r = labels_new /\ (forall a, r_shadow r a = 0) /\ (forall i, r_rd r i = 0) /\ (forall i, r_wr r i = 0).
Proof.
  intros [Bm Mp]. change (2 ^ 64) with two64 in Mp.
  assert (R : 35720007856 <= required_allocation_size shipped) by (vm_compute; discriminate).
  assert (D := N.div_mod base 4096 ltac:(lia)). rewrite Bm in D.
  assert (Al : forall k, k mod 8 = 0 -> (base + k) mod 8 = 0).
  { intros k K. rewrite D. replace (4096 * (base / 4096) + 0 + k) with (k + (512 * (base / 4096)) * 8) by lia.
    now rewrite N.mod_add by lia. }
  assert (Al4 : forall k, k mod 4 = 0 -> (base + k) mod 4 = 0).
  { intros k K. rewrite D. replace (4096 * (base / 4096) + 0 + k) with (k + (1024 * (base / 4096)) * 4) by lia.
    now rewrite N.mod_add by lia. }
  assert (Al2 : forall k, k mod 2 = 0 -> (base + k) mod 2 = 0).
  { intros k K. rewrite D. replace (4096 * (base / 4096) + 0 + k) with (k + (2048 * (base / 4096)) * 2) by lia.
    now rewrite N.mod_add by lia. }
  unfold rt_new. rewrite shipped_ranges by exact Bm.
  assert (N1 : src_new (base + 200) (base + 4280) = Ok (sect_new (base + 200) (base + 4280))).
  { unfold src_new, fixed_new, src_align_of. rewrite Al by reflexivity.
    replace (base + 4280 - (base + 200)) with 4080 by lia. reflexivity. }
  assert (N2 : fixed_new labels_align_of 8 (base + 4280) (base + 17179873464) = Ok (sect_new (base + 4280) (base + 17179873464))).
  { unfold fixed_new, labels_align_of. rewrite Al by reflexivity.
    replace (base + 17179873464 - (base + 4280)) with (17179873464 - 4280) by lia. reflexivity. }
  assert (N3 : st_new (base + 17179873464) (base + 17180922040) = Ok (sect_new (base + 17179873464) (base + 17180922040))).
  { unfold st_new. replace (base + 17180922040 - (base + 17179873464)) with (17180922040 - 17179873464) by lia. reflexivity. }
  assert (N4 : fixed_new sink_align_of sink_entry_size (base + 17180922040) (base + 17197699256) = Ok (sect_new (base + 17180922040) (base + 17197699256))).
  { unfold fixed_new, sink_align_of. rewrite Al by reflexivity.
    replace (base + 17197699256 - (base + 17180922040)) with (17197699256 - 17180922040) by lia. reflexivity. }
  assert (N5 : bm_new index_capacity (base + 17197699256) (base + 17466134712) = Ok (mkBm (base + 17197699256) 268435456 2147483648 0)).
  { unfold bm_new. replace (base + 17466134712 - (base + 17197699256)) with 268435456 by lia. reflexivity. }
  assert (N6 : fixed_new fn_align_of fn_entry_size (base + 17466134712) (base + 17466396852) = Ok (sect_new (base + 17466134712) (base + 17466396852))).
  { unfold fixed_new, fn_align_of. rewrite Al4 by reflexivity.
    replace (base + 17466396852 - (base + 17466134712)) with (17466396852 - 17466134712) by lia. reflexivity. }
  assert (N7 : fixed_new ev_align_of ev_entry_size (base + 17466396852) (base + 34646266032) = Ok (sect_new (base + 17466396852) (base + 34646266032))).
  { unfold fixed_new, ev_align_of. rewrite Al2 by reflexivity.
    replace (base + 34646266032 - (base + 17466396852)) with (34646266032 - 17466396852) by lia. reflexivity. }
  rewrite N1, N2, N3, N4, N5, N6, N7. cbn [bind].
  eexists. split; [reflexivity|]. rt_fields. split; [|auto].
  assert (Z := fun a => init_zero base a Bm). assert (AB := init_all_bytes base).
  assert (Hn : forall b e, base + 200 <= b -> b <= e -> e < two64 -> holds (output_init base shipped) (sect_new b e) []).
  { intros b e X1 X2 X3. apply holds_new; auto. intros a Y1 Y2. apply Z. lia. }
  constructor; rt_fields.
  - reflexivity.
  - unfold placed. rt_fields. unfold sect_new. cbn [sbeg send bm_beg bm_len bm_cap]. auto 20.
  - intros a _. reflexivity.
  - apply Hn; lia.
  - constructor.
  - constructor.
    + apply Hn; lia.
    + apply Hn; lia.
    + constructor.
    + intros x i. cbn [fn_find]. rewrite get_nil. split; discriminate.
    + unfold disjoint, sect_new. cbn [sbeg send]. lia.
    + unfold sect_new. cbn [sbeg send]. unfold two32. lia.
    + unfold sect_new. cbn [sbeg send]. unfold fn_allocation_size, fn_entry_size. lia.
    + constructor.
  - cbn. lia.
  - apply Hn; lia.
  - apply Hn; lia.
  - apply Hn; lia.
  - apply binv_new; [exact AB|]. intros a X Y. apply Z. lia.
  - constructor.
  - intros a X Y. apply Z. lia.
Qed.
