(** Proofs about compress_tdag.py. *)
From Coq Require Import NArith ZArith List Bool Lia.
From Verif Require Import M_Base M_Memory M_PyNode M_PySections M_PyFile M_PyCompress S_Compress P_Base P_Memory P_Section P_Bitmap P_OutputFile.
Import ListNotations.
Open Scope N_scope.

(** The loop of the reader, as a loop over the headers. *)
Fixpoint sections_at (f : file) (hs : list py_smeta) : Res (list (N * list N)) :=
  match hs with
  | [] => Ok []
  | h :: rest => do s <- py_section f h; do l <- sections_at f rest; Ok (s :: l)
  end.

Lemma loop_metas f n : forall off hs, read_metas f off n = Ok hs -> py_section_loop f off n = sections_at f hs.
Proof.
  induction n as [|n IH]; intros off hs; cbn [read_metas py_section_loop]; [now intros [= <-]|].
  destruct (fstruct f off 24) as [r| | |]; try discriminate. cbn [bind].
  destruct (read_metas f (off + 24) n) as [rest| | |] eqn:E; try discriminate. cbn [bind]. intros [= <-]. cbn [sections_at].
  destruct (py_section f (py_smeta_of r)); try reflexivity. cbn [bind]. now rewrite (IH _ _ E).
Qed.

Lemma read_metas_ok f n : forall off hs, length hs = n -> off + 24 * N.of_nat n <= f_len f ->
  (forall i h, get hs i = Some h -> h = py_smeta_of (load (f_bytes f) (off + 24 * i) 24)) -> read_metas f off n = Ok hs.
Proof.
  induction n as [|n IH]; intros off hs L B H; destruct hs as [|h hs]; try discriminate; [reflexivity|]. cbn [read_metas].
  unfold fstruct. destruct (N.ltb_spec (f_len f) (off + 24)) as [X|X]; [lia|]. cbn [bind].
  rewrite (IH (off + 24) hs).
  - cbn [bind]. rewrite (H 0 h (get_cons_0 _ _)), N.mul_0_r, N.add_0_r. reflexivity.
  - now inversion L.
  - lia.
  - intros i h' G. rewrite (H (1 + i) h'); [do 2 f_equal; lia|]. unfold get in *. rewrite N2Nat.inj_add. exact G.
Qed.

(** Where the sections are put. *)
Fixpoint placed (a : N) (hs os : list py_smeta) (stop : N) : Prop :=
  match hs, os with
  | [], [] => stop = a
  | h :: hs', o :: os' => a <= sm_offset o /\ sm_offset o < a + sm_align h /\ sm_offset o mod sm_align h = 0 /\
      sm_tag o = sm_tag h /\ sm_align o = sm_align h /\ sm_size o = sm_size h /\
      placed (sm_offset o + sm_size h) hs' os' stop
  | _, _ => False
  end.

Lemma compact_placed a hs stop : spaced a hs stop -> exists os, compact_all a hs = Ok os /\ placed a hs os stop.
Proof.
  induction 1 as [a|a h hs stop P R _ (os & E & Q)|a h hs stop P R _ (os & E & Q)]; cbn [compact_all]; [now exists []|..];
    unfold compact_section; destruct (N.eqb_spec (sm_align h) 0) as [Z|Z]; try lia; cbn [bind sm_offset sm_size];
    assert (D := N.div_mod a (sm_align h) Z); assert (M := N.mod_lt a (sm_align h) Z).
  - assert (X : sm_align h * round_div a (sm_align h) = a).
    { unfold round_div. rewrite R. destruct (N.ltb_spec (2 * 0) (sm_align h)); lia. }
    rewrite X, E. eexists. split; [reflexivity|]. cbn [placed sm_offset sm_tag sm_align sm_size]. repeat split; auto; lia.
  - assert (X : sm_align h * round_div a (sm_align h) = a + (sm_align h - a mod sm_align h)).
    { unfold round_div. destruct (N.ltb_spec (2 * (a mod sm_align h)) (sm_align h)); [lia|].
      destruct (N.ltb_spec (sm_align h) (2 * (a mod sm_align h))); [nia|].
      destruct R as [R|[_ R]]; [lia|]. rewrite <- N.negb_odd, R. cbn [negb]. nia. }
    rewrite X, E. eexists. split; [reflexivity|]. cbn [placed sm_offset sm_tag sm_align sm_size]. repeat split; auto; try lia.
    replace (a + (sm_align h - a mod sm_align h)) with ((a / sm_align h + 1) * sm_align h) by nia. now apply N.mod_mul.
Qed.

Lemma placed_le a hs : forall os stop, placed a hs os stop -> a <= stop.
Proof.
  revert a. induction hs as [|h hs IH]; intros a [|o os] stop; cbn [placed]; try contradiction; [lia|].
  intros (A & _ & _ & _ & _ & _ & P). apply IH in P. lia.
Qed.
Lemma placed_len a hs : forall os stop, placed a hs os stop -> length os = length hs.
Proof.
  revert a. induction hs as [|h hs IH]; intros a [|o os] stop; cbn [placed]; try contradiction; [reflexivity|].
  intros (_ & _ & _ & _ & _ & _ & P). cbn [length]. f_equal. eauto.
Qed.
Lemma placed_bound a hs : forall os stop, placed a hs os stop ->
  stop <= a + fold_right N.add 0 (map (fun h => sm_size h + sm_align h) hs).
Proof.
  revert a. induction hs as [|h hs IH]; intros a [|o os] stop; cbn [placed map fold_right]; try contradiction; [lia|].
  intros (A & B & _ & _ & _ & _ & P). apply IH in P. lia.
Qed.
Lemma placed_in a hs : forall os stop o, placed a hs os stop -> In o os ->
  a <= sm_offset o /\ sm_offset o + sm_size o <= stop /\ exists h, In h hs /\ sm_tag o = sm_tag h /\ sm_align o = sm_align h /\ sm_size o = sm_size h.
Proof.
  revert a. induction hs as [|h hs IH]; intros a [|o' os] stop o; cbn [placed]; try contradiction.
  intros (A & B & _ & T & L & Z & P) [<-|I].
  - apply placed_le in P as P'. split; [exact A|]. split; [lia|]. exists h. split; [now left|]. auto.
  - destruct (IH _ _ _ _ P I) as (X & Y & h' & I' & W). split; [lia|]. split; [exact Y|]. exists h'. split; [now right|exact W].
Qed.

(** The copied sections. *)
Definition arrived (f g : file) (i o : py_smeta) : Prop :=
  load (f_bytes g) (sm_offset o) (sm_size i) = load (f_bytes f) (sm_offset i) (sm_size i) /\
  (sm_size i = 0 \/ sm_offset o + sm_size i <= f_len g).

Lemma copies copied f : forall hs os a g stop, placed a hs os stop ->
  (forall h, In h hs -> copied (sm_size h) = sm_size h) -> (forall h, In h hs -> sm_offset h + sm_size h <= f_len f) ->
  let g' := copy_all copied f g hs os in
  (forall x, x < a -> f_bytes g' x = f_bytes g x) /\ Forall2 (arrived f g') hs os /\
  f_len g <= f_len g' /\ f_len g' <= N.max (f_len g) stop.
Proof.
  induction hs as [|h hs IH]; intros [|o os] a g stop P Cp I; cbn [placed] in P; try contradiction.
  - subst. cbn [copy_all]. split; [auto|]. split; [constructor|]. lia.
  - destruct P as (A & B & _ & _ & _ & Z & P). cbn [copy_all].
    assert (Ih : sm_offset h + sm_size h <= f_len f) by (apply I; now left).
    assert (Mn : N.min (copied (sm_size h)) (f_len f - sm_offset h) = sm_size h) by (rewrite Cp by (now left); lia).
    destruct (IH os _ (copy_section copied f g h o) stop P (fun h' H => Cp h' (or_intror H)) (fun h' H => I h' (or_intror H))) as (K1 & K2 & K3 & K4).
    assert (Ps := placed_le _ _ _ _ P). cbn zeta.
    assert (Q : (forall x, x < sm_offset o -> f_bytes (copy_section copied f g h o) x = f_bytes g x) /\
      load (f_bytes (copy_section copied f g h o)) (sm_offset o) (sm_size h) = load (f_bytes f) (sm_offset h) (sm_size h) /\
      f_len g <= f_len (copy_section copied f g h o) /\ f_len (copy_section copied f g h o) <= N.max (f_len g) (sm_offset o + sm_size h) /\
      (sm_size h = 0 \/ sm_offset o + sm_size h <= f_len (copy_section copied f g h o))).
    { unfold copy_section. rewrite Mn. destruct (N.eqb_spec (sm_size h) 0) as [E|E].
      - rewrite E. split; [auto|]. split; [reflexivity|]. split; [lia|]. split; [lia|auto].
      - cbn [f_bytes f_len]. split; [intros x X; apply store_other; lia|]. split.
        + rewrite <- (len_load (f_bytes f) (sm_offset h) (sm_size h)) at 2. apply load_store.
        + lia. }
    destruct Q as (Q1 & Q2 & Q3 & Q4 & Q5). split; [|split; [constructor; [|exact K2]|]].
    + intros x X. rewrite K1 by lia. apply Q1. lia.
    + split; [|destruct Q5; [auto|right; lia]]. rewrite <- Q2. apply load_ext. intros x X1 X2. apply K1. lia.
    + lia.
Qed.

(** The reader finds the same section. *)
Lemma same_section f g h o : arrived f g h o -> sm_offset h + sm_size h <= f_len f -> sm_tag o = sm_tag h -> sm_size o = sm_size h ->
  py_section g o = py_section f h.
Proof.
  intros [A B] I T Z. unfold py_section. rewrite T, Z.
  assert (E : fslice g (sm_offset o) (sm_offset o + sm_size h) = fslice f (sm_offset h) (sm_offset h + sm_size h)).
  { rewrite (fslice_in f) by exact I. rewrite <- A. destruct B as [B|B]; [|now apply fslice_in].
    rewrite B, N.add_0_r. unfold fslice. now rewrite N.sub_diag. }
  now rewrite E.
Qed.

Lemma same_sections f g : forall hs os a stop, placed a hs os stop -> Forall2 (arrived f g) hs os ->
  (forall h, In h hs -> sm_offset h + sm_size h <= f_len f) -> sections_at g os = sections_at f hs.
Proof.
  induction hs as [|h hs IH]; intros [|o os] a stop P F I; cbn [placed] in P; try contradiction; [reflexivity|].
  inversion F; subst. destruct P as (_ & _ & _ & T & _ & Z & P). cbn [sections_at].
  rewrite (same_section f g h o); auto; [|apply I; now left]. rewrite (IH os _ _ P); auto. intros h' H. apply I. now right.
Qed.

(** The written headers. *)
Lemma smeta_raw_len h : len (smeta_raw h) = 24.
Proof. unfold smeta_raw. rewrite !len_app, !len_le_bytes. reflexivity. Qed.
Lemma smeta_raw_round h : sm_tag h < two32 -> sm_align h < two32 -> sm_offset h < two64 -> sm_size h < two64 ->
  py_smeta_of (smeta_raw h) = h.
Proof.
  intros T A O Z. destruct h as [t al o z]. cbn [sm_tag sm_align sm_offset sm_size] in *. unfold py_smeta_of, smeta_raw.
  cbn [sm_tag sm_align sm_offset sm_size]. f_equal.
  - change (le_val (le_bytes 4 t) = t). exact (le_round 4 _ T).
  - change (le_val (le_bytes 4 al) = al). exact (le_round 4 _ A).
  - change (le_val (le_bytes 8 o) = o). exact (le_round 8 _ O).
  - change (le_val (le_bytes 8 z) = z). exact (le_round 8 _ Z).
Qed.

Lemma smeta_bounds f a : (forall x, f_bytes f x < 256) ->
  sm_tag (py_smeta_of (load (f_bytes f) a 24)) < two32 /\ sm_align (py_smeta_of (load (f_bytes f) a 24)) < two32 /\
  sm_size (py_smeta_of (load (f_bytes f) a 24)) < two64.
Proof.
  intros B. rewrite py_smeta_load. cbn [sm_tag sm_align sm_size].
  split; [exact (load_int_bound _ a 4 B)|]. split; [exact (load_int_bound _ (a + 4) 4 B)|exact (load_int_bound _ (a + 16) 8 B)].
Qed.

Lemma get_split {A} (l : list A) i x : get l i = Some x -> exists p q, l = p ++ x :: q /\ len p = i.
Proof.
  unfold get. intros H. apply nth_error_split in H as (p & q & -> & L). exists p, q. split; [reflexivity|]. unfold len. lia.
Qed.

Lemma compress_keeps copied f hs stop : (forall h, In h hs -> copied (sm_size h) = sm_size h) -> section_headers f hs -> sound_file f hs ->
  spaced (8 + 24 * len hs) hs stop -> stop < 2 ^ 64 ->
  exists g, compress copied f = Ok g /\ py_open g = py_open f /\ f_len g <= stop /\ section_headers g
    (match compact_all (8 + 24 * len hs) hs with Ok os => os | _ => [] end) /\
    py_section_count g = Ok (len hs).
Proof.
  intros Cp (n & C & L & B & H) [By Ins] Sp St. subst n.
  destruct (compact_placed _ _ _ Sp) as (os & E & P). rewrite E.
  assert (Lh : N.to_nat (len hs) = length hs) by (unfold len; lia).
  assert (Rh : read_metas f 8 (N.to_nat (len hs)) = Ok hs).
  { apply read_metas_ok; [now rewrite Lh|rewrite Lh; unfold len in *; lia|exact H]. }
  unfold compress. rewrite C. cbn [bind]. rewrite Rh. cbn [bind]. rewrite E. cbn [bind].
  destruct (copies copied f hs os _ (mkFile mem_zero 0) stop P Cp Ins) as (K1 & K2 & K3 & K4). cbn [f_len] in K3, K4.
  set (g := copy_all copied f (mkFile mem_zero 0) hs os) in *. set (header := load (f_bytes f) 0 8 ++ concat (map smeta_raw os)).
  assert (Lo := placed_len _ _ _ _ P). assert (Ps := placed_le _ _ _ _ P).
  assert (Lc : len (concat (map smeta_raw os)) = 24 * len hs).
  { rewrite (len_concat 24); [rewrite len_map; unfold len; rewrite Lo; lia|].
    apply Forall_forall. intros r X. apply in_map_iff in X as (q & <- & _). apply smeta_raw_len. }
  assert (Lhd : len header = 8 + 24 * len hs). { unfold header. rewrite len_app, len_load, Lc. reflexivity. }
  set (G := mkFile (store (f_bytes g) 0 header) (N.max (f_len g) (len header))).
  assert (CG : py_section_count G = Ok (len hs)).
  { rewrite <- C. unfold py_section_count, fstruct, G. cbn [f_len f_bytes].
    destruct (N.ltb_spec (N.max (f_len g) (len header)) (0 + 8)); [lia|]. destruct (N.ltb_spec (f_len f) (0 + 8)); [lia|]. cbn [bind].
    do 2 f_equal. assert (X := load_mid (f_bytes g) 0 [] (load (f_bytes f) 0 8) (concat (map smeta_raw os))).
    rewrite len_load in X. cbn [app] in X. change (len (@nil N)) with 0 in X. fold header in X. rewrite N.add_0_l in X. now rewrite X. }
  assert (HG : forall i h, get os i = Some h -> h = py_smeta_of (load (f_bytes G) (8 + 24 * i) 24)).
  { intros i o Go. destruct (get_split _ _ _ Go) as (p & q & Eo & Lp). unfold G. cbn [f_bytes].
    assert (X := load_mid (f_bytes g) 0 (load (f_bytes f) 0 8 ++ concat (map smeta_raw p)) (smeta_raw o) (concat (map smeta_raw q))).
    rewrite smeta_raw_len in X.
    assert (Y : (load (f_bytes f) 0 8 ++ concat (map smeta_raw p)) ++ smeta_raw o ++ concat (map smeta_raw q) = header).
    { unfold header. rewrite Eo, map_app, concat_app. cbn [map concat]. now rewrite <- !app_assoc. }
    rewrite Y in X. rewrite len_app, len_load, (len_concat 24), len_map, Lp in X.
    2:{ apply Forall_forall. intros r Z. apply in_map_iff in Z as (z & <- & _). apply smeta_raw_len. }
    replace (8 + 24 * i) with (0 + (8 + i * 24)) by lia. replace (i * 24) with (24 * i) in * by lia.
    rewrite X. symmetry.
    assert (Io : In o os) by (unfold get in Go; eapply nth_error_In; eauto).
    destruct (placed_in _ _ _ _ _ P Io) as (Q1 & Q2 & h & Ih & Q3 & Q4 & Q5).
    apply In_nth_error in Ih as (k & Gk). assert (Hk := H (N.of_nat k) h). unfold get in Hk. rewrite Nat2N.id in Hk.
    specialize (Hk Gk). destruct (smeta_bounds f (8 + 24 * N.of_nat k) By) as (Z1 & Z2 & Z3). rewrite <- Hk in Z1, Z2, Z3.
    apply smeta_raw_round; rewrite ?Q3, ?Q4, ?Q5; auto. change two64 with (2 ^ 64). lia. }
  assert (Ln : length os = N.to_nat (len hs)) by lia.
  assert (RG : read_metas G 8 (N.to_nat (len hs)) = Ok os).
  { apply read_metas_ok; auto. unfold G. cbn [f_len]. lia. }
  assert (SG : sections_at G os = sections_at f hs).
  { eapply same_sections; [exact P| |exact Ins].
    assert (W : forall o, In o os -> 8 + 24 * len hs <= sm_offset o) by (intros o Io; apply (placed_in _ _ _ _ _ P Io)).
    clear - K2 W Lhd. clearbody g header. revert Lhd W. generalize (8 + 24 * len hs) as hd. intros hd Lhd W. induction K2 as [|h o hs' os' A K IH]; constructor.
    - destruct A as [A1 A2]. split.
      + rewrite <- A1. unfold G. cbn [f_bytes]. apply load_store_other. right. rewrite Lhd. specialize (W o (or_introl eq_refl)). lia.
      + destruct A2; [auto|right]. unfold G. cbn [f_len]. lia.
    - apply IH. intros o' I. apply W. now right. }
  exists G. split; [reflexivity|]. split; [|split; [|split; [|exact CG]]].
  - unfold py_open. destruct (N.eqb_spec (f_len G) 0) as [Z|Z]; [unfold G in Z; cbn [f_len] in Z; lia|].
    destruct (N.eqb_spec (f_len f) 0) as [Z'|Z']; [lia|]. rewrite CG, C. cbn [bind].
    rewrite (loop_metas _ _ _ _ RG), (loop_metas _ _ _ _ Rh), SG. reflexivity.
  - unfold G. cbn [f_len]. lia.
  - exists (len hs). split; [exact CG|]. split; [unfold len; lia|]. split; [unfold G; cbn [f_len]; lia|exact HG].
Qed.
