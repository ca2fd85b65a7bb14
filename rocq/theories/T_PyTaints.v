(** C62, C63, C64: the collections in which the Python API hands out tainted bytes. *)
From Coq Require Import Permutation NArith ZArith List Bool Lia Sorted.
From Verif Require Import M_Base M_OutputFile M_PyFile M_PySections M_PyAnalysis M_PyTaints S_OutputFile S_Api S_History S_PyAnalysis S_Forest S_PyTaints
  P_Base P_Api P_Forest P_PyTaints T_Forest.
Import ListNotations.
Open Scope N_scope.

(** ** C62: collections *)
(** A collection holds the bytes it was made of, each once; iteration yields those of one
    source in increasing order and one source after the other; the length is their number. *)
Theorem C62_collection : forall l,
  let t := taints_new l in
  (forall x o, tainted (taints_iter t) x o <-> tainted l x o) /\
  ForallOrdPairs (fun a b => same_input (fst a) (fst b) -> snd a < snd b) (taints_iter t) /\
  (exists groups, taints_iter t = concat groups /\
     Forall (fun g => exists x, Forall (fun b => same_input (fst b) x) g) groups /\
     ForallOrdPairs (fun g h => forall a b, In a g -> In b h -> ~ same_input (fst a) (fst b)) groups) /\
  taints_len t = len (taints_iter t) /\
  (taints_bool t = true <-> exists x o, tainted l x o).
Proof.
  intros l. cbv zeta. destruct (taints_spec l) as [G T]. split; [exact T|]. split; [now apply grouped_iter|]. split; [|split; [apply taints_len_iter|]].
  - exists (map snd (taints_new l)). split; [reflexivity|]. destruct G as [Di F]. split.
    + rewrite Forall_forall in *. intros g I. apply in_map_iff in I as (p & <- & I). exists (fst p). now destruct (F p I) as (_ & So & _).
    + clear T. induction (taints_new l) as [|p d IH]; [constructor|]. inversion Di as [|p' d' D1 D2]; subst. inversion F as [|p' d' (N0 & So & Ri) F2]; subst. cbn [map]. constructor; [|now apply IH].
      rewrite Forall_forall in *. intros g I. apply in_map_iff in I as (q & <- & I). intros a b Ia Ib Sm. destruct (F2 q I) as (_ & So2 & _). unfold of_source in *.
      rewrite Forall_forall in *. apply (D1 q I). apply same_trans with (fst a); [apply same_sym; auto|]. apply same_trans with (fst b); auto.
  - unfold taints_bool. rewrite taints_len_iter. split.
    + intros H. destruct (taints_iter (taints_new l)) as [|b r] eqn:E; [discriminate|]. exists (fst b), (snd b). apply T. exists (fst b). split; [left; now destruct b|apply same_refl_in].
    + intros (x & o & H). apply T in H as (y & I & _). destruct (taints_iter (taints_new l)); [destruct I|]. rewrite len_cons. apply negb_true_iff, N.eqb_neq. lia.
Qed.

(** The sources are those of the bytes, each once. *)
Theorem C62_sources : forall l,
  (forall x, (exists y, In y (taints_sources (taints_new l)) /\ same_input x y) <-> exists o, tainted l x o) /\
  ForallOrdPairs (fun x y => ~ same_input x y) (taints_sources (taints_new l)).
Proof.
  intros l. unfold taints_sources. destruct (taints_spec l) as [[Di F] T]. split.
  - intros x. rewrite Forall_forall in F. split.
    + intros (y & I & Sm). apply in_map_iff in I as ((y' & s) & E & I). cbn [fst] in E. subst y'. destruct (F _ I) as (N0 & So & _). cbn [fst snd] in *.
      destruct s as [|[z o] s]; [congruence|]. inversion So as [|b' s' S1 S2]; subst. cbn [fst] in S1. exists o. apply T. exists z. split.
      * apply in_concat. exists ((z, o) :: s). split; [apply in_map_iff; exists (y, (z, o) :: s); auto|now left].
      * apply same_trans with y; [exact Sm|now apply same_sym].
    + intros (o & H). apply T in H as (y & I & Sm). apply in_concat in I as (s & I & J). apply in_map_iff in I as (p & <- & I). destruct (F p I) as (_ & So & _).
      exists (fst p). split; [now apply in_map|]. unfold of_source in So. rewrite Forall_forall in So. apply same_trans with y; [exact Sm|exact (So _ J)].
  - unfold distinct in Di. induction (taints_new l) as [|p d IH]; [constructor|]. inversion Di as [|p' d' D1 D2]; subst. cbn [map]. constructor.
    + rewrite Forall_forall in *. intros q I. apply in_map_iff in I as (q' & <- & I). auto.
    + clear - D2. induction d as [|q d IH]; [constructor|]. inversion D2 as [|q' d' D3 D4]; subst. cbn [map]. constructor; [|auto].
      rewrite Forall_forall in *. intros r I. apply in_map_iff in I as (r' & <- & I). auto.
Qed.

Theorem C62_from_source : forall l x y o,
  tainted (taints_iter (taints_from (taints_new l) x)) y o <-> tainted l y o /\ same_input y x.
Proof. exact taints_from_spec. Qed.

(** The difference of two collections: the bytes of the one that are not in the other, each
    once, sorted by uid and offset. *)
Theorem C62_diff : forall l1 l2,
  let d := taint_diff (taints_new l1) (taints_new l2) in
  (forall x o, tainted (fst d) x o <-> tainted l1 x o /\ ~ tainted l2 x o) /\
  (forall x o, tainted (snd d) x o <-> tainted l2 x o /\ ~ tainted l1 x o) /\
  (forall s, s = fst d \/ s = snd d ->
     ForallOrdPairs (fun a b => ~ (same_input (fst a) (fst b) /\ snd a = snd b)) s /\
     ForallOrdPairs (fun a b => (in_uid (fst a) < in_uid (fst b))%Z \/ (in_uid (fst a) = in_uid (fst b) /\ snd a <= snd b)) s) /\
  (diff_bool (taints_new l1) (taints_new l2) = false <-> forall x o, tainted l1 x o <-> tainted l2 x o).
Proof.
  intros l1 l2. cbv zeta. unfold diff_bool, taint_diff. cbv zeta. cbn [fst snd].
  destruct (sorted_diff (taints_new l1) (taints_new l2)) as (O1 & S1 & T1). destruct (sorted_diff (taints_new l2) (taints_new l1)) as (O2 & S2 & T2).
  assert (I1 := proj2 (taints_spec l1)). assert (I2 := proj2 (taints_spec l2)).
  assert (Q1 : forall x o, tainted (sort_bytes (set_minus (set_of (taints_iter (taints_new l1))) (set_of (taints_iter (taints_new l2))))) x o <-> tainted l1 x o /\ ~ tainted l2 x o)
    by (intros x o; now rewrite T1, I1, I2).
  assert (Q2 : forall x o, tainted (sort_bytes (set_minus (set_of (taints_iter (taints_new l2))) (set_of (taints_iter (taints_new l1))))) x o <-> tainted l2 x o /\ ~ tainted l1 x o)
    by (intros x o; now rewrite T2, I1, I2).
  split; [exact Q1|]. split; [exact Q2|]. split; [intros s [->| ->]; split; assumption|]. clear T1 T2 O1 O2 S1 S2.
  assert (Dec : forall l x o, tainted l x o \/ ~ tainted l x o).
  { intros l x o. destruct (existsb (byte_eqb (x, o)) l) eqn:E; [left; now apply existsb_tainted in E|right]. intros H. assert (E2 := proj2 (existsb_tainted (x, o) l) H). congruence. }
  destruct (sort_bytes (set_minus (set_of (taints_iter (taints_new l1))) (set_of (taints_iter (taints_new l2))))) as [|b r].
  - destruct (sort_bytes (set_minus (set_of (taints_iter (taints_new l2))) (set_of (taints_iter (taints_new l1))))) as [|b r].
    + split; [|reflexivity]. intros _ x o. split; intros H.
      * destruct (Dec l2 x o) as [K|K]; [exact K|]. destruct (proj2 (Q1 x o)) as (y & [] & _). auto.
      * destruct (Dec l1 x o) as [K|K]; [exact K|]. destruct (proj2 (Q2 x o)) as (y & [] & _). auto.
    + split; [discriminate|]. intros H. exfalso. destruct (proj1 (Q2 (fst b) (snd b))) as [K1 K2]; [exists (fst b); split; [left; now destruct b|apply same_refl_in]|]. now apply K2, H.
  - split; [discriminate|]. intros H. exfalso. destruct (proj1 (Q1 (fst b) (snd b))) as [K1 K2]; [exists (fst b); split; [left; now destruct b|apply same_refl_in]|]. now apply K2, H.
Qed.

(** ** C63: regions *)
(** The regions of a collection cover its bytes and no others; they are not empty and no
    byte is in two of them. *)
Theorem C63_regions : forall l,
  let rs := taints_regions (taints_new l) in
  (forall x o, covered rs x o <-> tainted l x o) /\ ForallOrdPairs disjoint rs /\ Forall (fun r => 0 < rg_length r) rs.
Proof. exact taints_regions_spec. Qed.

(** Full statement: no two regions of the same source are adjacent, so that the regions are
    the maximal runs of tainted bytes.  Proved for collections of bytes of one source, where
    the regions also come in increasing order; refuted otherwise. *)
Theorem C63_maximal_partial : forall l x, (forall b, In b l -> same_input (fst b) x) ->
  ForallOrdPairs (fun r1 r2 => rg_offset r1 + rg_length r1 < rg_offset r2) (taints_regions (taints_new l)).
Proof. exact taints_regions_one. Qed.

Definition in_a : py_input := mkInput 3 ([], [[97]]) 9.
Definition in_b : py_input := mkInput 4 ([], [[98]]) 9.
Theorem C63_maximal_refuted : ~ (forall l r1 r2, In r1 (taints_regions (taints_new l)) -> In r2 (taints_regions (taints_new l)) ->
  same_input (rg_source r1) (rg_source r2) -> rg_offset r1 + rg_length r1 <> rg_offset r2).
Proof.
  intros H. apply (H [(in_a, 0); (in_b, 0); (in_b, 1)] (mkRegion in_b 0 1) (mkRegion in_b 1 1)); [vm_compute; tauto|vm_compute; tauto|apply same_refl_in|reflexivity].
Qed.
(** The documentation of regions() also says that they come in increasing order of offset. *)
Theorem C63_increasing_refuted : ~ (forall l, ForallOrdPairs (fun r1 r2 => rg_offset r1 <= rg_offset r2) (taints_regions (taints_new l))).
Proof.
  intros H. specialize (H [(in_a, 5); (in_b, 0)]). vm_compute in H. inversion H as [|r rs F G]; subst. inversion F as [|r' rs' K L]; subst. now apply K.
Qed.

(** The regions of a difference, if uids tell inputs apart; refuted otherwise: descriptors
    serve as uids, and a descriptor can be used again for another file. *)
Theorem C63_diff_regions_partial : forall l1 l2, uids_differ (l1 ++ l2) ->
  let d := diff_regions (taints_new l1) (taints_new l2) in
  (forall x o, covered (fst d) x o <-> tainted l1 x o /\ ~ tainted l2 x o) /\ ForallOrdPairs disjoint (fst d) /\
  (forall x o, covered (snd d) x o <-> tainted l2 x o /\ ~ tainted l1 x o) /\ ForallOrdPairs disjoint (snd d).
Proof.
  intros l1 l2 U. destruct (C62_diff l1 l2) as (Q1 & Q2 & Q3 & _). cbv zeta in *. unfold diff_regions. cbv zeta. cbn [fst snd].
  assert (Sub : forall s l, (forall x o, tainted s x o -> tainted l x o) -> (forall b, In b l -> In b (l1 ++ l2)) -> uids_differ s).
  { intros s l H I a b Ia Ib E. destruct (H (fst a) (snd a)) as (y & J & K1 & K2); [exists (fst a); split; [now destruct a|apply same_refl_in]|].
    destruct (H (fst b) (snd b)) as (z & J2 & L1 & L2); [exists (fst b); split; [now destruct b|apply same_refl_in]|].
    rewrite K2, L2. apply (U (y, snd a) (z, snd b)); [now apply I|now apply I|]. cbn [fst]. congruence. }
  destruct (Q3 (fst (taint_diff (taints_new l1) (taints_new l2)))) as [O1 S1]; [now left|].
  destruct (Q3 (snd (taint_diff (taints_new l1) (taints_new l2)))) as [O2 S2]; [now right|].
  destruct (sorted_regions _ S1 O1) as (R1 & R2 & _).
  { apply Sub with l1; [intros x o H; now apply Q1 in H|intros b I; apply in_or_app; now left]. }
  destruct (sorted_regions _ S2 O2) as (R3 & R4 & _).
  { apply Sub with l2; [intros x o H; now apply Q2 in H|intros b I; apply in_or_app; now right]. }
  split; [intros x o; now rewrite R1|]. split; [exact R2|]. split; [intros x o; now rewrite R3|exact R4].
Qed.
(** to_regions() on bytes in any order. *)
Theorem C63_to_regions_partial : forall l, uids_differ l ->
  ForallOrdPairs (fun a b => ~ (same_input (fst a) (fst b) /\ snd a = snd b)) l ->
  let rs := to_regions l false in
  (forall x o, covered rs x o <-> tainted l x o) /\ ForallOrdPairs disjoint rs /\ Forall (fun r => 0 < rg_length r) rs.
Proof.
  intros l U O. assert (E : to_regions l false = to_regions (sort_bytes l) true) by reflexivity. cbv zeta. rewrite E.
  destruct (sorted_regions (sort_bytes l)) as (C & D & F).
  - apply sort_sorted.
  - exact (once_perm _ _ (Permutation_sym (sort_perm l)) O).
  - intros a b Ia Ib Eu. apply U; [now apply (Permutation_in _ (sort_perm l))|now apply (Permutation_in _ (sort_perm l))|exact Eu].
  - split; [|split; [exact D|exact F]]. intros x o. rewrite C. split; apply tainted_perm; [apply sort_perm|apply Permutation_sym, sort_perm].
Qed.
Definition in_a' : py_input := mkInput 3 ([], [[99]]) 9.
Theorem C63_diff_regions_refuted : ~ (forall l1 l2 x o,
  covered (fst (diff_regions (taints_new l1) (taints_new l2))) x o <-> tainted l1 x o /\ ~ tainted l2 x o).
Proof.
  intros H. destruct (proj1 (H [(in_a, 0); (in_a, 1); (in_a', 0)] [] in_a' 1)) as [(y & I & S) _].
  - exists (mkRegion in_a' 0 2). split; [vm_compute; tauto|]. split; [apply same_refl_in|]. cbn. lia.
  - destruct I as [E|[E|[E|[]]]]; inversion E; subst; destruct S as [_ S]; discriminate.
Qed.

(** Slices of regions: bounds below zero count from the end of the region, as for other Python
    sequences. *)
Definition from_end (n : N) (z : Z) : Z := if (z <? 0)%Z then (Z.of_N n + z)%Z else z.
Theorem C63_slice_partial : forall r start stop, (stop <= Z.of_N (rg_length r))%Z ->
  forall x o, within (region_slice r start stop) x o <->
    within r x o /\ (from_end (rg_length r) start <= Z.of_N o - Z.of_N (rg_offset r) < from_end (rg_length r) stop)%Z.
Proof.
  intros r start stop H2 x o. unfold region_slice, from_end, within. cbv zeta.
  set (e := if (stop <? 0)%Z then (Z.of_N (rg_length r) + stop)%Z else stop).
  assert (He : (e <= Z.of_N (rg_length r))%Z) by (unfold e; destruct (Z.ltb_spec stop 0); lia).
  assert (Hb : exists b0 b, b0 = (if (start <? 0)%Z then Z.of_N (rg_length r) + start else start)%Z /\
    b = (if (start <? 0)%Z then Z.max (Z.of_N (rg_length r) + start) 0 else start)%Z /\ (b = Z.max b0 0)%Z).
  { eexists _, _. split; [reflexivity|]. split; [reflexivity|]. destruct (Z.ltb_spec start 0); lia. }
  destruct Hb as (b0 & b & <- & <- & Hb).
  destruct (Z.leb_spec e b) as [A|A]; [cbn [orb rg_source rg_offset rg_length]; split; [intros (_ & B); lia|intros ((_ & B) & C); lia]|].
  destruct (Z.leb_spec (Z.of_N (rg_length r)) b) as [B|B]; [lia|]. destruct (Z.leb_spec e 0) as [C|C]; [lia|]. cbn [orb rg_source rg_offset rg_length].
  split; [intros (S & D1 & D2); repeat split; auto; try apply S; lia|intros ((S & D1 & D2) & D3); repeat split; try apply S; lia].
Qed.
(** Indices: the byte of the region at that place, or an error. *)
Theorem C63_index_partial : forall r i,
  match region_index r i with
  | Ok (x, o) => same_input x (rg_source r) /\ within r x o /\ (Z.of_N o = Z.of_N (rg_offset r) + i)%Z
  | Exit => (i < 0 \/ Z.of_N (rg_length r) <= i)%Z
  | _ => False
  end.
Proof.
  intros r i. unfold region_index. destruct (Z.ltb_spec i 0); [now left|]. destruct (Z.leb_spec (Z.of_N (rg_length r)) i); [now right|].
  cbn [orb]. split; [apply same_refl_in|]. split; [|lia]. split; [apply same_refl_in|]. cbn. lia.
Qed.
(** Full statement: indices below zero count from the end, as for slices. *)
Theorem C63_index_refuted : ~ (forall r i, (- Z.of_N (rg_length r) <= i < Z.of_N (rg_length r))%Z -> exists b, region_index r i = Ok b).
Proof. intro H. destruct (H (mkRegion in_a 0 2) (-1)%Z) as (b & E); [cbn; lia|discriminate]. Qed.
(** Full statement: a slice does not leave the region (as for other Python sequences). *)
Theorem C63_slice_refuted : ~ (forall r start stop x o, within (region_slice r start stop) x o -> within r x o).
Proof.
  intros H. specialize (H (mkRegion in_a 0 2) 0%Z 5%Z in_a 4). destruct H as (_ & _ & H); [|cbn in H; lia]. split; [apply same_refl_in|]. cbn. lia.
Qed.

(** With C31: the regions of the inputs that affect control flow. *)
Theorem C63_control_flow : forall base h r s paths fnames d, opened_trace base h r s paths fnames d ->
  forall fo, forest_run d fo ->
  exists bs fo', inputs_affecting_control_flow d fo = Ok (bs, fo') /\
    forall x o, covered (taints_regions (taints_new bs)) x o <->
      exists i y, In (i, o) (a_cf s) /\ input_at s paths i y /\ same_input x y.
Proof.
  intros base h r s paths fnames d Op fo Fr. destruct (C31_inputs_affecting_control_flow base h r s paths fnames d Op fo Fr) as (bs & fo' & E & _ & B).
  exists bs, fo'. split; [exact E|]. intros x o. rewrite (proj1 (C63_regions bs)). unfold tainted. split.
  - intros (y & I & S). apply B in I as (i & I & J). exists i, y. auto.
  - intros (i & y & I & J & S). exists y. split; [|exact S]. apply B. exists i. auto.
Qed.

(** ** C64: search *)
(** A sequence that is found is at consecutive tainted bytes. *)
Theorem C64_contains_sound : forall content l sub,
  (forall x y, same_input x y -> content x = content y) -> sub <> [] ->
  taints_contains content (taints_new l) sub = true ->
  exists x o, occurs sub (content x) o /\ forall k, k < len sub -> tainted l x (o + k).
Proof.
  intros content l sub Co N0 H. unfold taints_contains in H. destruct (find_first content sub (taints_regions (taints_new l))) as [r0|] eqn:E; [|discriminate].
  destruct (proj1 (find_first_spec content sub (taints_regions (taints_new l)))) as (r & k & I & _ & Oc); [eauto|].
  apply occurs_value in Oc as [Oc L]; [|exact N0]. exists (rg_source r), (rg_offset r + k). split; [exact Oc|]. intros j Hj.
  apply (proj1 (C63_regions l)). exists r. split; [exact I|]. split; [apply same_refl_in|]. lia.
Qed.
(** Full statement: and every such sequence is found.  Proved for collections of bytes of one
    source, refuted otherwise. *)
Theorem C64_contains_partial : forall content l sub z,
  (forall x y, same_input x y -> content x = content y) -> sub <> [] -> (forall b, In b l -> same_input (fst b) z) ->
  (taints_contains content (taints_new l) sub = true <->
   exists x o, occurs sub (content x) o /\ forall k, k < len sub -> tainted l x (o + k)).
Proof.
  intros content l sub z Co N0 One. split; [now apply C64_contains_sound|]. intros (x & o & Oc & T).
  destruct (C63_regions l) as (Cv & _ & _). cbv zeta in Cv. assert (Ap := C63_maximal_partial l z One).
  assert (L0 : 0 < len sub) by (destruct sub; [congruence|rewrite len_cons; lia]).
  assert (Ex : exists r, In r (taints_regions (taints_new l)) /\ same_input x (rg_source r) /\ rg_offset r <= o /\ o + len sub <= rg_offset r + rg_length r).
  { destruct (proj2 (Cv x o)) as (r & I & Sm & B1 & B2); [rewrite <- (N.add_0_r o); now apply T|]. exists r. split; [exact I|]. split; [exact Sm|]. split; [exact B1|].
    assert (G : forall n, (N.of_nat n <= len sub - 1) -> o + N.of_nat n < rg_offset r + rg_length r).
    { induction n as [|n IH]; intros Ln; [lia|]. specialize (IH ltac:(lia)). destruct (proj2 (Cv x (o + N.of_nat (S n)))) as (q & J & S2 & C1 & C2); [apply T; lia|].
      assert (Tr : r = q \/ rg_offset r + rg_length r < rg_offset q \/ rg_offset q + rg_length q < rg_offset r).
      { clear - I J Ap. induction (taints_regions (taints_new l)) as [|a rs IH]; [destruct I|]. inversion Ap as [|a' rs' A1 A2]; subst. rewrite Forall_forall in A1.
        destruct I as [->|I], J as [E|J]; auto. subst a. auto. }
      destruct Tr as [->|[Q|Q]]; lia. }
    specialize (G (N.to_nat (len sub - 1)) ltac:(lia)). lia. }
  destruct Ex as (r & I & S & B1 & B2). unfold taints_contains.
  destruct (proj2 (find_first_spec content sub (taints_regions (taints_new l)))) as (q & ->); [|reflexivity].
  exists r, (o - rg_offset r). split; [exact I|].
  assert (Oc2 : occurs sub (region_value content r) (o - rg_offset r)).
  { apply occurs_value; [exact N0|]. split; [|lia]. replace (rg_offset r + (o - rg_offset r)) with o by lia. now rewrite <- (Co x (rg_source r) S). }
  split; [|exact Oc2]. assert (Lv := occurs_len _ _ _ N0 Oc2). lia.
Qed.
Definition ab : py_input -> list N := fun _ => [65; 66; 67].
Theorem C64_contains_refuted : ~ (forall content l sub,
  (forall x y, same_input x y -> content x = content y) -> sub <> [] ->
  (exists x o, occurs sub (content x) o /\ forall k, k < len sub -> tainted l x (o + k)) -> taints_contains content (taints_new l) sub = true).
Proof.
  intros H. assert (E := H ab [(in_a, 0); (in_b, 0); (in_b, 1)] [65; 66] (fun _ _ _ => eq_refl) ltac:(discriminate)).
  assert (F : taints_contains ab (taints_new [(in_a, 0); (in_b, 0); (in_b, 1)]) [65; 66] = false) by (vm_compute; reflexivity).
  rewrite F in E. discriminate E. exists in_b, 0. split; [apply is_prefix_iff; reflexivity|]. intros k L. change (len [65; 66]) with 2 in L. exists in_b. split; [|apply same_refl_in].
  assert (D : k = 0 \/ k = 1) by lia. destruct D as [->| ->]; cbn; auto.
Qed.

(** What find() yields first is an occurrence of the sequence, and all of it is tainted. *)
Theorem C64_first : forall content l sub q,
  (forall x y, same_input x y -> content x = content y) -> sub <> [] ->
  find_first content sub (taints_regions (taints_new l)) = Some q ->
  rg_length q = len sub /\ occurs sub (content (rg_source q)) (rg_offset q) /\
  forall x o, within q x o -> tainted l x o.
Proof.
  intros content l sub q Co N0 H. pose proof (proj1 (C63_regions l)) as C.
  assert (G : exists r, In r (taints_regions (taints_new l)) /\ rg_source q = rg_source r /\ rg_length q = len sub /\
    occurs sub (content (rg_source q)) (rg_offset q) /\ rg_offset r <= rg_offset q /\ rg_offset q + rg_length q <= rg_offset r + rg_length r).
  { clear C. induction (taints_regions (taints_new l)) as [|r rs IH]; [discriminate|]. cbn [find_first] in H.
    assert (F := py_find_0 sub (region_value content r)). destruct (py_find sub (region_value content r) 0) as [i|].
    - destruct F as (F & _). apply occurs_value in F as (F & L); [|exact N0]. exists r. split; [now left|]. injection H as <-.
      assert (L0 : 0 < len sub) by (destruct sub; [congruence|rewrite len_cons; lia]).
      unfold region_slice. destruct (Z.ltb_spec (Z.of_N i) 0); [lia|]. destruct (Z.ltb_spec (Z.of_N i + Z.of_N (len sub)) 0); [lia|].
      destruct (Z.leb_spec (Z.of_N i + Z.of_N (len sub)) (Z.of_N i)); [lia|]. destruct (Z.leb_spec (Z.of_N (rg_length r)) (Z.of_N i)); [lia|].
      destruct (Z.leb_spec (Z.of_N i + Z.of_N (len sub)) 0); [lia|]. cbn [orb rg_source rg_offset rg_length].
      replace (Z.to_N (Z.of_N i + Z.of_N (len sub) - Z.of_N i)) with (len sub) by lia. replace (Z.to_N (Z.of_N i)) with i by lia.
      split; [reflexivity|]. split; [reflexivity|]. split; [exact F|]. lia.
    - destruct (IH H) as (r' & I & K). exists r'. split; [now right|exact K]. }
  destruct G as (r & I & S & L & Oc & B1 & B2). split; [exact L|]. split; [exact Oc|]. intros x o (Sx & W1 & W2).
  apply C. exists r. split; [exact I|]. split; [now rewrite <- S|lia].
Qed.

(** find() ends if there is nothing to be found; with a match, it yields it for ever. *)
Theorem C64_find_refuted : forall content l sub, taints_contains content (taints_new l) sub = true ->
  forall fuel, taints_find fuel content (taints_new l) sub = Fuel.
Proof.
  intros content l sub. unfold taints_contains, taints_find. generalize (taints_regions (taints_new l)) as rs. intros rs.
  intros H fuel. destruct (find_first content sub rs) as [r0|] eqn:E; [clear H|discriminate]. revert r0 E. induction rs as [|r rs IH]; intros r0 E; [discriminate|]. cbn [find_first find_regions] in *.
  assert (F := py_find_0 sub (region_value content r)). destruct (py_find sub (region_value content r) 0) as [j|].
  - rewrite (find_loop_hangs content sub r); [reflexivity| |now left]. exists j. tauto.
  - destruct fuel as [|f]; [reflexivity|]. rewrite (find_loop_none content sub r F f). cbn [bind]. now rewrite (IH r0 E).
Qed.
Theorem C64_find_partial : forall content l sub, taints_contains content (taints_new l) sub = false ->
  forall fuel, (0 < fuel)%nat -> taints_find fuel content (taints_new l) sub = Ok [].
Proof.
  intros content l sub. unfold taints_contains, taints_find. generalize (taints_regions (taints_new l)) as rs. intros rs.
  intros H fuel L. destruct (find_first content sub rs) as [r0|] eqn:E; [discriminate|clear H]. destruct fuel as [|f]; [lia|].
  induction rs as [|r rs IH]; [reflexivity|]. cbn [find_first find_regions] in *.
  assert (F := py_find_0 sub (region_value content r)). destruct (py_find sub (region_value content r) 0) as [j|]; [discriminate|].
  rewrite (find_loop_none content sub r F f). cbn [bind]. now rewrite (IH E).
Qed.

(** ** Examples *)
Definition some_bytes : list pbyte := [(in_a, 4); (in_a, 1); (in_a, 2); (in_a, 1); (in_b, 7)].
Example C62_case : taints_iter (taints_new some_bytes) = [(in_a, 1); (in_a, 2); (in_a, 4); (in_b, 7)] /\
  fst (taint_diff (taints_new some_bytes) (taints_new [(in_a, 2); (in_b, 8)])) = [(in_a, 1); (in_a, 4); (in_b, 7)].
Proof. split; vm_compute; reflexivity. Qed.
Example C63_case : taints_regions (taints_new some_bytes) = [mkRegion in_a 1 2; mkRegion in_a 4 1; mkRegion in_b 7 1] /\
  uids_differ (some_bytes ++ [(in_b, 8)]) /\ (forall b, In b [(in_a, 4); (in_a, 1)] -> same_input (fst b) in_a).
Proof.
  split; [vm_compute; reflexivity|]. split.
  - intros a b I J E. repeat (destruct I as [<-|I]; [repeat (destruct J as [<-|J]; [first [reflexivity|discriminate]|]); destruct J|]). destruct I.
  - intros b [<-|[<-|[]]]; apply same_refl_in.
Qed.
Example C64_case : taints_contains ab (taints_new [(in_a, 1); (in_a, 2)]) [66; 67] = true /\ taints_contains ab (taints_new [(in_a, 1); (in_a, 2)]) [65; 66] = false.
Proof. split; vm_compute; reflexivity. Qed.

Print Assumptions C62_collection.
Print Assumptions C62_sources.
Print Assumptions C62_from_source.
Print Assumptions C62_diff.
Print Assumptions C63_regions.
Print Assumptions C63_maximal_partial.
Print Assumptions C63_maximal_refuted.
Print Assumptions C63_increasing_refuted.
Print Assumptions C63_diff_regions_partial.
Print Assumptions C63_diff_regions_refuted.
Print Assumptions C63_slice_partial.
Print Assumptions C63_index_partial.
Print Assumptions C63_index_refuted.
Print Assumptions C63_slice_refuted.
Print Assumptions C63_control_flow.
Print Assumptions C63_to_regions_partial.
Print Assumptions C64_first.
Print Assumptions C64_contains_sound.
Print Assumptions C64_contains_partial.
Print Assumptions C64_contains_refuted.
Print Assumptions C64_find_refuted.
Print Assumptions C64_find_partial.
