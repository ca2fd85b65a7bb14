(** Proofs about the tools that check cavities. *)
From Coq Require Import NArith ZArith List Bool Lia Permutation.
From Verif Require Import M_Base P_Base M_PyMutate S_Mutate.
Import ListNotations.
Open Scope Z_scope.

Lemma name_eqb_iff a b : name_eqb a b = true <-> a = b.
Proof. unfold name_eqb. destruct (list_eq_dec N.eq_dec a b); split; auto; discriminate. Qed.
Lemma name_eqb_refl a : name_eqb a a = true.
Proof. now apply name_eqb_iff. Qed.

Lemma flip_byte x : (x < 256)%N -> flip x = (255 - x)%N.
Proof.
  intro H. unfold flip. change 255 with (Z.ones 8) at 1. rewrite Z.land_ones by lia. change (2 ^ 8) with 256.
  unfold Z.lnot. replace (Z.pred (- Z.of_N x)) with (255 - Z.of_N x + (-1) * 256) by lia.
  rewrite Z.mod_add by lia. rewrite Z.mod_small by lia. rewrite Z2N.inj_sub by lia. rewrite N2Z.id. reflexivity.
Qed.

(** ** Slices *)
Section Slices.
  Context {A : Type}.
  Implicit Type l : list A.
  Lemma lo_eq l a : 0 <= a -> slice_lo l a = Nat.min (Z.to_nat a) (length l).
  Proof. intro H. unfold slice_lo, bound, zlen. destruct (Z.ltb_spec a 0); lia. Qed.
  Lemma hi_eq l a b : 0 <= a <= b -> slice_hi l a (b + 1) = Nat.min (S (Z.to_nat b)) (length l).
  Proof. intro H. unfold slice_hi. rewrite lo_eq by lia. unfold bound, zlen. destruct (Z.ltb_spec (b + 1) 0); lia. Qed.

  Lemma slice_get_length l a b : 0 <= a <= b ->
    length (slice_get l a (b + 1)) = (Nat.min (S (Z.to_nat b)) (length l) - Nat.min (Z.to_nat a) (length l))%nat.
  Proof. intro H. unfold slice_get. rewrite hi_eq, lo_eq by lia. rewrite firstn_length, skipn_length. lia. Qed.
  Lemma nth_firstn l : forall n i, (i < n)%nat -> nth_error (firstn n l) i = nth_error l i.
  Proof.
    induction l as [|x l IH]; intros n i H; [rewrite firstn_nil; reflexivity|].
    destruct n; [lia|]. destruct i; [reflexivity|]. cbn. apply IH. lia.
  Qed.
  Lemma nth_skipn l : forall n i, nth_error (skipn n l) i = nth_error l (n + i).
  Proof.
    induction l as [|x l IH]; intros n i; [rewrite skipn_nil; destruct (n + i)%nat, i; reflexivity|].
    destruct n; [reflexivity|]. cbn. apply IH.
  Qed.
  Lemma slice_get_nth l a b i : 0 <= a <= b -> (i < length (slice_get l a (b + 1)))%nat ->
    nth_error (slice_get l a (b + 1)) i = nth_error l (Z.to_nat a + i).
  Proof.
    intros H L. rewrite slice_get_length in L by exact H. unfold slice_get. rewrite hi_eq, lo_eq by lia.
    rewrite nth_firstn by lia. rewrite nth_skipn. f_equal. lia.
  Qed.
  Lemma slice_set_length l a b v : 0 <= a <= b -> length v = length (slice_get l a (b + 1)) ->
    length (slice_set l a (b + 1) v) = length l.
  Proof.
    intros H L. rewrite slice_get_length in L by exact H. unfold slice_set. rewrite hi_eq, lo_eq by lia.
    rewrite !app_length, firstn_length, skipn_length, L. lia.
  Qed.
  Lemma slice_set_outside l a b v i : 0 <= a <= b -> length v = length (slice_get l a (b + 1)) ->
    Z.of_nat i < a \/ b < Z.of_nat i -> nth_error (slice_set l a (b + 1) v) i = nth_error l i.
  Proof.
    intros H L O. rewrite slice_get_length in L by exact H. unfold slice_set. rewrite hi_eq, lo_eq by lia.
    set (n := length l) in *. assert (FL : length (firstn (Nat.min (Z.to_nat a) n) l) = Nat.min (Z.to_nat a) n) by (rewrite firstn_length; unfold n; lia).
    destruct (Nat.ltb_spec i n) as [IN|IN].
    - destruct O as [O|O].
      + rewrite nth_error_app1 by lia. apply nth_firstn. lia.
      + rewrite nth_error_app2 by lia. rewrite nth_error_app2 by lia. rewrite FL, L, nth_skipn. f_equal. lia.
    - rewrite (proj2 (nth_error_None l i)) by (unfold n in IN; lia). apply nth_error_None.
      rewrite !app_length, skipn_length, L, FL. unfold n in *. lia.
  Qed.
  Lemma slice_set_inside l a b v i : 0 <= a <= b -> length v = length (slice_get l a (b + 1)) ->
    a <= Z.of_nat i <= b -> (i < length l)%nat -> nth_error (slice_set l a (b + 1) v) i = nth_error v (i - Z.to_nat a).
  Proof.
    intros H L O IN. rewrite slice_get_length in L by exact H. unfold slice_set. rewrite hi_eq, lo_eq by lia.
    set (n := length l) in *. assert (FL : length (firstn (Nat.min (Z.to_nat a) n) l) = Nat.min (Z.to_nat a) n) by (rewrite firstn_length; unfold n; lia).
    rewrite nth_error_app2 by lia. rewrite nth_error_app1 by lia. f_equal. lia.
  Qed.
  Lemma nth_ext_eq (l1 : list A) : forall l2, length l1 = length l2 -> (forall i, (i < length l1)%nat -> nth_error l1 i = nth_error l2 i) -> l1 = l2.
  Proof.
    induction l1 as [|x l1 IH]; intros [|y l2] L H; try discriminate; [reflexivity|].
    pose proof (H 0%nat ltac:(cbn; lia)) as H0. cbn in H0. inversion H0; subst. f_equal. apply IH; [cbn in L; lia|].
    intros i I. apply (H (S i)). cbn. lia.
  Qed.
  Lemma slice_get_ext l l2 a b : 0 <= a <= b -> length l = length l2 ->
    (forall i, a <= Z.of_nat i <= b -> nth_error l i = nth_error l2 i) -> slice_get l a (b + 1) = slice_get l2 a (b + 1).
  Proof.
    intros H L E. apply nth_ext_eq; [rewrite !slice_get_length by exact H; lia|]. intros i I.
    rewrite !slice_get_nth; try exact H; try assumption.
    - apply E. rewrite slice_get_length in I by exact H. lia.
    - rewrite slice_get_length in * by exact H. lia.
  Qed.
End Slices.

(** ** mutate_cavities *)
Lemma apply_length m i c : length (apply_method m i c) = length c.
Proof. destruct m; cbn; rewrite ?map_length, ?seq_length, ?rev_length; reflexivity. Qed.

Fixpoint apply_all (m : method) (c : Z) (sel : list (Z * Z)) (data : list N) : list N :=
  match sel with
  | [] => data
  | (a, b) :: r => apply_all m (c + 1) r (slice_set data a (b + 1) (apply_method m c (slice_get data a (b + 1))))
  end.
Lemma loop_no_skip m limit skip : forall l i c data, skip <= i -> 0 <= c ->
  let sel := if limit =? -1 then l else firstn (Z.to_nat (limit - c)) l in
  mutate_loop m limit skip l i c data = (apply_all m c sel data, c + zlen sel).
Proof.
  induction l as [|[a b] l IH]; intros i c data I C; cbn zeta.
  - cbn. rewrite firstn_nil. destruct (limit =? -1); cbn; f_equal; unfold zlen; cbn; lia.
  - cbn [mutate_loop]. destruct (Z.ltb_spec i skip) as [Q|Q]; [lia|]. specialize (IH (i + 1) (c + 1)). cbn zeta in IH.
    destruct (Z.eqb_spec limit (-1)) as [EL|EL]; cbn [orb].
    + rewrite IH by lia. cbn [apply_all]. f_equal. unfold zlen. cbn [length]. lia.
    + destruct (Z.ltb_spec c limit) as [CL|CL].
      * rewrite IH by lia. replace (Z.to_nat (limit - c)) with (S (Z.to_nat (limit - (c + 1)))) by lia.
        cbn [firstn apply_all]. f_equal. unfold zlen. cbn [length]. lia.
      * replace (Z.to_nat (limit - c)) with 0%nat by lia. cbn. f_equal. unfold zlen. cbn. lia.
Qed.
Lemma loop_skip m limit skip : forall l i data, i <= skip ->
  mutate_loop m limit skip l i 0 data = mutate_loop m limit skip (skipn (Z.to_nat (skip - i)) l) skip 0 data.
Proof.
  induction l as [|[a b] l IH]; intros i data I.
  - rewrite skipn_nil. reflexivity.
  - destruct (Z.eq_dec i skip) as [->|Q].
    + replace (skip - skip) with 0 by lia. reflexivity.
    + replace (Z.to_nat (skip - i)) with (S (Z.to_nat (skip - (i + 1)))) by lia. cbn [skipn]. rewrite <- IH by lia.
      cbn [mutate_loop]. destruct (Z.ltb_spec i skip); [reflexivity|lia].
Qed.
Lemma iter_listed nm csv : iter_cavities nm csv = listed nm csv.
Proof.
  unfold iter_cavities, listed. induction csv as [|[[n a] b] csv IH]; [reflexivity|]. cbn [filter flat_map fst].
  destruct (name_eqb n nm); cbn; rewrite <- IH; reflexivity.
Qed.
Lemma mutate_eq data nm csv m limit skip : 
  mutate_cavities data nm csv m limit skip =
  let sel := selected limit skip (listed nm csv) in match sel with [] => None | _ => Some (apply_all m 0 sel data) end.
Proof.
  unfold mutate_cavities. rewrite iter_listed. set (l := listed nm csv).
  assert (E : mutate_loop m limit skip l 0 0 data = (apply_all m 0 (selected limit skip l) data, zlen (selected limit skip l))).
  { destruct (Z_le_gt_dec 0 skip) as [S0|S0].
    - rewrite loop_skip by exact S0. replace (skip - 0) with skip by lia. pose proof (loop_no_skip m limit skip (skipn (Z.to_nat skip) l) skip 0 data) as H.
      cbn zeta in H. rewrite H by lia. unfold selected. replace (limit - 0) with limit by lia. f_equal.
    - pose proof (loop_no_skip m limit skip l 0 0 data) as H. cbn zeta in H. rewrite H by lia. unfold selected.
      replace (Z.to_nat skip) with 0%nat by lia. replace (limit - 0) with limit by lia. reflexivity. }
  rewrite E. cbn zeta. destruct (selected limit skip l) as [|x r]; [reflexivity|].
  unfold zlen. cbn [length]. destruct (Z.eqb_spec (Z.of_nat (S (length r))) 0); [lia|reflexivity].
Qed.

Definition proper (sel : list (Z * Z)) : Prop := Forall (fun c => 0 <= fst c <= snd c) sel.
Lemma all_length m : forall sel c data, proper sel -> length (apply_all m c sel data) = length data.
Proof.
  induction sel as [|[a b] sel IH]; intros c data H; cbn [apply_all]; [reflexivity|]. inversion H; subst. cbn in *.
  rewrite IH by assumption. apply slice_set_length; [assumption|]. apply apply_length.
Qed.
Lemma all_outside m i : forall sel c data, proper sel -> Forall (fun x => Z.of_nat i < fst x \/ snd x < Z.of_nat i) sel ->
  nth_error (apply_all m c sel data) i = nth_error data i.
Proof.
  induction sel as [|[a b] sel IH]; intros c data H O; cbn [apply_all]; [reflexivity|]. inversion H; subst. inversion O; subst. cbn in *.
  rewrite IH by assumption. apply slice_set_outside; auto. apply apply_length.
Qed.
Lemma all_inside m i j a b : forall sel c data, proper sel -> ForallOrdPairs disjoint sel -> nth_error sel j = Some (a, b) ->
  a <= Z.of_nat i <= b -> (i < length data)%nat ->
  nth_error (apply_all m c sel data) i = nth_error (apply_method m (c + Z.of_nat j) (slice_get data a (b + 1))) (i - Z.to_nat a).
Proof.
  revert j. intros j sel. revert j. induction sel as [|[a1 b1] sel IH]; intros j c data H D E I L; [destruct j; discriminate|].
  inversion H as [|? ? Hx Hs]; subst. inversion D as [|? ? Dx Ds]; subst. cbn [apply_all]. cbn in Hx.
  destruct j as [|j]; cbn in E.
  - inversion E; subst a1 b1. rewrite all_outside; [|assumption|].
    + replace (c + Z.of_nat 0) with c by lia. apply slice_set_inside; auto. apply apply_length.
    + rewrite Forall_forall in *. intros x Hin. destruct (Dx x Hin) as [Q|Q]; cbn in Q; [left|right]; lia.
  - assert (Din : disjoint (a1, b1) (a, b)) by (rewrite Forall_forall in Dx; apply Dx; eapply nth_error_In; exact E).
    assert (Pab : 0 <= a <= b) by (unfold proper in Hs; rewrite Forall_forall in Hs; apply nth_error_In in E; exact (Hs _ E)).
    rewrite (IH j (c + 1)); auto.
    + f_equal. replace (c + 1 + Z.of_nat j) with (c + Z.of_nat (S j)) by lia. f_equal. apply slice_get_ext; auto.
      * apply slice_set_length; auto. apply apply_length.
      * intros k K. apply slice_set_outside; auto; [apply apply_length|]. destruct Din as [Q|Q]; cbn in Q; [right|left]; lia.
    + rewrite slice_set_length; auto. apply apply_length.
Qed.
Lemma method_byte m data j a b (o : N) : 0 <= a <= b -> b < zlen data -> Forall (fun x => (x < 256)%N) data ->
  a <= Z.of_N o <= b ->
  nth_error (apply_method m (Z.of_nat j) (slice_get data a (b + 1))) (N.to_nat o - Z.to_nat a) = new_byte m data j a b o.
Proof.
  intros P B BY O. set (c := slice_get data a (b + 1)). unfold zlen in B.
  assert (LC : length c = S (Z.to_nat b - Z.to_nat a)) by (unfold c; rewrite slice_get_length by exact P; lia).
  assert (K : (N.to_nat o - Z.to_nat a < length c)%nat) by lia.
  assert (NC : forall i, (i < length c)%nat -> nth_error c i = nth_error data (Z.to_nat a + i)) by (intros i I; apply slice_get_nth; assumption).
  destruct m as [|rnd| |]; cbn [apply_method new_byte].
  - rewrite nth_error_map, NC by exact K. destruct (nth_error data (Z.to_nat a + (N.to_nat o - Z.to_nat a))) eqn:E; [reflexivity|].
    apply nth_error_None in E. lia.
  - rewrite nth_error_map. assert (E : nth_error (seq 0 (length c)) (N.to_nat o - Z.to_nat a) = Some (N.to_nat o - Z.to_nat a)%nat).
    { rewrite (nth_error_nth' _ 0%nat) by (rewrite seq_length; exact K). rewrite seq_nth by exact K. reflexivity. }
    rewrite E. cbn. do 2 f_equal. lia.
  - change (nth_error (rev c) (N.to_nat o - Z.to_nat a)) with (nth_error (rev c) (N.to_nat o - Z.to_nat a)).
    pose proof (get_rev c (N.of_nat (N.to_nat o - Z.to_nat a))) as G. unfold get, len in G. rewrite Nnat.Nat2N.id in G. rewrite G by lia.
    rewrite NC by lia. unfold get. f_equal. lia.
  - rewrite nth_error_map, NC by exact K. unfold get. replace (Z.to_nat a + (N.to_nat o - Z.to_nat a))%nat with (N.to_nat o) by lia.
    destruct (nth_error data (N.to_nat o)) as [x|] eqn:E; [|reflexivity]. cbn. f_equal. apply flip_byte.
    rewrite Forall_forall in BY. apply BY. eapply nth_error_In, E.
Qed.

(** ** One byte at a time *)
Lemma upd_upd {A} (l : list A) i x y : upd (upd l i x) i y = upd l i y.
Proof.
  unfold upd. generalize (N.to_nat i). clear i. intro i. revert i. induction l as [|z l IH]; intros [|i]; cbn; try reflexivity. now rewrite IH.
Qed.
Lemma upd_get {A} (l : list A) i x : get l i = Some x -> upd l i x = l.
Proof.
  unfold upd, get. generalize (N.to_nat i). clear i. intro i. revert i. induction l as [|z l IH]; intros [|i] H; cbn in *; try discriminate; [congruence|].
  now rewrite IH.
Qed.
Lemma write_ok buf o : 0 <= o < zlen buf -> exists x, get buf (Z.to_N o) = Some x /\
  write_mutated buf o true = (buf, Some (upd buf (Z.to_N o) (flip x))).
Proof.
  intros H. destruct (get_lt buf (Z.to_N o)) as (x & G); [unfold len, zlen in *; lia|]. exists x. split; [exact G|].
  unfold write_mutated. destruct (Z.ltb_spec o 0); [lia|]. destruct (Z.leb_spec (zlen buf) o); [lia|]. cbn [orb]. rewrite G.
  rewrite upd_upd, upd_get by exact G. reflexivity.
Qed.
Definition mutated_at (data : list N) (o : Z) : list N :=
  match get data (Z.to_N o) with Some x => upd data (Z.to_N o) (flip x) | None => data end.

Lemma mutation_ok tool orig data : forall offsets c, Forall (fun o => 0 <= o < zlen data) offsets ->
  Forall (fun o => tool (mutated_at data o) <> None) offsets ->
  do_mutation tool orig offsets data c = Ok (data, mkStats (st_count c + len offsets) (st_no_output c)
    (st_eq c + len (filter (fun o => match tool (mutated_at data o) with Some s => N.eqb s orig | None => false end) offsets))
    (st_diff c + len (filter (fun o => match tool (mutated_at data o) with Some s => negb (N.eqb s orig) | None => false end) offsets))).
Proof.
  induction offsets as [|o r IH]; intros [n1 n2 n3 n4] B T; cbn [do_mutation].
  - cbn. rewrite !N.add_0_r. reflexivity.
  - inversion B as [|? ? Bo Br]; subst. inversion T as [|? ? To Tr]; subst. destruct (write_ok data o Bo) as (x & G & ->).
    assert (E : mutated_at data o = upd data (Z.to_N o) (flip x)) by (unfold mutated_at; rewrite G; reflexivity).
    cbn [filter]. rewrite <- E. destruct (tool (mutated_at data o)) as [s|]; [|congruence]. rewrite IH by assumption.
    destruct (N.eqb s orig); cbn [negb st_count st_no_output st_eq st_diff]; rewrite ?len_cons; do 3 f_equal; lia.
Qed.
Lemma mutation_exit tool orig data : forall offsets c,
  (exists o, In o offsets /\ (~ 0 <= o < zlen data \/ tool (mutated_at data o) = None)) ->
  do_mutation tool orig offsets data c = Exit.
Proof.
  induction offsets as [|o r IH]; intros c (o1 & I & H); [contradiction|]. cbn [do_mutation].
  destruct (Z_le_gt_dec 0 o) as [O1|O1]; [destruct (Z_lt_ge_dec o (zlen data)) as [O2|O2]|].
  - destruct (write_ok data o (conj O1 O2)) as (x & G & ->).
    assert (E : mutated_at data o = upd data (Z.to_N o) (flip x)) by (unfold mutated_at; rewrite G; reflexivity).
    destruct (tool (upd data (Z.to_N o) (flip x))) as [s|] eqn:ET; [|reflexivity].
    apply IH. exists o1. split; [|exact H]. destruct I as [->|I]; [|exact I]. exfalso. destruct H as [H|H]; [lia|]. rewrite E in H. congruence.
  - unfold write_mutated. destruct (Z.leb_spec (zlen data) o); [|lia]. rewrite orb_true_r. reflexivity.
  - unfold write_mutated. destruct (Z.ltb_spec o 0); [|lia]. reflexivity.
Qed.
Lemma sample_ok fuel size offsets rnd : forall k n r, sample fuel size offsets rnd k n = Ok r ->
  length r = n /\ Forall (fun o => 0 <= o < size /\ ~ In o offsets) r.
Proof.
  induction fuel as [|f IH]; intros k n r H; destruct n as [|n]; cbn [sample] in H; try discriminate; try (inversion H; subst; split; [reflexivity|constructor]).
  unfold is_cavity in H. destruct ((rnd k <? 0) || (size <=? rnd k)) eqn:B; [discriminate|]. cbn [bind] in H.
  apply orb_false_iff in B as [B1 B2]. apply Z.ltb_ge in B1. apply Z.leb_gt in B2.
  destruct (existsb (Z.eqb (rnd k)) offsets) eqn:E; [exact (IH _ _ _ H)|].
  apply bind_ok in H as (r' & H' & Q). inversion Q; subst. destruct (IH _ _ _ H') as (L & F). split; [cbn; lia|]. constructor; [|exact F].
  split; [lia|]. intro I. assert (existsb (Z.eqb (rnd k)) offsets = true); [|congruence]. apply existsb_exists. exists (rnd k). split; [exact I|apply Z.eqb_refl].
Qed.
Lemma in_zrange a b x : In x (zrange a b) <-> a <= x < b.
Proof.
  unfold zrange. rewrite in_map_iff. split.
  - intros (k & <- & K). apply in_seq in K. lia.
  - intro H. exists (Z.to_nat (x - a)). split; [lia|]. apply in_seq. lia.
Qed.
Lemma in_offsets nm csv o : In o (cavity_offsets nm csv) <-> exists a b, In (a, b) (listed nm csv) /\ a <= o <= b.
Proof.
  unfold cavity_offsets. rewrite iter_listed, in_flat_map. split.
  - intros ([a b] & I & H). apply in_zrange in H. exists a, b. split; [exact I|cbn in H; lia].
  - intros (a & b & I & H). exists (a, b). split; [exact I|]. apply in_zrange. cbn. lia.
Qed.

(** ** Many files *)
Section Batch.
  Variable task : name -> Res (option N).
  Variable qlen : nat.
  Variable pick : nat -> nat.
  Hypothesis Q : (0 < qlen)%nat.
  Hypothesis T : forall f, task f = Exit \/ exists r, task f = Ok r.
  Variable paths : list name.

  Definition result (f : name) : list N := match task f with Ok (Some t) => [t] | _ => [] end.
  Record binv (b : batch) : Prop := mkBinv {
    bi_paths : exists taken, paths = taken ++ b_left b /\ Permutation taken (b_done b ++ b_futures b);
    bi_out : b_out b = flat_map result (b_done b);
    bi_done : Forall (fun f => task f <> Exit) (b_done b);
    bi_len : (length (b_futures b) <= qlen)%nat;
    bi_end : b_enqueue b = false -> b_left b = []
  }.
  Lemma enqueue_ok : forall left_ futures l f e, (length futures <= qlen)%nat -> enqueue_loop qlen left_ futures = (l, f, e) ->
    exists moved, left_ = moved ++ l /\ f = futures ++ moved /\ (length f <= qlen)%nat /\ (e = false -> l = []) /\ (e = true -> (0 < length f)%nat).
  Proof.
    induction left_ as [|p r IH]; intros futures l f e L H; cbn [enqueue_loop] in H; destruct (Nat.ltb_spec (length futures) qlen) as [B|B].
    - inversion H; subst. exists []. rewrite ?app_nil_r. cbn. repeat split; auto; intros; discriminate.
    - inversion H; subst. exists []. rewrite ?app_nil_r. cbn. repeat split; auto; try (intros; discriminate); intros; cbn in *; lia.
    - destruct (IH (futures ++ [p]) l f e) as (moved & -> & -> & X1 & X2 & X3); [rewrite app_length; cbn; lia|exact H|].
      exists (p :: moved). rewrite <- app_assoc in *. cbn in *. repeat split; auto.
    - inversion H; subst. exists []. rewrite ?app_nil_r. cbn. repeat split; auto; try (intros; discriminate); intros; cbn in *; lia.
  Qed.
  Lemma nth_split' {A} (l : list A) : forall k x, nth_error l k = Some x -> l = firstn k l ++ x :: skipn (S k) l.
  Proof. induction l as [|y l IH]; intros [|k] x H; cbn in *; try discriminate; [congruence|]. f_equal. apply IH, H. Qed.
  Lemma complete_ok b : binv b -> b_futures b <> [] ->
    (exists f, In f paths /\ task f = Exit) /\ complete task pick b = Exit \/
    exists b', complete task pick b = Ok b' /\ binv b' /\ b_left b' = b_left b /\ b_enqueue b' = b_enqueue b /\
      length (b_futures b) = S (length (b_futures b')).
  Proof.
    intros [(taken & EP & PM) O D L E] NE. unfold complete. set (k := Nat.modulo (pick (length (b_done b))) (length (b_futures b))).
    assert (K : (k < length (b_futures b))%nat) by (apply PeanoNat.Nat.mod_upper_bound; destruct (b_futures b); cbn; congruence || lia).
    destruct (nth_error (b_futures b) k) as [f|] eqn:EN; [|apply nth_error_None in EN; lia].
    pose proof (nth_split' _ _ _ EN) as SP.
    assert (Pf : In f paths).
    { rewrite EP. apply in_app_iff. left. eapply Permutation_in; [apply Permutation_sym, PM|]. apply in_app_iff. right. eapply nth_error_In, EN. }
    destruct (T f) as [TF|(r & TF)]; rewrite TF; cbn [bind]; [left; eauto|]. right. eexists. split; [reflexivity|].
    split; [|cbn; repeat split; auto; rewrite SP at 1; rewrite !app_length; cbn; lia].
    constructor; cbn.
    - exists taken. split; [exact EP|]. eapply Permutation_trans; [exact PM|]. rewrite SP at 1. rewrite <- app_assoc. apply Permutation_app_head.
      apply Permutation_sym. cbn. apply Permutation_cons_app. reflexivity.
    - rewrite flat_map_app, <- O. cbn. unfold result at 1. rewrite TF, ?app_nil_r. destruct r; [reflexivity|]. now rewrite app_nil_r.
    - apply Forall_app. split; [exact D|]. constructor; [congruence|constructor].
    - rewrite SP in L. rewrite app_length in *. cbn in L. lia.
    - exact E.
  Qed.
  Lemma drain_ok : forall n b, binv b -> length (b_futures b) = n ->
    (exists f, In f paths /\ task f = Exit) /\ drain task pick n b = Exit \/
    exists b', drain task pick n b = Ok b' /\ binv b' /\ b_left b' = b_left b /\ b_enqueue b' = b_enqueue b /\ b_futures b' = [].
  Proof.
    induction n as [|n IH]; intros b I L; cbn [drain].
    - right. exists b. split; [reflexivity|]. split; [exact I|]. split; [reflexivity|]. split; [reflexivity|]. destruct (b_futures b); [reflexivity|discriminate].
    - destruct (complete_ok b I) as [(X & ->)|(b' & -> & I' & E1 & E2 & E3)]; [intro Z; rewrite Z in L; discriminate|left; auto|]. cbn [bind].
      destruct (IH b' I') as [(X & ->)|(b2 & -> & I2 & F1 & F2 & F3)]; [lia|left; auto|]. right. exists b2. split; [reflexivity|]. split; [exact I2|]. split; [congruence|]. split; [congruence|exact F3].
  Qed.
  Lemma turn_ok b : binv b ->
    (exists f, In f paths /\ task f = Exit) /\ turn task qlen pick b = Exit \/
    exists b', turn task qlen pick b = Ok b' /\ binv b' /\
      ((b_enqueue b' = false /\ b_futures b' = []) \/
       (b_enqueue b' = true /\ b_enqueue b = true /\ (length (b_left b') + length (b_futures b') < length (b_left b) + length (b_futures b))%nat)).
  Proof.
    intros I. unfold turn. destruct (b_enqueue b) eqn:EB.
    - destruct (enqueue_loop qlen (b_left b) (b_futures b)) as [[l f] e] eqn:EE.
      destruct (enqueue_ok _ _ _ _ _ (bi_len _ I) EE) as (moved & EL & EF & L1 & L2 & L3).
      assert (I1 : binv (mkBatch l f e (b_out b) (b_done b))).
      { constructor; cbn; auto; [|apply I|apply I]. destruct (bi_paths _ I) as (taken & EP & PM). exists (taken ++ moved).
        split; [rewrite EP, EL, app_assoc; reflexivity|]. rewrite EF, app_assoc. apply Permutation_app_tail, PM. }
      assert (LEN : (length l + length f = length (b_left b) + length (b_futures b))%nat) by (rewrite EL, EF, !app_length; lia).
      destruct e.
      + destruct f as [|f0 fs]; [specialize (L3 eq_refl); cbn in L3; lia|].
        destruct (complete_ok _ I1) as [(X & ->)|(b' & -> & I' & E1 & E2 & E3)]; [discriminate|left; auto|]. right. exists b'.
        split; [reflexivity|]. split; [exact I'|]. right. cbn in E1, E2. rewrite E1, E2. split; [reflexivity|]. split; [reflexivity|]. cbn [b_futures] in E3. lia.
      + destruct (drain_ok (length f) _ I1 eq_refl) as [(X & ->)|(b' & -> & I' & E1 & E2 & E3)]; [left; auto|]. right. exists b'.
        split; [reflexivity|]. split; [exact I'|]. left. auto.
    - assert (I1 : binv (mkBatch (b_left b) (b_futures b) false (b_out b) (b_done b))).
      { destruct I as [A1 A2 A3 A4 A5]. constructor; cbn; auto. }
      destruct (drain_ok (length (b_futures b)) _ I1 eq_refl) as [(X & ->)|(b' & -> & I' & E1 & E2 & E3)]; [left; auto|]. right. exists b'.
      split; [reflexivity|]. split; [exact I'|]. left. auto.
  Qed.
  Lemma batch_ok : forall fuel b, binv b -> (length (b_left b) + length (b_futures b) < fuel)%nat ->
    (exists f, In f paths /\ task f = Exit) /\ batch_loop task qlen pick fuel b = Exit \/
    exists b', batch_loop task qlen pick fuel b = Ok b' /\ binv b' /\ b_left b' = [] /\ b_futures b' = [].
  Proof.
    induction fuel as [|fuel IH]; intros b I F; [lia|]. cbn [batch_loop].
    destruct (turn_ok b I) as [(X & ->)|(b' & -> & I' & [(E1 & E2)|(E1 & E2 & E3)])]; cbn [bind]; [left; auto| |].
    - right. exists b'. rewrite E1, E2. cbn. split; [reflexivity|]. split; [exact I'|]. split; [apply I'; exact E1|reflexivity].
    - rewrite E1. cbn [orb]. apply IH; [exact I'|lia].
  Qed.
  Lemma start_binv : binv (mkBatch paths [] true [] []).
  Proof. constructor; cbn; auto; [exists []; split; [reflexivity|constructor]|lia|discriminate]. Qed.
  (** In flight: after every turn, and while one is on. *)
  Lemma turn_bound b : binv b -> (length (snd (fst (enqueue_loop qlen (b_left b) (b_futures b)))) <= qlen)%nat.
  Proof.
    intro I. destruct (enqueue_loop qlen (b_left b) (b_futures b)) as [[l f] e] eqn:EE.
    destruct (enqueue_ok _ _ _ _ _ (bi_len _ I) EE) as (moved & EL & EF & L1 & L2 & L3). exact L1.
  Qed.
End Batch.
