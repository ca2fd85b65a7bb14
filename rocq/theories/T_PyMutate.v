(** Property theorems about the tools that check cavities (C83-C86). *)
From Coq Require Import NArith ZArith List Bool Lia Permutation.
From Verif Require Import M_Base P_Base M_PyMutate S_Mutate S_Cavities P_PyMutate.
Import ListNotations.
Open Scope Z_scope.

Definition bytes (data : list N) : Prop := Forall (fun x => (x < 256)%N) data.

(** *** C83: mutated copies *)

(** If the list names cavities by offsets in the file, the copy is as long as the file, it is
    written if there is a cavity to mutate, and it differs only in those cavities. *)
Theorem C83_only_cavities_partial data nm csv m limit skip :
  let sel := selected limit skip (listed nm csv) in
  Forall (fun c => 0 <= fst c <= snd c) sel ->
  match mutate_cavities data nm csv m limit skip with
  | None => sel = []
  | Some d => sel <> [] /\ len d = len data /\ forall o, (forall c, In c sel -> ~ in_cavity o c) -> get d o = get data o
  end.
Proof.
  cbn zeta. intro P. rewrite mutate_eq. cbn zeta. set (sel := selected limit skip (listed nm csv)) in *.
  destruct sel as [|c0 sel'] eqn:E; [reflexivity|]. rewrite <- E in *. split; [congruence|]. split.
  - unfold len. rewrite all_length by exact P. reflexivity.
  - intros o H. unfold get. apply all_outside; [exact P|]. apply Forall_forall. intros c I. specialize (H c I). unfold in_cavity in H. lia.
Qed.
Print Assumptions C83_only_cavities_partial.

(** Inside a cavity every byte is what the method says. *)
Theorem C83_methods data nm csv m limit skip d :
  let sel := selected limit skip (listed nm csv) in
  bytes data -> Forall (fun c => 0 <= fst c <= snd c /\ snd c < zlen data) sel -> ForallOrdPairs disjoint sel ->
  mutate_cavities data nm csv m limit skip = Some d ->
  forall j a b o, nth_error sel j = Some (a, b) -> in_cavity o (a, b) -> get d o = new_byte m data j a b o.
Proof.
  cbn zeta. intros B P D. rewrite mutate_eq. cbn zeta. set (sel := selected limit skip (listed nm csv)) in *. intros E j a b o J I.
  assert (Pr : proper sel) by (eapply Forall_impl; [|exact P]; cbn; tauto).
  assert (X : d = apply_all m 0 sel data) by (destruct sel; [discriminate|congruence]). subst d.
  assert (Q : 0 <= a <= b /\ b < zlen data) by (rewrite Forall_forall in P; apply nth_error_In in J; exact (P _ J)).
  unfold in_cavity in I. cbn in I. unfold get. rewrite (all_inside m (N.to_nat o) j a b); auto; [|lia|unfold zlen in Q; lia].
  rewrite Z.add_0_l. apply method_byte; tauto.
Qed.
Print Assumptions C83_methods.

(** But a file whose cavities could not be found gets a line too, and the mutator takes its error code
    for an offset from the end: a byte that nobody called a cavity is changed. *)
Theorem C83_errors_refuted data nm det :
  In det [DCavitiesTimeout; DFailed; DCavitiesFailed] -> bytes data -> 4 <= zlen data ->
  exists d, mutate_cavities data nm (detection_rows nm det) MFlip (-1) 0 = Some d /\ d <> data.
Proof.
  intros D B L.
  assert (G : forall k : nat, (2 <= k <= 4)%nat -> exists d, mutate_cavities data nm [(nm, - Z.of_nat k, - Z.of_nat k)] MFlip (-1) 0 = Some d /\ d <> data).
  { intros k K. unfold mutate_cavities, iter_cavities. cbn [filter fst snd]. rewrite name_eqb_refl. cbn.
    destruct (- Z.of_nat k) eqn:EK; [lia|lia|]. eexists. split; [reflexivity|]. rewrite <- EK. intro H.
    assert (X : nth_error (slice_set data (- Z.of_nat k) (- Z.of_nat k + 1) (map flip (slice_get data (- Z.of_nat k) (- Z.of_nat k + 1)))) (length data - k) =
      option_map flip (nth_error data (length data - k))).
    { unfold zlen in L. unfold slice_set, slice_get, slice_hi, slice_lo, bound, zlen.
      destruct (Z.ltb_spec (- Z.of_nat k) 0); [|lia]. destruct (Z.ltb_spec (- Z.of_nat k + 1) 0); [|lia].
      replace (Z.to_nat (Z.max 0 (Z.min (- Z.of_nat k + Z.of_nat (length data)) (Z.of_nat (length data))))) with (length data - k)%nat by lia.
      replace (Z.to_nat (Z.max 0 (Z.min (- Z.of_nat k + 1 + Z.of_nat (length data)) (Z.of_nat (length data))))) with (S (length data - k))%nat by lia.
      rewrite PeanoNat.Nat.max_r by lia. replace (S (length data - k) - (length data - k))%nat with 1%nat by lia.
      rewrite nth_error_app2 by (rewrite firstn_length; lia). rewrite firstn_length. replace (length data - k - Nat.min (length data - k) (length data))%nat with 0%nat by lia.
      assert (SK : nth_error (skipn (length data - k) data) 0 = nth_error data (length data - k)) by (rewrite nth_skipn; f_equal; lia).
      destruct (skipn (length data - k) data) as [|x r]; cbn in *; rewrite <- SK; [|reflexivity].
      symmetry in SK. apply nth_error_None in SK. lia. }
    rewrite H in X. destruct (nth_error data (length data - k)) as [x|] eqn:E; [|apply nth_error_None in E; unfold zlen in L; lia].
    cbn in X. inversion X as [F]. assert (BX : (x < 256)%N) by (unfold bytes in B; rewrite Forall_forall in B; apply B; eapply nth_error_In, E).
    rewrite flip_byte in F by exact BX. lia. }
  destruct D as [<-|[<-|[<-|[]]]]; [apply (G 2%nat)|apply (G 3%nat)|apply (G 4%nat)]; lia.
Qed.
Print Assumptions C83_errors_refuted.

Example C83_case :
  mutate_cavities [10; 11; 12; 13; 14; 15]%N [97]%N [([97]%N, 1, 2); ([98]%N, 0, 5); ([97]%N, 4, 4)] MFlip (-1) 0 = Some [10; 244; 243; 13; 241; 15]%N /\
  mutate_cavities [10; 11; 12; 13; 14; 15]%N [97]%N [([97]%N, 1, 3); ([97]%N, 4, 4)] MReverse 1 0 = Some [10; 13; 12; 11; 14; 15]%N /\
  mutate_cavities [10; 11; 12; 13; 14; 15]%N [97]%N [([97]%N, 1, 3); ([97]%N, 4, 4)] MZero (-1) 1 = Some [10; 11; 12; 13; 0; 15]%N /\
  mutate_cavities [10; 11]%N [97]%N [([98]%N, 0, 1)] MZero (-1) 0 = None.
Proof. vm_compute. auto. Qed.
Example C83_case_error : mutate_cavities [10; 11; 12; 13]%N [97]%N (detection_rows [97]%N DCavitiesTimeout) MZero (-1) 0 = Some [10; 11; 0; 13]%N.
Proof. reflexivity. Qed.

(** *** C84: from the cavity finder to the mutator *)

(** [rs] are the cavities "polytracker cavities" prints for the file (C32: the maximal runs of unused
    offsets, half-open), under the name the mutator looks for.  All cavity bytes are flipped, and
    nothing else but the byte behind each cavity. *)
Lemma printed_listed nm rs : listed nm (printed [(nm, rs)]) = map (fun c : N * N => (Z.of_N (fst c), Z.of_N (snd c))) rs.
Proof.
  unfold printed. cbn. rewrite app_nil_r. induction rs as [|[a b] rs IH]; [reflexivity|]. cbn. rewrite name_eqb_refl. cbn. now rewrite IH.
Qed.
Lemma select_all l : selected (-1) 0 l = l. Proof. reflexivity. Qed.
Lemma apart_from : forall rs from x, apart from rs -> In x rs -> (from <= fst x /\ fst x < snd x)%N.
Proof.
  induction rs as [|[a b] rs IH]; intros from x H I; [contradiction|]. destruct H as (H1 & H2 & H3). destruct I as [<-|I]; [cbn; lia|].
  destruct (IH _ _ H3 I) as (Q1 & Q2). lia.
Qed.
Lemma apart_pairs : forall rs from, apart from rs -> ForallOrdPairs disjoint (map (fun c : N * N => (Z.of_N (fst c), Z.of_N (snd c))) rs).
Proof.
  induction rs as [|[a b] rs IH]; intros from H; [constructor|]. destruct H as (H1 & H2 & H3). cbn. constructor; [|eapply IH, H3].
  apply Forall_forall. intros x I. apply in_map_iff in I as (y & <- & I). destruct (apart_from _ _ _ H3 I) as (Q & _). left. cbn. lia.
Qed.
Theorem C84_pipeline_partial data nm rs cavity :
  bytes data -> maximal_runs cavity rs -> (forall o, cavity o -> (o < len data)%N) ->
  match mutate_cavities data nm (printed [(nm, rs)]) MFlip (-1) 0 with
  | None => forall o, ~ cavity o
  | Some d => len d = len data /\
      (forall o, cavity o -> get d o = option_map (fun x => (255 - x)%N) (get data o)) /\
      (forall o, ~ cavity o -> ((o = 0)%N \/ ~ cavity (o - 1)%N) -> get d o = get data o)
  end.
Proof.
  intros B [A M] IN. rewrite mutate_eq. cbn zeta. rewrite printed_listed, select_all. set (sel := map _ rs).
  assert (Pr : proper sel).
  { apply Forall_forall. intros x I. apply in_map_iff in I as (y & <- & I). destruct (apart_from _ _ _ A I). cbn. lia. }
  destruct sel as [|c0 sel'] eqn:E.
  - intros o C. apply M in C as (a & b & I & _). unfold sel in E. destruct rs; [contradiction|discriminate].
  - rewrite <- E in *. split; [unfold len; rewrite all_length by exact Pr; reflexivity|]. split.
    + intros o C. pose proof (IN o C) as L. apply M in C as (a & b & I & O). apply In_nth_error in I as (j & J).
      assert (J2 : nth_error sel j = Some (Z.of_N a, Z.of_N b)) by (unfold sel; rewrite nth_error_map, J; reflexivity).
      assert (AB : (a < b)%N) by (destruct (apart_from _ _ _ A (nth_error_In _ _ J)); cbn in *; lia).
      unfold get. rewrite (all_inside MFlip (N.to_nat o) j (Z.of_N a) (Z.of_N b)); auto; [|eapply apart_pairs, A|lia|unfold len in L; lia].
      cbn [apply_method]. rewrite nth_error_map, slice_get_nth; [|lia|rewrite slice_get_length by lia; unfold len in L; lia].
      replace (Z.to_nat (Z.of_N a) + (N.to_nat o - Z.to_nat (Z.of_N a)))%nat with (N.to_nat o) by lia.
      destruct (nth_error data (N.to_nat o)) as [x|] eqn:EX; [|reflexivity]. cbn. f_equal. apply flip_byte.
      unfold bytes in B. rewrite Forall_forall in B. apply B. eapply nth_error_In, EX.
    + intros o NC NP. unfold get. apply all_outside; [exact Pr|]. apply Forall_forall. intros x I. apply in_map_iff in I as ([a b] & <- & I). cbn.
      destruct (apart_from _ _ _ A I) as (_ & AB). cbn in AB. destruct (N.ltb_spec o a); [left; lia|]. destruct (N.ltb_spec b o); [right; lia|]. exfalso.
      destruct (N.ltb_spec o b).
      * apply NC, M. exists a, b. auto with *.
      * assert (o = b) by lia. subst o. destruct NP as [NP|NP]; [lia|]. apply NP, M. exists a, b. split; [exact I|lia].
Qed.
Print Assumptions C84_pipeline_partial.

(** The byte behind every cavity is flipped as well, although it is used: the finder prints the end of
    a cavity, the mutator takes it for the last byte. *)
Theorem C84_end_refuted data nm rs cavity a b :
  bytes data -> maximal_runs cavity rs -> In (a, b) rs -> (b < len data)%N ->
  exists d, mutate_cavities data nm (printed [(nm, rs)]) MFlip (-1) 0 = Some d /\ ~ cavity b /\ get d b <> get data b.
Proof.
  intros B [A M] I L. rewrite mutate_eq. cbn zeta. rewrite printed_listed, select_all. set (sel := map _ rs).
  assert (Pr : proper sel).
  { apply Forall_forall. intros x Ix. apply in_map_iff in Ix as (y & <- & Iy). destruct (apart_from _ _ _ A Iy). cbn. lia. }
  apply In_nth_error in I as (j & J). assert (AB : (a < b)%N) by (destruct (apart_from _ _ _ A (nth_error_In _ _ J)); cbn in *; lia).
  assert (J2 : nth_error sel j = Some (Z.of_N a, Z.of_N b)) by (unfold sel; rewrite nth_error_map, J; reflexivity).
  exists (apply_all MFlip 0 sel data). split; [destruct sel; [destruct j; discriminate|reflexivity]|]. split.
  - intro C. apply M in C as (a' & b' & I' & O). apply In_nth_error in I' as (j' & J').
    assert (J2' : nth_error sel j' = Some (Z.of_N a', Z.of_N b')) by (unfold sel; rewrite nth_error_map, J'; reflexivity).
    destruct (PeanoNat.Nat.eq_dec j j') as [<-|NJ]; [rewrite J in J'; inversion J'; subst; lia|].
    assert (DJ : disjoint (Z.of_N a, Z.of_N b) (Z.of_N a', Z.of_N b') \/ disjoint (Z.of_N a', Z.of_N b') (Z.of_N a, Z.of_N b)).
    { pose proof (apart_pairs rs 0%N A) as FP. fold sel in FP. revert FP J2 J2' NJ. generalize (Z.of_N a, Z.of_N b) (Z.of_N a', Z.of_N b'). generalize sel. clear. intros l0 x y FP. revert j j'. induction FP as [|c l Fc FP IH]; intros j j' J2 J2' NJ; [destruct j; discriminate|].
      destruct j as [|j], j' as [|j']; cbn in J2, J2'; try congruence.
      - inversion J2; subst. left. rewrite Forall_forall in Fc. apply Fc. eapply nth_error_In, J2'.
      - inversion J2'; subst. right. rewrite Forall_forall in Fc. apply Fc. eapply nth_error_In, J2.
      - apply (IH j j'); congruence. }
    destruct DJ as [[Q|Q]|[Q|Q]]; cbn in Q; lia.
  - unfold get. rewrite (all_inside MFlip (N.to_nat b) j (Z.of_N a) (Z.of_N b)); auto; [|eapply apart_pairs, A|lia|unfold len in L; lia].
    cbn [apply_method]. rewrite nth_error_map, slice_get_nth; [|lia|rewrite slice_get_length by lia; unfold len in L; lia].
    replace (Z.to_nat (Z.of_N a) + (N.to_nat b - Z.to_nat (Z.of_N a)))%nat with (N.to_nat b) by lia.
    destruct (nth_error data (N.to_nat b)) as [x|] eqn:EX; [|apply nth_error_None in EX; unfold len in L; lia].
    cbn. assert (BX : (x < 256)%N) by (unfold bytes in B; rewrite Forall_forall in B; apply B; eapply nth_error_In, EX).
    rewrite flip_byte by exact BX. intro H. assert (F : (255 - x = x)%N) by congruence. lia.
Qed.
Print Assumptions C84_end_refuted.

(** And the finder prints the path that the traced program opened, /inputs/NAME, while the mutator looks
    for NAME: it finds no cavity of a file that was processed without errors. *)
Theorem C84_names_refuted data nm rs m limit skip :
  mutate_cavities data nm (detection_rows nm (DDone (printed [(container_path nm, rs)]))) m limit skip = None.
Proof.
  cbn [detection_rows]. rewrite mutate_eq. cbn zeta.
  assert (E : listed nm (printed [(container_path nm, rs)]) = []).
  { assert (X : name_eqb (container_path nm) nm = false).
    { destruct (name_eqb (container_path nm) nm) eqn:E; [|reflexivity]. apply name_eqb_iff in E. apply (f_equal (@length N)) in E.
      unfold container_path in E. rewrite app_length in E. cbn in E. lia. }
    unfold printed. cbn [flat_map]. rewrite app_nil_r. generalize dependent (container_path nm). intros p X. induction rs as [|c rs IH]; [reflexivity|]. cbn. rewrite X. exact IH. }
  rewrite E. unfold selected. rewrite skipn_nil, firstn_nil. destruct (limit =? -1); reflexivity.
Qed.
Print Assumptions C84_names_refuted.

Example C84_case :
  maximal_runs (fun o => (o = 1 \/ o = 2 \/ o = 4)%N) [(1, 3); (4, 5)]%N /\
  mutate_cavities [10; 11; 12; 13; 14; 15]%N [97]%N (printed [([97]%N, [(1, 3); (4, 5)]%N)]) MFlip (-1) 0 = Some [10; 244; 243; 242; 241; 240]%N.
Proof.
  split; [|reflexivity]. split; [cbn; lia|]. intro o. split.
  - intros (a & b & [H|[H|[]]] & O); inversion H; subst; lia.
  - intros [->|[->| ->]]; [exists 1%N, 3%N|exists 1%N, 3%N|exists 4%N, 5%N]; cbn; intuition lia.
Qed.

(** *** C85: batches *)

(** Whatever the order in which tasks end: if none raises, every path given (on the command line or on
    the standard input) is processed exactly once, every result is written exactly once, in the order
    in which the tasks end, and the number of files is right. *)
Theorem C85_all task qlen pick paths stdin : (0 < qlen)%nat ->
  (forall f, exists r, task f = Ok r) ->
  let all := path_iterator paths stdin in
  exists b, (forall fuel, (length all < fuel)%nat -> process_paths task qlen pick fuel all = Ok b) /\
    Permutation (b_done b) all /\ length (b_done b) = length all /\
    b_out b = flat_map (fun f => match task f with Ok (Some t) => [t] | _ => [] end) (b_done b).
Proof.
  intros Q T. cbn zeta. set (all := path_iterator paths stdin).
  assert (T' : forall f, task f = Exit \/ exists r, task f = Ok r) by (intro f; right; apply T).
  assert (S : forall fuel, (length all < fuel)%nat -> exists b, process_paths task qlen pick fuel all = Ok b /\ binv task qlen all b /\ b_left b = [] /\ b_futures b = []).
  { intros fuel F. destruct (batch_ok task qlen pick Q T' all fuel _ (start_binv task qlen pick Q all)) as [((f & _ & X) & _)|H]; [cbn; lia| |exact H].
    destruct (T f) as (r & E). congruence. }
  assert (ST : forall f1 b r, batch_loop task qlen pick f1 b = Ok r -> forall f2, (f1 <= f2)%nat -> batch_loop task qlen pick f2 b = Ok r).
  { clear. induction f1 as [|f1 IH]; intros b r H f2 L; [discriminate|]. destruct f2 as [|f2]; [lia|]. cbn [batch_loop] in *.
    apply bind_ok in H as (b' & -> & H). cbn [bind]. destruct (b_enqueue b' || negb (Nat.eqb (length (b_futures b')) 0)); [|exact H]. apply IH; [exact H|lia]. }
  destruct (S (Datatypes.S (length all))) as (b & E & I & L & F); [lia|]. exists b. split.
  - intros fuel H. unfold process_paths in *. eapply ST; [exact E|lia].
  - destruct (bi_paths _ _ _ _ I) as (taken & EP & PM). rewrite L, app_nil_r in EP. rewrite F, app_nil_r in PM. subst taken.
    split; [apply Permutation_sym, PM|]. split; [symmetry; apply Permutation_length, PM|]. exact (bi_out _ _ _ _ I).
Qed.
Print Assumptions C85_all.

(** The files given: "-" stands for the lines of the standard input, once. *)
Theorem C85_paths paths stdin :
  (~ In [45]%N paths -> path_iterator paths stdin = paths) /\
  (forall a b, paths = a ++ [45]%N :: b -> ~ In [45]%N a ->
    path_iterator paths stdin = a ++ stdin ++ filter (fun p => negb (name_eqb p [45]%N)) b).
Proof.
  assert (N : forall a b std, ~ In [45]%N a -> path_iterator (a ++ b) std = a ++ path_iterator b std).
  { induction a as [|p a IH]; intros b std H; [reflexivity|]. cbn [app path_iterator]. destruct (name_eqb p [45%N]) eqn:E.
    - apply name_eqb_iff in E. subst. exfalso. apply H. now left.
    - f_equal. apply IH. intro I. apply H. now right. }
  split.
  - intro H. rewrite <- (app_nil_r paths) at 1. rewrite N by exact H. cbn. apply app_nil_r.
  - intros a b -> H. rewrite N by exact H. cbn [path_iterator]. rewrite name_eqb_refl. do 2 f_equal.
    induction b as [|p b IH]; [reflexivity|]. cbn [path_iterator filter]. destruct (name_eqb p [45%N]); cbn [negb]; [exact IH|now f_equal].
Qed.
Print Assumptions C85_paths.

(** If a task raises, so does the batch: the results of the others may be lost. *)
Theorem C85_raise_refuted task qlen pick paths : (0 < qlen)%nat ->
  (forall f, task f = Exit \/ exists r, task f = Ok r) -> (exists f, In f paths /\ task f = Exit) ->
  forall fuel, (length paths < fuel)%nat -> process_paths task qlen pick fuel paths = Exit.
Proof.
  intros Q T (f & I & X) fuel F.
  destruct (batch_ok task qlen pick Q T paths fuel _ (start_binv task qlen pick Q paths)) as [(_ & H)|(b & _ & J & L & FU)]; [cbn; lia|exact H|].
  exfalso. destruct (bi_paths _ _ _ _ J) as (taken & EP & PM). rewrite L, app_nil_r in EP. rewrite FU, app_nil_r in PM. subst taken.
  pose proof (bi_done _ _ _ _ J) as D. rewrite Forall_forall in D. apply (D f); [|exact X]. eapply Permutation_in; [exact PM|exact I].
Qed.
Print Assumptions C85_raise_refuted.

(** No more than [qlen] tasks are submitted and not ended. *)
Inductive turns (task : name -> Res (option N)) (qlen : nat) (pick : nat -> nat) (paths : list name) : batch -> Prop :=
| turns_start : turns task qlen pick paths (mkBatch paths [] true [] [])
| turns_turn b b' : turns task qlen pick paths b -> turn task qlen pick b = Ok b' -> turns task qlen pick paths b'.
Theorem C85_bounded task qlen pick paths b : (0 < qlen)%nat -> (forall f, task f = Exit \/ exists r, task f = Ok r) ->
  turns task qlen pick paths b ->
  (length (b_futures b) <= qlen)%nat /\ (length (snd (fst (enqueue_loop qlen (b_left b) (b_futures b)))) <= qlen)%nat.
Proof.
  intros Q T R. assert (I : binv task qlen paths b).
  { induction R as [|b b' R IH H]; [exact (start_binv task qlen pick Q paths)|]. destruct (turn_ok task qlen pick Q T paths b IH) as [(_ & E)|(b2 & E & I2 & _)]; congruence. }
  split; [exact (bi_len _ _ _ _ I)|exact (turn_bound task qlen pick Q T paths b I)].
Qed.
Print Assumptions C85_bounded.

Example C85_case :
  process_paths (fun f => Ok (match f with [x] => Some x | _ => None end)) 2 (fun n => n) 10 (path_iterator [[1]; [45]; [2]]%N [[3]; []; [4]]%N)
  = Ok (mkBatch [] [] false [1; 3; 2; 4]%N [[1]; []; [3]; [2]; [4]]%N).
Proof. vm_compute. reflexivity. Qed.
Example C85_case_lost : process_paths (fun f => match f with [7%N] => Exit | [x] => Ok (Some x) | _ => Ok None end) 2 (fun n => n) 10 [[1]; [7]; [2]]%N = Exit.
Proof. reflexivity. Qed.

(** *** C86: one byte at a time *)

(** Each file written differs from the input in the byte at the offset alone, which is flipped; the
    buffer is as before, so that the next one starts from the input again. *)
Theorem C86_one_byte data o : bytes data -> 0 <= o < zlen data ->
  exists file, write_mutated data o true = (data, Some file) /\ len file = len data /\
    (forall x, get data (Z.to_N o) = Some x -> get file (Z.to_N o) = Some (255 - x)%N) /\
    (forall i, i <> Z.to_N o -> get file i = get data i).
Proof.
  intros B O. destruct (write_ok data o O) as (x & G & E). eexists. split; [exact E|].
  split; [apply len_upd|]. split.
  - intros y Y. rewrite G in Y. inversion Y; subst. rewrite get_upd_eq; [|eapply get_some, G]. f_equal. apply flip_byte.
    unfold bytes in B. rewrite Forall_forall in B. apply B. eapply nth_error_In, G.
  - intros i I. apply get_upd_neq. congruence.
Qed.
Print Assumptions C86_one_byte.

(** Not if the write raises. *)
Theorem C86_failed_write_refuted data o : bytes data -> 0 <= o < zlen data ->
  fst (write_mutated data o false) <> data.
Proof.
  intros B O. destruct (write_ok data o O) as (x & G & _). unfold write_mutated. destruct (Z.ltb_spec o 0); [lia|]. destruct (Z.leb_spec (zlen data) o); [lia|].
  cbn [orb]. rewrite G. cbn. intro HD. assert (H2 : get (upd data (Z.to_N o) (flip x)) (Z.to_N o) = Some x) by (rewrite HD; exact G).
  rewrite get_upd_eq in H2 by (eapply get_some, G). assert (F : flip x = x) by congruence.
  assert (BX : (x < 256)%N) by (unfold bytes in B; rewrite Forall_forall in B; apply B; eapply nth_error_In, G). rewrite flip_byte in F by exact BX. lia.
Qed.
Print Assumptions C86_failed_write_refuted.

(** The other offsets are sampled from those that are not cavities, as many as asked for. *)
Theorem C86_sample fuel size nm csv rnd n r : sample fuel size (cavity_offsets nm csv) rnd 0 n = Ok r ->
  length r = n /\ forall o, In o r -> 0 <= o < size /\ forall c, In c (listed nm csv) -> ~ (fst c <= o <= snd c).
Proof.
  intro H. destruct (sample_ok _ _ _ _ _ _ _ H) as (L & F). split; [exact L|]. intros o I. rewrite Forall_forall in F. destruct (F o I) as (B & N).
  split; [exact B|]. intros [a b] C D. apply N, in_offsets. exists a, b. auto.
Qed.
Print Assumptions C86_sample.

(** The report, if all offsets are in the file and the tool has an output for every mutated file:
    every offset that is listed is tried once, and the counts are those of the outputs that are equal
    and different. *)
Definition same_output (tool : list N -> option N) (data : list N) (orig : N) (o : Z) : bool :=
  match tool (mutated_at data o) with Some s => N.eqb s orig | None => false end.
Theorem C86_report_partial tool data nm csv order sampled orig :
  let offs := order (cavity_offsets nm csv) in
  NoDup offs -> (forall o, In o offs <-> exists c, In c (listed nm csv) /\ fst c <= o <= snd c) ->
  (forall o, In o offs \/ In o sampled -> 0 <= o < zlen data /\ tool (mutated_at data o) <> None) ->
  tool data = Some orig ->
  verify_bytes tool data nm csv order sampled = Ok (Some (mkReport (zlen data)
    (mkStats (len offs) 0 (len (filter (same_output tool data orig) offs)) (len (filter (fun o => negb (same_output tool data orig o)) offs)))
    (mkStats (len sampled) 0 (len (filter (same_output tool data orig) sampled)) (len (filter (fun o => negb (same_output tool data orig o)) sampled))))).
Proof.
  cbn zeta. intros ND M IN T. unfold verify_bytes. rewrite T. set (offs := order (cavity_offsets nm csv)) in *.
  assert (FE : forall l, (forall o, In o l -> tool (mutated_at data o) <> None) ->
    filter (fun o => match tool (mutated_at data o) with Some s => negb (N.eqb s orig) | None => false end) l = filter (fun o => negb (same_output tool data orig o)) l).
  { intros l H. apply filter_ext_in. intros o I. unfold same_output. specialize (H o I). destruct (tool (mutated_at data o)); [reflexivity|congruence]. }
  assert (R : forall l, (forall o, In o l -> 0 <= o < zlen data /\ tool (mutated_at data o) <> None) ->
    do_mutation tool orig l data stats0 = Ok (data, mkStats (len l) 0 (len (filter (same_output tool data orig) l)) (len (filter (fun o => negb (same_output tool data orig o)) l)))).
  { intros l H. rewrite mutation_ok.
    - cbn [stats0 st_count st_no_output st_eq st_diff]. rewrite !N.add_0_l. rewrite FE by (intros o I; apply H, I). reflexivity.
    - apply Forall_forall. intros o I. apply H, I.
    - apply Forall_forall. intros o I. apply H, I. }
  assert (EX : (if existsb (fun o => 0 <=? o) offs then offs else []) = offs).
  { destruct offs as [|o r] eqn:E; [reflexivity|]. cbn. assert (0 <= o) by (apply IN; left; cbn; auto). destruct (Z.leb_spec 0 o); [reflexivity|lia]. }
  rewrite EX, (R offs) by (intros o I; apply IN; auto). cbn [bind fst snd]. rewrite (R sampled) by (intros o I; apply IN; auto). reflexivity.
Qed.
Print Assumptions C86_report_partial.

(** Else there is no report at all: a mutated file for which the tool writes no output ends the check
    (the count for those stays zero in every report), and so does a cavity that ends with the file,
    since the finder prints the size of the file as its end. *)
Theorem C86_no_output_refuted tool data nm csv order sampled orig o :
  tool data = Some orig -> In o (order (cavity_offsets nm csv)) -> 0 <= o < zlen data -> tool (mutated_at data o) = None ->
  verify_bytes tool data nm csv order sampled = Exit.
Proof.
  intros T I B N. unfold verify_bytes. rewrite T. rewrite mutation_exit; [reflexivity|]. exists o. split; [|auto].
  destruct (existsb (fun x => 0 <=? x) (order (cavity_offsets nm csv))) eqn:E; [exact I|].
  assert (existsb (fun x => 0 <=? x) (order (cavity_offsets nm csv)) = true); [|congruence]. apply existsb_exists. exists o. split; [exact I|]. apply Z.leb_le. lia.
Qed.
Print Assumptions C86_no_output_refuted.
Theorem C86_last_cavity_refuted tool data nm rs order sampled orig a :
  tool data = Some orig -> In (a, len data) rs -> (a < len data)%N ->
  (forall l o, In o (order l) <-> In o l) ->
  verify_bytes tool data nm (printed [(nm, rs)]) order sampled = Exit.
Proof.
  intros T I A O. unfold verify_bytes. rewrite T.
  assert (X : In (zlen data) (order (cavity_offsets nm (printed [(nm, rs)])))).
  { apply O, in_offsets. exists (Z.of_N a), (zlen data). split; [|unfold zlen, len in *; lia]. rewrite printed_listed. apply in_map_iff.
    exists (a, len data). split; [|exact I]. cbn. f_equal. unfold zlen, len. lia. }
  rewrite mutation_exit; [reflexivity|]. exists (zlen data). split; [|left; lia].
  destruct (existsb (fun x => 0 <=? x) (order (cavity_offsets nm (printed [(nm, rs)])))) eqn:E; [exact X|].
  assert (existsb (fun x => 0 <=? x) (order (cavity_offsets nm (printed [(nm, rs)]))) = true); [|congruence].
  apply existsb_exists. exists (zlen data). split; [exact X|]. apply Z.leb_le. unfold zlen. lia.
Qed.
Print Assumptions C86_last_cavity_refuted.

(** A tool that sums the bytes at the even offsets. *)
Definition even_sum (l : list N) : option N :=
  Some (fold_right N.add 0%N (map (fun i => nth i l 0%N) [0; 2; 4]%nat)).
Example C86_case :
  verify_bytes even_sum [10; 11; 12; 13; 14]%N [97]%N [([97]%N, 1, 1); ([97]%N, 3, 4)] (fun l => l) [0]
  = Ok (Some (mkReport 5 (mkStats 3 0 2 1) (mkStats 1 0 0 1))).
Proof. vm_compute. reflexivity. Qed.
Example C86_case_sample : sample 5 4 [1; 2] (fun k => nth k [1; 3; 2; 0] 0) 0 2 = Ok [3; 0].
Proof. reflexivity. Qed.
