(** C13, C14: allocation inside a section and fixed-size records. *)
From Coq Require Import NArith List Bool Lia.
From Verif Require Import M_Base M_Memory M_Section S_Section P_Base P_Memory P_Section P_Fixed.
Import ListNotations.
Open Scope N_scope.

(** C13: a request of any 64-bit size is granted exactly when it fits (no matter
    whether the pointer addition wraps), the granted regions lie end to end inside the
    section, and refusals change nothing. *)
Theorem C13_section_allocation : forall s sizes answers s',
  section_ok s -> Forall (fun n => n < 2 ^ 64) sizes -> requests s sizes = (answers, s') ->
  map fst answers = sizes /\
  section_ok s' /\ sbeg s' = sbeg s /\ send s' = send s /\
  tiles (wit s) (wit s') (granted answers) /\
  (forall p n, In (p, n) (granted answers) -> wit s <= p /\ p + n <= send s).
Proof.
  intros s sizes l s' K F R. destruct (requests_spec sizes s l s' K F R) as (A & B & C & D & T & M).
  repeat (split; [assumption|]). intros p n I. destruct (tiles_lower _ _ _ T p n I).
  destruct A as (A1 & A2 & A3). rewrite C in A2. lia.
Qed.

Theorem C13_regions_disjoint : forall s sizes answers s' i j p n q k,
  section_ok s -> Forall (fun n => n < 2 ^ 64) sizes -> requests s sizes = (answers, s') ->
  get (granted answers) i = Some (p, n) -> get (granted answers) j = Some (q, k) -> i < j ->
  p + n <= q.
Proof.
  intros s sizes l s' i j p n q k K F R Gi Gj L.
  destruct (requests_spec sizes s l s' K F R) as (_ & _ & _ & _ & T & _).
  revert T i j Gi Gj L. generalize (wit s'), (wit s). induction (granted l) as [|[p0 n0] g IH]; intros e a T i j Gi Gj L.
  - destruct i; discriminate Gi || (rewrite get_nil in Gi; discriminate).
  - cbn in T. destruct T as [-> T]. rewrite get_cons_S in Gj by lia.
    destruct (N.eqb_spec i 0) as [->|Hi].
    + cbn in Gi. inversion Gi; subst. apply (tiles_lower _ _ _ T q k).
      unfold get in Gj. now apply nth_error_In in Gj.
    + rewrite get_cons_S in Gi by lia. apply (IH e _ T (i - 1) (j - 1)); auto. lia.
Qed.

Theorem C13_refused_iff_too_large : forall s n, section_ok s -> n < 2 ^ 64 ->
  (sect_write s n = None <-> send s < wit s + n).
Proof. exact sect_write_none. Qed.

(** Includes a request that wraps around the address space (refused) in between. *)
Example C13_case : section_ok (mkSect 4096 4196 4096) /\
  requests (mkSect 4096 4196 4096) [10; 2 ^ 64 - 5; 80; 11; 0; 10] =
  ([(10, Some 4096); (2 ^ 64 - 5, None); (80, Some 4106); (11, None); (0, Some 4186); (10, Some 4186)],
   mkSect 4096 4196 4196).
Proof. split; [repeat split; vm_compute; congruence|vm_compute; reflexivity]. Qed.

(** C14: for every program of construct/construct_range calls on a fresh section with
    room for [cap] records, the answers (record indices, refusals) are those of a
    plain list with a capacity, every record ever constructed is read back verbatim at
    its index, and no byte outside of the section changes. *)
Theorem C14_fixed_size_records : forall es cap b m ops,
  1 <= es -> es < 2 ^ 64 -> b + es * cap < 2 ^ 64 ->
  (forall a, b <= a -> a < b + es * cap -> m a = 0) ->
  Forall (fop_ok es) ops ->
  exists m' s',
    code_run es m (sect_new b (b + es * cap)) ops = Ok (fst (spec_run cap [] ops), m', s') /\
    sect_count s' es = len (snd (spec_run cap [] ops)) /\
    (forall i r, get (snd (spec_run cap [] ops)) i = Some r -> entry m' s' es i = r) /\
    (forall a, a < b \/ b + es * cap <= a -> m' a = m a).
Proof.
  intros es cap b m ops E1 E2 E3 Z K.
  assert (F : frep es cap b m (sect_new b (b + es * cap)) []).
  { split; [apply holds_new; auto; lia|]. split; [constructor|auto]. }
  destruct (code_run_ok es cap b E1 E2 E3 ops m _ [] F K) as (m' & s' & R & (H & Ro & _) & Fr).
  exists m', s'. split; [exact R|]. split; [eapply holds_count; eauto|]. split; [|exact Fr].
  intros i r G. eapply holds_entry; eauto.
Qed.

Example C14_case : Forall (fop_ok 2) [FOne [1; 2]; FMany 2 (fun i => [i; i + 7]); FMany 2 (fun i => [9; 9]); FOne [3; 4]] /\
  spec_run 4 [] [FOne [1; 2]; FMany 2 (fun i => [i; i + 7]); FMany 2 (fun i => [9; 9]); FOne [3; 4]] =
  ([Some 0; Some 1; None; Some 3], [[1; 2]; [0; 7]; [1; 8]; [3; 4]]).
Proof. split; [|vm_compute; reflexivity]. repeat constructor; cbn; unfold two64; try lia. Qed.

(** When the byte size of the request overflows 64 bits the request is granted although
    it does not fit. *)
Theorem C14_overflowing_range_refuted : exists m s es n gen p m' s',
  section_ok s /\ construct_range m s es n gen = Some (p, m', s') /\ send s < wit s + es * n.
Proof.
  exists mem_zero, (mkSect 4096 8192 4096), 8, (2 ^ 61 + 3), (fun _ => [1;2;3;4;5;6;7;8]).
  eexists _, _, _. split; [repeat split; vm_compute; congruence|].
  split; [vm_compute; reflexivity|]. vm_compute. reflexivity.
Qed.

Print Assumptions C13_section_allocation.
Print Assumptions C13_regions_disjoint.
Print Assumptions C13_refused_iff_too_large.
Print Assumptions C14_fixed_size_records.
Print Assumptions C14_overflowing_range_refuted.
