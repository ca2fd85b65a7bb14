(** C133: every tainted byte has an origin. *)
From Coq Require Import NArith Arith List Bool Lia ZArith ZifyN ZifyBool.
From Verif Require Import M_Base M_DfsanOrigin M_DfsanChain M_DfsanTrace M_DfsanStore T_DfsanOrigin T_DfsanChain T_DfsanTrace.
Import ListNotations.
Open Scope N_scope.

(** Runs of a program outside of signal handlers: labelling with any label, and storing of
    values whose origin is one made so far, or none.  Each has a stack that can be kept, and
    the labels stored by a call are 0 or have one of the lower 16 bits set; stores without a
    call are aligned to 4 bytes. *)
Definition fits16 (s : N) : Prop := s = 0 \/ s mod 2 ^ 16 <> 0.
Inductive ran (f : limits) : world -> list N -> Prop :=
| ran_start : forall o, (forall c, o c = 0) -> ran f (mkWorld (fun _ => 0) o depot0) [0]
| ran_set : forall w os stack label addr size w', ran f w os -> stack <> 0 ->
    set_label false f w stack label addr size = Ok w' ->
    ran f w' (w_origin w' (addr / 4) :: os)
| ran_add : forall union w os stack label addr size w', ran f w os -> stack <> 0 ->
    add_label union false f w stack label addr size = Ok w' ->
    ran f w' (w_origin w' (addr / 4) :: os)
| ran_store : forall w os stack s o addr size w', ran f w os -> stack <> 0 -> In o os -> fits16 s ->
    store_value false f w stack s o addr size = Ok w' ->
    ran f w' (w_origin w' (addr / 4) :: os)
| ran_inline : forall w os aligned8 stack s o addr size w', ran f w os -> stack <> 0 -> In o os -> addr mod 4 = 0 ->
    store_inline false f w aligned8 stack s o addr size = Ok w' ->
    ran f w' (w_origin w' (addr / 4) :: os).

(** What holds of every run: origins of memory are among those made. *)
Definition good (f : limits) (w : world) (os : list N) : Prop :=
  (exists os', made f (w_depot w) os' /\ incl os os' /\ forall c, In (w_origin w c) os') /\
  forall a, w_label w a <> 0 -> w_origin w (a / 4) <> 0.

Lemma chain_good f d os prev stack d' o : made f d os -> In prev os -> stack <> 0 -> per_stack f = 0 ->
  create_chained f d prev stack = Ok (d', o) -> made f d' (o :: os) /\ o <> 0.
Proof.
  intros M I S P E. split; [now apply (made_store f d os prev stack)|].
  destruct (made_known f d os M prev I) as (l & H & K).
  destruct (store_spec f d prev stack d' o l H ltac:(intros Q; apply (K Q)) E) as [[(L & -> & _)|(_ & _ & NZ & _)] _]; [|exact NZ].
  intros ->. inversion H; subst; [|congruence]. cbn in L. lia.
Qed.
Lemma set_origin_cases o x size v c : set_origin o x size v c = v \/ set_origin o x size v c = o c.
Proof.
  destruct (C130_set o x size v c) as [A B].
  destruct (N.eq_dec size 0) as [->|NZ]; [right; apply B; intros (y & Y & _); lia|].
  destruct (N.le_gt_cases (x / 4) c) as [L|L]; [destruct (N.le_gt_cases c ((x + size - 1) / 4)) as [L'|L']|].
  - left. apply A. destruct (N.le_gt_cases x (4 * c)); [exists (4 * c)|exists x]; nia.
  - right. apply B. intros (y & Y & <-). nia.
  - right. apply B. intros (y & Y & <-). nia.
Qed.
Lemma set_origin_in o x size v a : x <= a < x + size -> set_origin o x size v (a / 4) = v.
Proof. intros R. apply C130_set. now exists a. Qed.

Lemma paint_cells_spec n : forall o c v x, paint_cells n o c v x = if in_range c (N.of_nat n) x then v else o x.
Proof.
  induction n as [|n IH]; intros o c v x; cbn [paint_cells].
  - unfold in_range. replace (_ && _) with false by lia. reflexivity.
  - rewrite IH. unfold put, in_range. destruct (N.eqb_spec x c) as [->|NE].
    + replace (_ && _) with false by lia. replace (_ && _) with true by lia. reflexivity.
    + replace ((c <=? x) && (x <? c + N.of_nat (S n))) with ((c + 1 <=? x) && (x <? c + 1 + N.of_nat n)) by lia. reflexivity.
Qed.
Lemma paint_pairs_spec n : forall o c v x, paint_pairs n o c v x = if in_range c (2 * N.of_nat n) x then v else o x.
Proof.
  induction n as [|n IH]; intros o c v x; cbn [paint_pairs].
  - unfold in_range. replace (_ && _) with false by lia. reflexivity.
  - rewrite IH. unfold put, in_range. destruct (N.eqb_spec x (c + 1)) as [->|NE]; [|destruct (N.eqb_spec x c) as [->|NE']].
    + replace (_ && _) with false by lia. replace (_ && _) with true by lia. reflexivity.
    + replace (_ && _) with false by lia. replace (_ && _) with true by lia. reflexivity.
    + replace ((c <=? x) && (x <? c + 2 * N.of_nat (S n))) with ((c + 2 <=? x) && (x <? c + 2 + 2 * N.of_nat n)) by lia. reflexivity.
Qed.
Lemma paint_origin_spec al o c v size x : paint_origin al o c v size x = if in_range c ((size + 3) / 4) x then v else o x.
Proof.
  unfold paint_origin. set (p := if al then size / 8 else 0).
  assert (Q : 2 * p <= (size + 3) / 4) by (unfold p; destruct al; lia). clearbody p.
  rewrite paint_cells_spec, paint_pairs_spec, !N2Nat.id. unfold in_range.
  destruct ((c + 2 * p <=? x) && _) eqn:A.
  - replace (_ && _) with true by lia. reflexivity.
  - destruct ((c <=? x) && (x <? c + 2 * p)) eqn:B.
    + replace (_ && _) with true by lia. reflexivity.
    + replace (_ && _) with false by lia. reflexivity.
Qed.

Lemma good_paint f w os d' o addr size (g : origins) (lab : N -> N) :
  (exists os', made f (w_depot w) os' /\ incl os os' /\ forall c, In (w_origin w c) os') ->
  (forall a, w_label w a <> 0 -> w_origin w (a / 4) <> 0) ->
  (forall os', made f (w_depot w) os' -> incl os os' -> made f d' (o :: os')) -> o <> 0 ->
  (forall a, lab a <> 0 -> addr <= a < addr + size \/ w_label w a <> 0) ->
  (forall c, g c = o \/ g c = w_origin w c) -> (forall a, addr <= a < addr + size -> g (a / 4) = o) ->
  good f (mkWorld lab g d') (g (addr / 4) :: os).
Proof.
  intros (os' & M & In1 & In2) T MK NZ LB G1 G2. split; cbn [w_label w_origin w_depot].
  - exists (o :: os'). split; [now apply MK|].
    assert (Q : forall c, In (g c) (o :: os')).
    { intros c. destruct (G1 c) as [-> | ->]; [now left|right; apply In2]. }
    split; [|exact Q]. intros q [<-|K]; [apply Q|right; now apply In1].
  - intros a L. destruct (LB a L) as [R|R]; [now rewrite G2|].
    destruct (G1 (a / 4)) as [-> | ->]; auto.
Qed.
Lemma good_label f w os (lab : N -> N) x : good f w os -> (forall a, lab a <> 0 -> w_label w a <> 0) ->
  good f (mkWorld lab (w_origin w) (w_depot w)) (w_origin w x :: os).
Proof.
  intros [(os' & M & A & B) T] L. split; cbn [w_label w_origin w_depot]; [|auto].
  exists os'. split; [exact M|]. split; [|exact B]. intros q [<-|K]; auto.
Qed.
Lemma in_range_iff x size a : in_range x size a = true <-> x <= a < x + size.
Proof. unfold in_range. lia. Qed.
Lemma made_none f d os : made f d os -> In 0 os.
Proof. induction 1; [now left|now right]. Qed.

Lemma ran_good f w os : per_stack f = 0 -> ran f w os -> good f w os.
Proof.
  intros P. induction 1 as [o Z|w os stack label addr size w' R IH S E|union w os stack label addr size w' R IH S E|w os stack s o addr size w' R IH S I F E|w os al stack s o addr size w' R IH S I AL E].
  - split; cbn; [|congruence]. exists [0]. split; [constructor|]. split; [apply incl_refl|]. intros c. rewrite Z. now left.
  - unfold set_label in E. destruct (N.eqb_spec label 0) as [->|LZ].
    + injection E as <-. apply (good_label f w os _ (addr / 4)); [exact IH|]. intros a. destruct (in_range _ _ _); congruence.
    + unfold chain_origin in E. destruct (create_chained f (w_depot w) 0 stack) as [[d' o]| | |] eqn:C; cbn [bind fst snd] in E; try discriminate.
      injection E as <-. destruct IH as [K T]. destruct K as (os' & M & K).
      destruct (chain_good f _ _ _ _ _ _ M (made_none _ _ _ M) S P C) as [_ NZ].
      apply (good_paint f w os d' o addr size); [now exists os'|exact T|intros o1 M1 _; now apply (chain_good f (w_depot w) o1 0 stack d' o M1 (made_none _ _ _ M1) S P C)|exact NZ| |intros c; apply set_origin_cases|intros a A; now apply set_origin_in].
      intros a. destruct (in_range addr size a) eqn:R1; [left; now apply in_range_iff|now right].
  - unfold add_label in E. destruct (N.eqb_spec label 0) as [->|LZ].
    + injection E as <-. destruct w as [wl wo wd]. apply (good_label f (mkWorld wl wo wd) os wl (addr / 4)); auto.
    + unfold chain_origin in E. destruct (create_chained f (w_depot w) 0 stack) as [[d' o]| | |] eqn:C; cbn [bind fst snd] in E; try discriminate.
      injection E as <-. destruct IH as [K T]. destruct K as (os' & M & K).
      destruct (chain_good f _ _ _ _ _ _ M (made_none _ _ _ M) S P C) as [_ NZ].
      apply (good_paint f w os d' o addr size); [now exists os'|exact T|intros o1 M1 _; now apply (chain_good f (w_depot w) o1 0 stack d' o M1 (made_none _ _ _ M1) S P C)|exact NZ| |intros c; apply set_origin_cases|intros a A; now apply set_origin_in].
      intros a. destruct (in_range addr size a) eqn:R1; [left; now apply in_range_iff|now right].
  - unfold store_value, maybe_store_origin in E. destruct (N.eqb_spec (s mod 2 ^ 16) 0) as [Z|NZ16].
    + destruct F as [->|F]; [|congruence]. cbn [bind] in E. injection E as <-.
      apply (good_label f w os _ (addr / 4)); [exact IH|]. intros a. destruct (in_range _ _ _); congruence.
    + unfold chain_origin in E. destruct (create_chained f (w_depot w) o stack) as [[d' o']| | |] eqn:C; cbn [bind fst snd w_label w_origin w_depot] in E; try discriminate.
      injection E as <-. destruct IH as [K T]. destruct K as (os' & M & In1 & In2).
      destruct (chain_good f _ _ _ _ _ _ M (In1 _ I) S P C) as [_ NZ].
      apply (good_paint f w os d' o' addr size); [now exists os'|exact T|intros o1 M1 I1; now apply (chain_good f (w_depot w) o1 o stack d' o' M1 (I1 _ I) S P C)|exact NZ| |intros c; apply set_origin_cases|intros a A; now apply set_origin_in].
      intros a. destruct (in_range addr size a) eqn:R1; [left; now apply in_range_iff|now right].
  - unfold store_inline in E. destruct (N.eqb_spec s 0) as [->|NZs].
    + injection E as <-. apply (good_label f w os _ (addr / 4)); [exact IH|]. intros a. destruct (in_range _ _ _); congruence.
    + unfold chain_origin in E. destruct (create_chained f (w_depot w) o stack) as [[d' o']| | |] eqn:C; cbn [bind fst snd] in E; try discriminate.
      injection E as <-. destruct IH as [K T]. destruct K as (os' & M & In1 & In2).
      destruct (chain_good f _ _ _ _ _ _ M (In1 _ I) S P C) as [_ NZ].
      apply (good_paint f w os d' o' addr size).
      * now exists os'.
      * exact T.
      * intros o1 M1 I1; now apply (chain_good f (w_depot w) o1 o stack d' o' M1 (I1 _ I) S P C).
      * exact NZ.
      * intros a. destruct (in_range addr size a) eqn:R1; [left; now apply in_range_iff|now right].
      * intros c. cbn [w_origin]. rewrite paint_origin_spec. destruct (in_range _ _ _); auto.
      * intros a A. cbn [w_origin]. rewrite paint_origin_spec. replace (in_range _ _ _) with true; [reflexivity|]. unfold in_range. lia.
Qed.

(** In such runs, without a limit per stack, every tainted byte has an origin with a history,
    so its report (C132) has at least one message and never one about a missing origin. *)
Theorem C133_origins_partial : forall f w os a, per_stack f = 0 -> ran f w os -> w_label w a <> 0 ->
  exists os' stack l, made f (w_depot w) os' /\ In (w_origin w (a / 4)) os' /\
    w_origin w (a / 4) <> 0 /\ history (w_depot w) (w_origin w (a / 4)) (stack :: l).
Proof.
  intros f w os a P R L. destruct (ran_good f w os P R) as [(os' & M & _ & I) T].
  destruct (C131_histories f (w_depot w) os' _ M (I (a / 4))) as (l & H & _).
  pose proof (T a L) as NZ. inversion H; subst; [congruence|]. exists os', stack, l0. auto.
Qed.
Print Assumptions C133_origins_partial.

(** Labelling makes the stack of the call the whole history of the bytes labelled; a store
    adds its stack to the history of the value stored, unless that is full. *)
Theorem C133_labelled_partial : forall f w os stack label addr size w' a, per_stack f = 0 -> ran f w os -> stack <> 0 -> label <> 0 ->
  set_label false f w stack label addr size = Ok w' -> addr <= a < addr + size ->
  w_label w' a = label /\ history (w_depot w') (w_origin w' (a / 4)) [stack].
Proof.
  intros f w os stack label addr size w' a P R S L E A. destruct (ran_good f w os P R) as [(os' & M & _) _].
  unfold set_label in E. apply N.eqb_neq in L. rewrite L in E. unfold chain_origin in E.
  destruct (create_chained f (w_depot w) 0 stack) as [[d' o]| | |] eqn:C; cbn [bind fst snd] in E; try discriminate.
  injection E as <-. cbn [w_label w_origin w_depot]. rewrite (proj2 (in_range_iff addr size a) A). split; [reflexivity|].
  rewrite set_origin_in by exact A.
  destruct (C131_store f _ _ 0 stack d' o [] M (made_none _ _ _ M) (history_none _) C) as (_ & K & _). apply K. cbn. lia.
Qed.
Print Assumptions C133_labelled_partial.
Theorem C133_stored_partial : forall f w os stack s o addr size w' a l, per_stack f = 0 -> ran f w os -> stack <> 0 -> In o os ->
  s mod 2 ^ 16 <> 0 -> history (w_depot w) o l -> store_value false f w stack s o addr size = Ok w' -> addr <= a < addr + size ->
  let full := 0 < history_size f /\ N.min (history_size f) 16 <= N.of_nat (length l) in
  w_label w' a = s /\ (full -> w_origin w' (a / 4) = o) /\
  (~ full -> history (w_depot w') (w_origin w' (a / 4)) (stack :: l)).
Proof.
  intros f w os stack s o addr size w' a l P R S I N16 H E A full. destruct (ran_good f w os P R) as [(os' & M & In1 & _) _].
  unfold store_value, maybe_store_origin in E. apply N.eqb_neq in N16. rewrite N16 in E. unfold chain_origin in E.
  destruct (create_chained f (w_depot w) o stack) as [[d' o']| | |] eqn:C; cbn [bind fst snd w_label w_origin w_depot] in E; try discriminate.
  injection E as <-. cbn [w_label w_origin w_depot]. rewrite (proj2 (in_range_iff addr size a) A). split; [reflexivity|].
  rewrite set_origin_in by exact A.
  destruct (C131_store f _ _ o stack d' o' l M (In1 _ I) H C) as (K1 & K2 & _). split.
  - intros F. apply K1. now left.
  - intros F. apply K2. intros [Q|[Q|Q]]; [now apply F|now apply S|lia].
Qed.
Print Assumptions C133_stored_partial.

(** Without a call, a store aligned to 4 bytes sets the origin of exactly the groups it meets. *)
Theorem C133_inline_partial : forall f w aligned8 stack s o addr size w', addr mod 4 = 0 -> s <> 0 ->
  store_inline false f w aligned8 stack s o addr size = Ok w' -> exists d o',
  create_chained f (w_depot w) o stack = Ok (d, o') /\ w_depot w' = d /\
  (forall a, w_label w' a = if in_range addr size a then s else w_label w a) /\
  forall c, ((exists a, addr <= a < addr + size /\ a / 4 = c) -> w_origin w' c = o') /\
            (~ (exists a, addr <= a < addr + size /\ a / 4 = c) -> w_origin w' c = w_origin w c).
Proof.
  intros f w al stack s o addr size w' A S E. unfold store_inline in E. apply N.eqb_neq in S. rewrite S in E. unfold chain_origin in E.
  destruct (create_chained f (w_depot w) o stack) as [[d' o']| | |] eqn:C; cbn [bind fst snd] in E; try discriminate.
  injection E as <-. exists d', o'. split; [reflexivity|]. split; [reflexivity|]. split; [reflexivity|].
  intros c. cbn [w_origin]. rewrite paint_origin_spec. unfold in_range. split.
  - intros (a & R & <-). replace (_ && _) with true by lia. reflexivity.
  - intros N. destruct (_ && _) eqn:B; [|reflexivity]. exfalso. apply N. exists (4 * c). lia.
Qed.
Print Assumptions C133_inline_partial.
(** Memory without labels and origins. *)
Definition empty : world := mkWorld (fun _ => 0) (fun _ => 0) depot0.
(** One that is not aligned leaves the last group it meets as it is: here four bytes from
    address 6 on, of which those at 8 and 9 are tainted without an origin. *)
Theorem C133_unaligned_refuted : exists f w', store_inline false f empty false 7 3 0 6 4 = Ok w' /\
  w_label w' 8 = 3 /\ w_label w' 9 = 3 /\ w_origin w' 1 = 1 /\ w_origin w' 2 = 0.
Proof.
  exists (mkLimits 15 0), (mkWorld (fun a => if in_range 6 4 a then 3 else 0) (paint_origin false (fun _ => 0) 1 1 4) case_1).
  repeat split; reflexivity.
Qed.
Print Assumptions C133_unaligned_refuted.

(** A value with label 65536 is stored without an origin. *)
Theorem C133_wide_refuted : exists f s w', store_value false f empty 7 s 0 8 4 = Ok w' /\ s < 2 ^ 32 /\
  w_label w' 8 = s /\ s <> 0 /\ w_origin w' 2 = 0.
Proof.
  exists (mkLimits 15 0), 65536, (mkWorld (fun a => if in_range 8 4 a then 65536 else 0) (fun _ => 0) depot0).
  repeat (split; [reflexivity|]). split; [discriminate|reflexivity].
Qed.
Print Assumptions C133_wide_refuted.
(** So are bytes labelled in a signal handler. *)
Theorem C133_signal_refuted : forall f stack label addr size a, label <> 0 -> addr <= a < addr + size ->
  exists w', set_label true f empty stack label addr size = Ok w' /\ w_label w' a = label /\ w_origin w' (a / 4) = 0 /\
    print_origin_trace 1 true (w_depot w') (mkMemory (w_label w') (w_origin w')) a = Ok [Header label; Invalid label].
Proof.
  intros f stack label addr size a L A. unfold set_label. pose proof L as L'. apply N.eqb_neq in L'. rewrite L'. cbn [chain_origin bind fst snd].
  eexists. split; [reflexivity|]. cbn [w_label w_origin w_depot].
  assert (R : in_range addr size a = true) by now apply in_range_iff. rewrite R.
  split; [reflexivity|]. split; [now apply set_origin_in|].
  unfold print_origin_trace, origin_for. cbn [negb label_at origin_at]. rewrite R, L'.
  rewrite set_origin_in by exact A. reflexivity.
Qed.
Print Assumptions C133_signal_refuted.

(** Two bytes are labelled, and one of them is stored at another place. *)
Definition case_w1 : world := mkWorld (fun a => if in_range 8 2 a then 3 else 0) (set_origin (fun _ => 0) 8 2 1) case_1.
Definition case_w2 : world := mkWorld (fun a => if in_range 20 1 a then 3 else w_label case_w1 a)
  (set_origin (w_origin case_w1) 20 1 0x10000002) (mkDepot [(7, 0); (9, 1)] (uses depot0)).
Example C133_case : let f := mkLimits 15 0 in
  set_label false f empty 7 3 8 2 = Ok case_w1 /\ store_value false f case_w1 9 3 1 20 1 = Ok case_w2 /\
  ran f case_w2 [w_origin case_w2 5; w_origin case_w1 2; 0] /\ w_origin case_w1 2 = 1 /\
  w_label case_w2 20 = 3 /\ w_origin case_w2 5 = 0x10000002.
Proof.
  cbn zeta.
  assert (E1 : set_label false (mkLimits 15 0) empty 7 3 8 2 = Ok case_w1) by reflexivity.
  assert (E2 : store_value false (mkLimits 15 0) case_w1 9 3 1 20 1 = Ok case_w2) by reflexivity.
  repeat (split; [assumption|]). split; [|repeat split; reflexivity].
  apply (ran_store _ case_w1 _ 9 3 1 20 1); [|discriminate|now left|right; discriminate|exact E2].
  apply (ran_set _ empty _ 7 3 8 2); [apply ran_start; reflexivity|discriminate|exact E1].
Qed.
