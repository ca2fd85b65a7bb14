(** C134: loads with origins. *)
From Coq Require Import NArith Arith List Bool Lia ZArith ZifyN ZifyBool.
From Verif Require Import M_Base M_DfsanOrigin M_DfsanLoad.
Import ListNotations.
Open Scope N_scope.

(** The first tainted byte of a range. *)
Definition first_tainted (lab : N -> N) (x size a : N) : Prop :=
  x <= a < x + size /\ lab a <> 0 /\ forall b, x <= b < a -> lab b = 0.
Definition words (f : N -> N) : Prop := forall x, f x < 2 ^ 32.
(** What C133 gives: tainted bytes have origins. *)
Definition traced (lab : N -> N) (o : origins) : Prop := forall a, lab a <> 0 -> o (a / 4) <> 0.

Lemma lor_bound a b : a < 2 ^ 32 -> b < 2 ^ 32 -> N.lor a b < 2 ^ 32.
Proof.
  intros A B. rewrite <- (N.mod_small a (2 ^ 32) A), <- (N.mod_small b (2 ^ 32) B), <- !N.land_ones, <- N.land_lor_distr_l, N.land_ones.
  now apply N.mod_lt.
Qed.
Lemma split_high l r : r < 2 ^ 32 -> l < 2 ^ 32 -> N.shiftr (N.lor r (N.shiftl l 32)) 32 mod 2 ^ 32 = l.
Proof.
  intros R L. rewrite N.shiftr_lor, N.shiftr_shiftl_l by lia. rewrite N.sub_diag, N.shiftl_0_r.
  rewrite N.shiftr_div_pow2, N.div_small by exact R. rewrite N.lor_0_l. now apply N.mod_small.
Qed.
Lemma split_low l r : r < 2 ^ 32 -> N.lor r (N.shiftl l 32) mod 2 ^ 32 = r.
Proof.
  intros R. rewrite <- N.land_ones, N.land_lor_distr_l, !N.land_ones, N.shiftl_mul_pow2, N.mod_mul by discriminate.
  rewrite N.lor_0_r. now apply N.mod_small.
Qed.

Lemma loop_bound lab o n : words lab -> words o -> forall p l r, l < 2 ^ 32 -> r < 2 ^ 32 ->
  fst (load_loop n lab o p l r) < 2 ^ 32 /\ snd (load_loop n lab o p l r) < 2 ^ 32.
Proof.
  intros WL WO. induction n as [|n IH]; intros p l r L R; cbn [load_loop]; [auto|].
  destruct (lab p =? 0); [now apply IH|]. apply IH; [now apply lor_bound|]. destruct (r =? 0); [apply WO|exact R].
Qed.
Lemma loop_kept lab o n : forall p l r, r <> 0 -> snd (load_loop n lab o p l r) = r.
Proof.
  induction n as [|n IH]; intros p l r R; cbn [load_loop]; [reflexivity|].
  destruct (lab p =? 0); [now apply IH|]. pose proof R as R'. apply N.eqb_neq in R'. rewrite R'. now apply IH.
Qed.
Lemma loop_first lab o n : traced lab o -> forall p l a, first_tainted lab p (N.of_nat n) a ->
  snd (load_loop n lab o p l 0) = o (a / 4).
Proof.
  intros T. induction n as [|n IH]; intros p l a (R & L & Z); [lia|]. cbn [load_loop].
  destruct (N.eqb_spec (lab p) 0) as [E|E].
  - apply IH. assert (a <> p) by congruence. split; [lia|]. split; [exact L|]. intros b B. apply Z. lia.
  - assert (a = p) as ->. { destruct (N.eq_dec a p) as [|NE]; [assumption|]. destruct E. apply Z. lia. }
    cbn [N.eqb]. apply loop_kept. now apply T.
Qed.
Lemma existsb_shift (lab : N -> N) p ks : existsb (fun i => negb (lab (p + N.of_nat i) =? 0)) (map S ks) =
  existsb (fun i => negb (lab (p + 1 + N.of_nat i) =? 0)) ks.
Proof.
  induction ks as [|i k IHk]; [reflexivity|]. cbn [map existsb]. rewrite IHk.
  replace (p + N.of_nat (S i)) with (p + 1 + N.of_nat i) by lia. reflexivity.
Qed.
Lemma loop_same lab o s n : forall p l r, (l = 0 \/ l = s) -> (forall a, p <= a < p + N.of_nat n -> lab a = 0 \/ lab a = s) ->
  fst (load_loop n lab o p l r) = if (l =? s) || existsb (fun i => negb (lab (p + N.of_nat i) =? 0)) (seq 0 n) then s else 0.
Proof.
  induction n as [|n IH]; intros p l r L A; cbn [load_loop].
  - cbn [seq existsb fst]. rewrite orb_false_r. destruct (N.eqb_spec l s); [assumption|]. destruct L; congruence.
  - cbn [seq existsb]. rewrite N.add_0_r. rewrite <- seq_shift.
    assert (X : existsb (fun i => negb (lab (p + N.of_nat i) =? 0)) (map S (seq 0 n)) = existsb (fun i => negb (lab (p + 1 + N.of_nat i) =? 0)) (seq 0 n)).
    { apply existsb_shift. }
    rewrite X. destruct (N.eqb_spec (lab p) 0) as [E|E].
    + cbn [negb orb]. apply IH; [exact L|]. intros a B. apply A. lia.
    + cbn [negb orb]. rewrite orb_true_r.
      assert (S1 : lab p = s) by (destruct (A p ltac:(lia)); congruence). rewrite S1 in *.
      assert (S2 : N.lor l s = s) by (destruct L as [-> | ->]; [apply N.lor_0_l|apply N.lor_diag]). rewrite S2.
      rewrite IH; [now rewrite N.eqb_refl|now right|]. intros a B. apply A. lia.
Qed.

(** When the call is made, and when all bytes are in one group, the origin of the value is that
    of its first tainted byte. *)
Theorem C134_origin_partial : forall union lab o addr size aligned4 a, words lab -> words o -> traced lab o ->
  first_tainted lab addr size a -> use_callback size aligned4 = true \/ (addr + size - 1) / 4 = addr / 4 ->
  snd (load_value union lab o addr size aligned4) = o (a / 4).
Proof.
  intros union lab o addr size al a WL WO T F D. unfold load_value. destruct (N.eqb_spec size 0) as [->|NZ]; [destruct F; lia|].
  destruct (use_callback size al) eqn:C.
  - unfold load_label_and_origin. pose proof (loop_bound lab o (N.to_nat size) WL WO addr 0 0 eq_refl eq_refl) as [B1 B2].
    pose proof (loop_first lab o (N.to_nat size) T addr 0 a ltac:(now rewrite N2Nat.id)) as E.
    destruct (load_loop _ _ _ _ _ _) as [l r]. cbn [fst snd] in *. rewrite split_low by exact B2. exact E.
  - destruct D as [D|D]; [discriminate|]. cbn [snd]. destruct F as (R & _). f_equal.
    assert (addr / 4 <= a / 4 <= (addr + size - 1) / 4) by (split; apply N.div_le_mono; lia). lia.
Qed.
Print Assumptions C134_origin_partial.

(** If all tainted bytes have the same label, the call gives it; if none has one, it gives no
    label and no origin. *)
Theorem C134_label_partial : forall union lab o addr size aligned4 s, words lab -> words o -> use_callback size aligned4 = true ->
  (forall a, addr <= a < addr + size -> lab a = 0 \/ lab a = s) ->
  ((exists a, addr <= a < addr + size /\ lab a <> 0) -> fst (load_value union lab o addr size aligned4) = s) /\
  ((forall a, addr <= a < addr + size -> lab a = 0) -> load_value union lab o addr size aligned4 = (0, 0)).
Proof.
  intros union lab o addr size al s WL WO C A. unfold load_value.
  destruct (N.eqb_spec size 0) as [->|NZ]; [discriminate C|]. rewrite C. unfold load_label_and_origin.
  pose proof (loop_bound lab o (N.to_nat size) WL WO addr 0 0 eq_refl eq_refl) as [B1 B2].
  pose proof (loop_same lab o s (N.to_nat size) addr 0 0 (or_introl eq_refl) ltac:(rewrite N2Nat.id; exact A)) as E. split.
  - intros (a & R & L). destruct (load_loop _ _ _ _ _ _) as [l r]. cbn [fst snd] in *. rewrite split_high by assumption.
    rewrite E. replace (existsb _ _) with true; [now rewrite orb_true_r|]. symmetry. apply existsb_exists.
    exists (N.to_nat (a - addr)). split; [apply in_seq; lia|]. replace (addr + N.of_nat (N.to_nat (a - addr))) with a by lia.
    apply N.eqb_neq in L. now rewrite L.
  - intros Z. assert (Q : forall n p, (forall a, p <= a < p + N.of_nat n -> lab a = 0) -> load_loop n lab o p 0 0 = (0, 0)).
    { induction n as [|n IH]; intros p K; cbn [load_loop]; [reflexivity|]. rewrite K by lia. cbn [N.eqb]. apply IH. intros a B. apply K. lia. }
    rewrite Q by (rewrite N2Nat.id; exact Z). reflexivity.
Qed.
Print Assumptions C134_label_partial.

(** Without the call the label of the value stands for exactly the sources its bytes' labels
    stand for; [has] says of a label whether it stands for some source, and the union of labels
    is one as far as [has] goes. *)
Lemma union_load_has union (has : N -> Prop) lab n : (forall x y, has (union x y) <-> has x \/ has y) ->
  forall p l, has (union_load union n lab p l) <-> has l \/ exists a, p <= a < p + N.of_nat n /\ has (lab a).
Proof.
  intros U. induction n as [|n IH]; intros p l; cbn [union_load]; [split; [auto|intros [H|(a & A & _)]; [exact H|lia]]|].
  rewrite IH. assert (Q : has (if l =? lab p then l else union l (lab p)) <-> has l \/ has (lab p)).
  { destruct (N.eqb_spec l (lab p)) as [E|E]; [rewrite <- E; tauto|apply U]. }
  rewrite Q. split.
  - intros [[H|H]|(a & A & H)]; [now left|right; exists p; split; [lia|exact H]|right; exists a; split; [lia|exact H]].
  - intros [H|(a & A & H)]; [auto|]. destruct (N.eq_dec a p) as [->|NE]; [auto|]. right. exists a. split; [lia|exact H].
Qed.
Theorem C134_sources_partial : forall union (has : N -> Prop) lab o addr size aligned4, (forall x y, has (union x y) <-> has x \/ has y) ->
  0 < size -> use_callback size aligned4 = false ->
  (has (fst (load_value union lab o addr size aligned4)) <-> exists a, addr <= a < addr + size /\ has (lab a)).
Proof.
  intros union has lab o addr size al U Z C. unfold load_value. destruct (N.eqb_spec size 0); [lia|]. rewrite C. cbn [fst].
  rewrite (union_load_has union has lab _ U). split.
  - intros [H|(a & A & H)]; [exists addr|exists a]; (split; [lia|exact H]).
  - intros (a & A & H). destruct (N.eq_dec a addr) as [->|NE]; [auto|]. right. exists a. split; [lia|exact H].
Qed.
Print Assumptions C134_sources_partial.
(** That is so for loads of one and two bytes, and for aligned ones of an even size. *)
Theorem C134_when : forall size aligned4, use_callback size aligned4 = false <-> size <= 2 \/ (aligned4 = true /\ N.even size = true).
Proof.
  intros size al. unfold use_callback. change (64 / 32) with 2. rewrite <- N.negb_odd.
  pose proof (N.bit0_mod size) as B. rewrite N.bit0_odd in B.
  destruct (N.leb_spec size 2); [split; auto|]. destruct al; cbn [andb negb].
  - destruct (N.odd size); cbn [N.b2n] in B; rewrite <- B; cbn; split; intros; try discriminate; [lia|auto|reflexivity].
  - split; [discriminate|]. intros [K|[K _]]; [lia|discriminate].
Qed.
Print Assumptions C134_when.

(** Different labels are or-ed instead of being joined: bytes with the labels 1 and 2 give the
    label 3, which belongs to something else, whatever their union is. *)
Theorem C134_union_refuted : forall union (o : origins) aligned4, union 1 2 <> 3 -> words o ->
  let lab := fun a => if a =? 4 then 1 else if a =? 5 then 2 else 0 in
  fst (load_value union lab o 4 3 aligned4) = 3 /\ fst (load_value union lab o 4 2 aligned4) = union 1 2.
Proof.
  intros union o al _ WO lab. split; [|reflexivity]. unfold load_value.
  assert (C : use_callback 3 al = true) by (destruct al; reflexivity). rewrite C. cbn [N.eqb].
  unfold load_label_and_origin. assert (W : words lab) by (intros x; unfold lab; destruct (x =? 4), (x =? 5); reflexivity).
  pose proof (loop_bound lab o (N.to_nat 3) W WO 4 0 0 eq_refl eq_refl) as [B1 B2].
  assert (E : fst (load_loop (N.to_nat 3) lab o 4 0 0) = 3) by reflexivity.
  destruct (load_loop _ _ _ _ _ _) as [l r]. cbn [fst snd] in *. now rewrite split_high.
Qed.
Print Assumptions C134_union_refuted.
(** An aligned load of eight bytes gives the origin of the first four, also if only one of the
    others is tainted. *)
Theorem C134_second_refuted : forall union (o : origins), o 2 <> o 3 ->
  let lab := fun a => if a =? 13 then 5 else 0 in
  first_tainted lab 8 8 13 /\ snd (load_value union lab o 8 8 true) = o 2 /\ o (13 / 4) = o 3.
Proof.
  intros union o _ lab. split; [|split; reflexivity]. split; [lia|]. split; [discriminate|].
  intros b B. unfold lab. destruct (N.eqb_spec b 13); [lia|reflexivity].
Qed.
Print Assumptions C134_second_refuted.

(** Three bytes, the last two tainted. *)
Example C134_case : let lab := fun a => if (a =? 5) || (a =? 4) then 9 else 0 in let o := fun c => c + 70 in
  load_value N.max lab o 3 3 false = (9, 71) /\ first_tainted lab 3 3 4 /\ traced lab o /\ use_callback 3 false = true.
Proof.
  cbn zeta. split; [reflexivity|]. split; [|split; [intros a _; lia|reflexivity]].
  split; [lia|]. split; [discriminate|]. intros b B. replace (_ || _) with false by lia. reflexivity.
Qed.
