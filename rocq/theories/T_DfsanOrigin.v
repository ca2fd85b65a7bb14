(** C130: origins of tainted bytes are set and copied along with them. *)
From Coq Require Import NArith List Bool Lia ZArith ZifyN ZifyBool.
From Verif Require Import M_Base M_DfsanOrigin P_DfsanOrigin.
Import ListNotations.
Open Scope N_scope.
Ltac Zify.zify_post_hook ::= Z.div_mod_to_equations.

(** Setting an origin sets it for exactly the groups of four bytes the range meets. *)
Theorem C130_set : forall o x size origin c,
  ((exists y, x <= y < x + size /\ y / 4 = c) -> set_origin o x size origin c = origin) /\
  (~ (exists y, x <= y < x + size /\ y / 4 = c) -> set_origin o x size origin c = o c).
Proof.
  intros o x size v c. destruct (N.eq_dec size 0) as [->|NZ].
  - split; [intros (y & Y & _); lia|reflexivity].
  - rewrite set_origin_spec by lia. destruct ((x / 4 <=? c) && (c <=? (x + size - 1) / 4)) eqn:E; bools.
    + split; [reflexivity|]. intros Q. exfalso. apply Q.
      destruct (N.le_gt_cases x (4 * c)); [exists (4 * c)|exists x]; lia.
    + split; [|reflexivity]. intros (y & Y & <-). exfalso. lia.
Qed.
Print Assumptions C130_set.

(** The origin read for a range is that of its first tainted byte, and 0 if there is none. *)
Theorem C130_first : forall size lab o x,
  ((forall i, i < size -> lab (x + i) = 0) -> origin_if_tainted (N.to_nat size) lab o x = 0) /\
  (forall i, i < size -> lab (x + i) <> 0 -> (forall j, j < i -> lab (x + j) = 0) ->
     origin_if_tainted (N.to_nat size) lab o x = o ((x + i) / 4)).
Proof.
  intros size lab o. induction size as [|n IH] using N.peano_ind; intros x; [split; [reflexivity|lia]|].
  rewrite N2Nat.inj_succ. cbn [origin_if_tainted]. destruct (IH (x + 1)) as [A B]. split.
  - intros Z. pose proof (Z 0 ltac:(lia)) as Z0. rewrite N.add_0_r in Z0. rewrite Z0. apply A.
    intros i L. replace (x + 1 + i) with (x + (i + 1)) by lia. apply Z. lia.
  - intros i L T Z. destruct (N.eq_dec i 0) as [->|NZ].
    + rewrite N.add_0_r in *. apply N.eqb_neq in T. now rewrite T.
    + pose proof (Z 0 ltac:(lia)) as Z0. rewrite N.add_0_r in Z0. rewrite Z0. cbn [N.eqb].
      replace (x + i) with (x + 1 + (i - 1)) in * by lia. apply B; [lia|exact T|].
      intros j J. replace (x + 1 + j) with (x + (j + 1)) by lia. apply Z. lia.
Qed.
Print Assumptions C130_first.
Example C130_first_case : origin_if_tainted 5 (fun a => if a =? 10 then 1 else 0) (fun c => c + 100) 7 = 102.
Proof. reflexivity. Qed.

(** A transfer of whole groups of four bytes, all of them tainted and with an origin, gives
    each group the origin chained to the one its bytes came from, also if the ranges overlap;
    no other origin is changed. *)
Theorem C130_move_partial : forall chain lab o a b n,
  (forall y, 4 * b <= y < 4 * (b + n) -> lab y <> 0) ->
  (forall c, b <= c < b + n -> o c <> 0) -> a <> b ->
  forall c, mem_origin_transfer chain lab o (4 * a) (4 * b) (4 * n) c =
    if (a <=? c) && (c <? a + n) then chain (o (c - a + b)) else o c.
Proof.
  intros chain lab o a b n L O AB c. rewrite transfer_aligned by exact AB.
  destruct ((a <? b + n) && (b <=? a)) eqn:E; bools.
  - rewrite <- (N2Nat.id n) at 2 4.
    rewrite (copy_down_spec chain lab o b a (N.to_nat n)); rewrite ?N2Nat.id; auto; try lia.
    + intros j J. apply L. lia.
    + intros x. cases; bools; try reflexivity; lia.
  - rewrite <- (N.add_0_r b) at 1. rewrite <- (N.add_0_r a) at 1. change 0 with (N.of_nat 0) at 1 2.
    rewrite (copy_up_spec chain lab o b a (N.to_nat n)); rewrite ?N2Nat.id; auto; try lia.
    + intros j. destruct (N.le_gt_cases n j); [now right|left]. apply L. lia.
    + intros x. cases; bools; try reflexivity; lia.
Qed.
Print Assumptions C130_move_partial.

(** Whole groups without taint leave all origins alone. *)
Theorem C130_untainted_partial : forall chain lab o a b n,
  (forall y, 4 * b <= y < 4 * (b + n) -> lab y = 0) ->
  forall c, mem_origin_transfer chain lab o (4 * a) (4 * b) (4 * n) c = o c.
Proof.
  intros chain lab o a b n L c. destruct (N.eq_dec a b) as [->|AB].
  - unfold mem_origin_transfer. now rewrite N.eqb_refl.
  - rewrite transfer_aligned by exact AB. destruct ((a <? b + n) && (b <=? a)) eqn:E; bools.
    + rewrite copy_down_none; [reflexivity|lia|]. intros j J. apply L. lia.
    + rewrite copy_up_none; [reflexivity|]. intros j J. apply L. lia.
Qed.
Print Assumptions C130_untainted_partial.

(** Copying memory onto itself changes no origin, whatever the range. *)
Theorem C130_itself : forall chain lab o d size, mem_origin_transfer chain lab o d d size = o.
Proof. intros. unfold mem_origin_transfer. now rewrite N.eqb_refl. Qed.
Print Assumptions C130_itself.

Definition case_origins : origins := fun c => 10 + c.
Example C130_case :
  map (mem_origin_transfer (fun g => g + 100) (fun _ => 1) case_origins 8 4 12) [0; 1; 2; 3; 4; 5]
    = [10; 11; 111; 112; 113; 15]
  /\ map (mem_origin_transfer (fun g => g + 100) (fun _ => 1) case_origins 0 8 8) [0; 1; 2; 3] = [112; 113; 12; 13]
  /\ map (set_origin case_origins 7 6 99) [0; 1; 2; 3; 4] = [10; 99; 99; 99; 14].
Proof. repeat split; reflexivity. Qed.

(** The check for taint steps by eight bytes of shadow, which are two labels of 32 bits, not
    four: a tainted byte in the second half of a group is missed, and its copy keeps the
    origin that was there before, here none. *)
Theorem C130_half_refuted : forall (chain : N -> N) o a b, a <> b -> o a = 0 ->
  exists lab, lab (4 * b + 2) <> 0 /\
    mem_origin_transfer chain lab o (4 * a) (4 * b) 4 a = 0.
Proof.
  intros chain o a b AB Z. exists (fun y => if y =? 4 * b + 2 then 1 else 0). split.
  - now rewrite N.eqb_refl.
  - pose proof (transfer_aligned chain (fun y => if y =? 4 * b + 2 then 1 else 0) o a b 1 AB) as T.
    change (4 * 1) with 4 in T. rewrite T. clear T.
    replace ((a <? b + 1) && (b <=? a)) with false
      by (symmetry; apply andb_false_iff; rewrite N.ltb_ge, N.leb_gt; lia).
    rewrite copy_up_none; [exact Z|]. intros j J. change (2 * N.of_nat (N.to_nat 1)) with 2 in J.
    replace (4 * b + j =? 4 * b + 2) with false; [reflexivity|]. symmetry. apply N.eqb_neq. lia.
Qed.
Print Assumptions C130_half_refuted.

(** When ranges overlap and only one whole group lies in the destination, the group is
    skipped although every byte is tainted. *)
Theorem C130_overlap_refuted : exists chain lab o d s size,
  (forall y, s <= y < s + size -> lab y <> 0) /\ (forall c, o c <> 0) /\ (forall g, chain g <> g) /\
  s < d < s + size /\ d mod 4 = 0 /\ 4 <= size /\
  mem_origin_transfer chain lab o d s size (d / 4) = o (d / 4).
Proof.
  exists (fun g => g + 100), (fun _ => 1), case_origins, 4, 1, 7.
  unfold case_origins. repeat split; try lia; try (intros; lia).
Qed.
Print Assumptions C130_overlap_refuted.

(** When the source is not aligned, three bytes get the origin of a group they did not come
    from, the one of the fourth byte. *)
Theorem C130_unaligned_refuted : exists chain lab o d s,
  (forall y, s <= y < s + 4 -> lab y <> 0) /\ d mod 4 = 0 /\
  (forall y, s <= y < s + 3 -> y / 4 = 0) /\
  mem_origin_transfer chain lab o d s 4 (d / 4) = chain (o 1).
Proof.
  exists (fun g => g + 100), (fun _ => 1), case_origins, 16, 1.
  repeat split; try (intros; lia).
Qed.
Print Assumptions C130_unaligned_refuted.
