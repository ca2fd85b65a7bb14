(** C122: polytracker cavities --print-bytes shows the bytes in and around a cavity and marks those
    inside. *)
From Coq Require Import NArith List Bool Arith Lia.
From Verif Require Import M_Base M_PyShowBytes S_ShowBytes.
Import ListNotations.
Open Scope N_scope.

Lemma escape_stands b : b < 256 -> stands b (escape b).
Proof.
  intros L. unfold escape. destruct (N.eqb_spec b 92) as [->|N1]; [apply (st_quoted 92); auto|].
  destruct (N.eqb_spec b 34) as [->|N2]; [apply (st_quoted 34); auto|].
  destruct ((32 <=? b) && (b <=? 126)) eqn:E; [apply andb_true_iff in E as [A B]; apply N.leb_le in A, B; now apply st_self|].
  destruct (N.eqb_spec b 0) as [->|N3]; [apply (st_digit 0); lia|].
  destruct (N.eqb_spec b 10) as [->|N4]; [now apply st_newline|]. destruct (N.eqb_spec b 9) as [->|N5]; [now apply st_tab|].
  destruct (N.eqb_spec b 13) as [->|N6]; [now apply st_return|]. destruct (N.ltb_spec b 10) as [L1|L1]; [apply st_digit; lia|].
  assert (H : forall d, d < 16 -> hex_value (hex1 d) d).
  { intros d D. unfold hex1, hex_value. destruct (N.ltb_spec d 10); [left|right]; lia. }
  unfold hex. destruct (N.ltb_spec b 16) as [L2|L2]; cbn [app].
  - apply st_hex1. now apply H.
  - assert (D := N.div_mod b 16). assert (M := N.mod_lt b 16). apply (st_hex2 b (hex1 (b / 16)) (hex1 (b mod 16)) (b / 16) (b mod 16)).
    + apply H. apply N.div_lt_upper_bound; lia.
    + apply H. lia.
    + apply N.div_str_pos. lia.
    + lia.
Qed.
Lemma stands_printable b t : stands b t -> Forall printable t.
Proof.
  intros H. assert (X : forall c d, hex_value c d -> printable c) by (unfold hex_value, printable; intros; lia).
  destruct H as [A _ _|[->| ->]| -> | -> | -> |A|c A|c d x y A B _ _]; repeat (apply Forall_cons || apply Forall_nil); try (eapply X; eassumption); unfold printable; lia.
Qed.
Lemma cut_bytes contents a b : bytes_at contents a b (cut a b contents).
Proof.
  intros k x. unfold cut. destruct (Nat.lt_ge_cases k (b - a)) as [L|L].
  - assert (E : nth_error (firstn (b - a) (skipn a contents)) k = nth_error contents (a + k)).
    { clear x. revert k L. generalize (b - a)%nat. intros n k L. transitivity (nth_error (skipn a contents) k).
      - revert k n L. generalize (skipn a contents). induction l as [|y l IH]; intros k [|n] L; try lia; destruct k; cbn; auto. apply IH. lia.
      - clear. revert contents. induction a as [|a IH]; intros [|y l]; cbn; auto. destruct k; reflexivity. }
    rewrite E. split; [intros H; split; [lia|exact H]|tauto].
  - split; [|lia]. intros H. assert (Q : (k < length (firstn (b - a) (skipn a contents)))%nat) by (apply nth_error_Some; congruence). rewrite firstn_length in Q. lia.
Qed.

(** The first line has the bytes before the cavity, at most ten, those inside and those behind, at
    most ten; the second has a mark under every character for the bytes inside, and no other. *)
Theorem C122_marked : forall contents b e l1 l2, (forall x, In x contents -> x < 256) -> (b <= e)%nat ->
  show_cavity contents b e = (l1, l2) ->
  exists before inside after tb ti ta, bytes_at contents (b - 10) b before /\ bytes_at contents b e inside /\ bytes_at contents e (e + 10) after /\
    stand_for before tb /\ stand_for inside ti /\ stand_for after ta /\
    l1 = [9; 34] ++ tb ++ ti ++ ta ++ [34] /\
    (forall k, nth_error l2 k = Some 94 <-> (2 + length tb <= k < 2 + length tb + length ti)%nat) /\
    Forall printable (tb ++ ti ++ ta).
Proof.
  intros contents b e l1 l2 B Le H. unfold show_cavity in H. injection H as <- <-.
  assert (S : forall x y, stand_for (cut x y contents) (ascii (cut x y contents)) /\ Forall printable (ascii (cut x y contents))).
  { intros x y. assert (C : forall z, In z (cut x y contents) -> z < 256).
    { intros z I. apply B. unfold cut in I. apply (In_nth_error) in I as (k & I). apply cut_bytes in I as [_ I]. eapply nth_error_In, I. }
    unfold ascii. induction (cut x y contents) as [|z l IH]; [split; [exists []; split; constructor|constructor]|].
    destruct IH as [(ts & F & E) P]; [intros w I; apply C; now right|]. assert (Z := escape_stands z (C z (or_introl eq_refl))). cbn [flat_map]. split.
    - exists (escape z :: ts). split; [now constructor|]. cbn. now rewrite E.
    - apply Forall_app. split; [eapply stands_printable, Z|exact P]. }
  exists (cut (b - 10) b contents), (cut b e contents), (cut e (e + 10) contents), (ascii (cut (b - 10) b contents)), (ascii (cut b e contents)), (ascii (cut e (e + 10) contents)).
  repeat (split; [apply cut_bytes|]). repeat (split; [apply S|]). split; [reflexivity|]. split.
  - intros k. set (n := length (ascii (cut (b - 10) b contents))). set (m := length (ascii (cut b e contents))).
    destruct k as [|[|k]]; cbn [app nth_error]; try (split; [discriminate|lia]).
    destruct (Nat.lt_ge_cases k n) as [L|L].
    + rewrite nth_error_app1 by (now rewrite repeat_length). split; [|lia]. intros H. apply nth_error_In, repeat_spec in H. discriminate.
    + rewrite nth_error_app2 by (now rewrite repeat_length). rewrite repeat_length. destruct (Nat.lt_ge_cases (k - n) m) as [L'|L'].
      * rewrite nth_error_repeat by exact L'. split; [lia|reflexivity].
      * split; [|lia]. intros H. rewrite (proj2 (nth_error_None _ _)) in H by (rewrite repeat_length; exact L'). discriminate.
  - apply Forall_app. split; [apply S|]. apply Forall_app. split; apply S.
Qed.
Print Assumptions C122_marked.

(** Reading one byte of a text. *)
Definition unhex (c : N) : N := if c <? 58 then c - 48 else c - 87.
Definition read1 (t : list N) : option (N * list N) :=
  match t with
  | 92 :: 92 :: r => Some (92, r)
  | 92 :: 34 :: r => Some (34, r)
  | 92 :: 110 :: r => Some (10, r)
  | 92 :: 116 :: r => Some (9, r)
  | 92 :: 114 :: r => Some (13, r)
  | 92 :: 120 :: c :: d :: r => Some (16 * unhex c + unhex d, r)
  | 92 :: c :: r => Some (c - 48, r)
  | c :: r => Some (c, r)
  | [] => None
  end.
Lemma read_escape b r : b < 256 -> ~ one_digit b -> read1 (escape b ++ r) = Some (b, r).
Proof.
  intros L N. unfold one_digit in N. destruct b as [|p]; [reflexivity|].
  do 8 (destruct p as [p|p|]; [| |first [reflexivity|exfalso; lia]]); exfalso; lia.
Qed.
(** The text determines the bytes, if none of them is 11, 12, 14 or 15. *)
Theorem C122_unambiguous_partial : forall l l', (forall x, In x (l ++ l') -> x < 256 /\ ~ one_digit x) -> ascii l = ascii l' -> l = l'.
Proof.
  assert (Z : forall b, escape b <> []).
  { intros b. unfold escape. repeat match goal with |- context [if ?c then _ else _] => destruct c end; discriminate. }
  induction l as [|x l IH]; intros [|y l'] B E; cbn [ascii flat_map] in E; [reflexivity| | |].
  - symmetry in E. apply app_eq_nil in E as [E _]. now apply Z in E.
  - apply app_eq_nil in E as [E _]. now apply Z in E.
  - destruct (B x) as [B1 B2]; [now left|]. destruct (B y) as [B3 B4]; [apply in_app_iff; right; now left|].
    assert (R := f_equal read1 E). rewrite !read_escape in R by assumption. injection R as -> R. f_equal. apply IH; [|exact R].
    intros z I. apply B. apply in_app_iff in I. apply in_app_iff. destruct I; [left; now right|right; now right].
Qed.
Print Assumptions C122_unambiguous_partial.
(** The two bytes 0b and 66 are shown like the single byte bf. *)
Theorem C122_unambiguous_refuted : exists l l', l <> l' /\ (forall x, In x (l ++ l') -> x < 256) /\ ascii l = ascii l'.
Proof.
  exists [11; 102], [191]. split; [discriminate|]. split; [|reflexivity]. intros x I. cbn in I. repeat (destruct I as [<-|I]; [lia|]). destruct I.
Qed.
Print Assumptions C122_unambiguous_refuted.

Example C122_case : show_cavity [65; 0; 10; 200; 34; 66] 1 4 =
  ([9; 34; 65; 92; 48; 92; 110; 92; 120; 99; 56; 92; 34; 66; 34], [9; 32; 32; 94; 94; 94; 94; 94; 94; 94; 94]) /\
  (forall x, In x [65; 0; 10; 200; 34; 66] -> x < 256 /\ ~ one_digit x).
Proof. split; [reflexivity|]. intros x I. cbn in I. unfold one_digit. repeat (destruct I as [<-|I]; [lia|]). destruct I. Qed.
