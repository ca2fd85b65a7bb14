(** C70: sprintf and snprintf of an instrumented program print what libc's print.
    C71: the bytes printed are labelled with the arguments they come from.
    [renderer], what libc makes of a single directive, is arbitrary throughout. *)
From Coq Require Import NArith ZArith List Bool Lia.
From Verif Require Import M_Base M_Memory M_Labels M_Dfsan M_DfsanStr M_DfsanFormat S_Dfsan S_Format
  P_Base P_Memory P_Dfsan P_DfsanStr P_DfsanFormat.
Import ListNotations.
Open Scope N_scope.

(** C70: for every nonempty format of ordinary characters, "%%" and the directives of the
    standard (S_Format.valid), every size of the buffer, also 0 or too small. *)
Theorem C70_snprintf_partial : forall fuel render m str size fmt items args out,
  plain_text render -> items <> [] ->
  produces render m str (room size (map fst out)) items args out ->
  format_at m fmt items str (room size (map fst out)) ->
  len out < 2147483648 -> size = 0 \/ (0x700000008000 <= str /\ str + len out < 0x800000000000) ->
  Forall (fun a => a_label a < two32) args -> (length (flat_map spelling items) < fuel)%nat ->
  exists m', dfsw_snprintf fuel render m str size fmt args = Ok (m', Z.of_N (len out), Some 0) /\
  printed m m' str size (map fst out).
Proof.
  intros fuel render m str size fmt items args out Pt Ni P [Fl [Fr Fa]] L31 B La Fu.
  destruct (loop_ok render m str size fuel items args out [] m fmt Pt P) as (m' & E & [_ T] & _); auto.
  - right. auto.
  - now apply spelled_load.
  - exists m'. split; [exact E|]. apply put_printed; [now apply T|]. destruct B as [B|[B1 B2]]; [now left|]. right.
    split; [exact B1|]. unfold kept. cbn [app] in B2. rewrite len_map. lia.
Qed.

(** sprintf prints all of it. *)
Theorem C70_sprintf_partial : forall fuel render m str fmt items args out,
  plain_text render -> items <> [] ->
  produces render m str (len out + 1) items args out -> format_at m fmt items str (len out + 1) ->
  len out < 2147483648 -> 0x700000008000 <= str -> str + len out < 0x800000000000 ->
  Forall (fun a => a_label a < two32) args -> (length (flat_map spelling items) < fuel)%nat ->
  exists m', dfsw_sprintf fuel render m str fmt args = Ok (m', Z.of_N (len out), Some 0) /\
  load m' str (len out) = map fst out /\ m' (str + len out) = 0 /\
  (forall x, app_byte x -> ~ within str (len out + 1) x -> m' x = m x).
Proof.
  intros fuel render m str fmt items args out Pt Ni P F L31 B1 B2 La Fu.
  assert (K : kept (two64 - 1) (map fst out) = len out) by (unfold kept; rewrite len_map; unfold two64; lia).
  assert (R : room (two64 - 1) (map fst out) = len out + 1) by (unfold room; rewrite K; reflexivity).
  destruct (C70_snprintf_partial fuel render m str (two64 - 1) fmt items args out) as (m' & E & [Pr Po]); auto; try (rewrite R; assumption).
  exists m'. split; [exact E|]. rewrite R in Po. destruct Pr as [P1 P2]; [unfold two64; lia|]. rewrite K in P1, P2.
  split; [|auto]. rewrite P1. rewrite <- (len_map fst out). unfold len. rewrite Nnat.Nat2N.id. apply firstn_all.
Qed.

(** C71: if the buffer is large enough, every byte has its label, and no other label changes. *)
Theorem C71_labels_partial : forall fuel render m str size fmt items args out,
  plain_text render ->
  produces render m str (room size (map fst out)) items args out ->
  format_at m fmt items str (room size (map fst out)) ->
  len out < 2147483648 -> 0x700000008000 <= str -> str + len out < 0x800000000000 -> len out < size ->
  Forall (fun a => a_label a < two32) args -> (length (flat_map spelling items) < fuel)%nat ->
  exists m', dfsw_snprintf fuel render m str size fmt args = Ok (m', Z.of_N (len out), Some 0) /\
  (forall i b l, get out i = Some (b, Some l) -> label_at m' (str + i) = l) /\
  (forall q, app_byte q -> ~ within str (len out) q -> label_at m' q = label_at m q).
Proof.
  intros fuel render m str size fmt items args out Pt P [Fl [Fr Fa]] L31 B1 B2 Ls La Fu.
  destruct (loop_ok render m str size fuel items args out [] m fmt Pt P) as (m' & E & _ & L); auto.
  - right. auto.
  - now apply spelled_load.
  - exists m'. split; [exact E|]. apply L; [exact Ls|]. split.
    + intros i b l G. rewrite get_nil in G. discriminate.
    + reflexivity.
Qed.

(** A libc that prints the last digit of a number and strings of two characters, and the
    call sprintf(buf, "id=%d %s%%", 7, "ab") with labels 4 on the number and 9 on "a". *)
Definition demo_render : renderer := fun chunk vals m =>
  match chunk with
  | 37 :: rest =>
      match rest, vals with
      | [37], [] => Some [37]
      | [100], [(KInt, v)] => Some [48 + v mod 10]
      | [115], [(KPtr, p)] => Some (load m p 2)
      | [52; 115], [(KPtr, p)] => Some ([32; 32] ++ load m p 2)
      | _, _ => None
      end
  | _ => Some chunk
  end.
Lemma demo_plain : plain_text demo_render.
Proof.
  split; [|reflexivity]. intros m [|b l] Z P; [reflexivity|]. unfold demo_render.
  assert (N : b <> 37) by (intros ->; apply P; now left).
  destruct b as [|p]; [reflexivity|]. do 6 (try (destruct p as [p|p|]; try reflexivity)). now contradiction N.
Qed.
Definition demo_items : list item :=
  [Ordinary 105; Ordinary 100; Ordinary 61; Directive [] 100; Ordinary 32; Directive [] 115; Percent].
Definition demo_args : list arg := [mk_arg KInt 7 4; mk_arg KPtr 0x7fff00002000 0].
Definition demo_mem : mem :=
  set_label (store (store mem_zero 0x7fff00001000 [105; 100; 61; 37; 100; 32; 37; 115; 37; 37; 0]) 0x7fff00002000 [97; 98; 0])
    9 0x7fff00002000 1.
Definition demo_out : list (N * option N) :=
  [(105, Some 0); (100, Some 0); (61, Some 0); (55, Some 4); (32, Some 0); (97, Some 9); (98, Some 0); (37, Some 0)].
Example C70_case :
  produces demo_render demo_mem 0x7fff00000000 (len demo_out + 1) demo_items demo_args demo_out /\
  format_at demo_mem 0x7fff00001000 demo_items 0x7fff00000000 (len demo_out + 1) /\
  match dfsw_sprintf 20 demo_render demo_mem 0x7fff00000000 0x7fff00001000 demo_args with
  | Ok (m', r, Some 0) => (r =? 8)%Z && (m' 0x7fff00000003 =? 55) && (label_at m' 0x7fff00000003 =? 4) && (label_at m' 0x7fff00000005 =? 9)
  | _ => false
  end = true.
Proof.
  split; [|split].
  - unfold demo_items, demo_args, demo_out.
    do 3 (apply p_ordinary; [constructor; discriminate|]).
    apply (p_value _ _ _ _ [] 100 [] (mk_arg KInt 7 4) _ _ [55]); [discriminate| |constructor|intros m' _; reflexivity|].
    { apply (v_directive [] [] 100 KInt); [reflexivity|cbn; lia|constructor; cbn; auto]. }
    apply p_ordinary; [constructor; discriminate|].
    change [(97, Some 9); (98, Some 0); (37, Some 0)] with
      (combine [97; 98] (map (fun i => Some (label_at demo_mem (a_value (mk_arg KPtr 0x7fff00002000 0) + i))) (nseq 0 2)) ++ [(37, Some 0)]).
    apply p_string; [reflexivity| |split; vm_compute; congruence|left; vm_compute; congruence|apply p_percent, p_nil].
    intros m' A. assert (E : load m' 0x7fff00002000 2 = load demo_mem 0x7fff00002000 2).
    { apply load_ext. intros x X1 X2. apply A; [split; lia|]. unfold within. change (len _) with 8. lia. }
    change (Some (load m' 0x7fff00002000 2) = Some [97; 98]). rewrite E. reflexivity.
  - split; [reflexivity|]. split; [split; vm_compute; congruence|left; vm_compute; congruence].
  - vm_compute. reflexivity.
Qed.

(** False of the code: with an empty format nothing is written, not even the terminator. *)
Theorem C70_empty_refuted : forall fuel render m str size fmt args, m fmt = 0 -> 0 < size -> m str <> 0 ->
  dfsw_snprintf (S fuel) render m str size fmt args = Ok (m, 0%Z, Some 0) /\ ~ printed m m str size [].
Proof.
  intros fuel render m str size fmt args F S0 Ns. split.
  - unfold dfsw_snprintf. cbn [format_loop]. rewrite F. reflexivity.
  - intros [H _]. destruct (H S0) as [_ H2]. unfold kept in H2. change (len (@nil N)) with 0 in H2. rewrite N.min_0_l, N.add_0_r in H2. contradiction.
Qed.

(** A negative width, which libc takes as a flag and its absolute value, is dropped, and libc
    is called with too few arguments ... *)
Theorem C70_negative_width_refuted : forall fuel render m str size fmt w v rest,
  spelled m fmt [37; 42; 100; 0] -> a_kind w = KInt -> a_kind v = KInt -> 2147483648 <= a_value w -> a_value w < two32 ->
  dfsw_snprintf (S (S (S fuel))) render m str size fmt (w :: v :: rest) = UB.
Proof.
  intros fuel render m str size fmt w v rest (E0 & E1 & E2 & E3 & _) Kw Kv W1 W2.
  assert (Tw : to_int (a_value w) = (Z.of_N (a_value w) - 4294967296)%Z).
  { unfold to_int. rewrite N.mod_small by exact W2. replace (a_value w <? 2147483648) with false by (symmetry; now apply N.ltb_ge). reflexivity. }
  unfold dfsw_snprintf. cbn [format_loop]. rewrite E0. cbn [N.eqb Pos.eqb negb].
  cbn [scan]. rewrite E1. cbn [conv_of N.eqb Pos.eqb va_arg]. rewrite Kw. cbn [kind_eqb bind]. rewrite E2. cbn [conv_of bind].
  unfold int_kind. replace (fmt + 1 + 1 - 1) with (fmt + 1) by lia. rewrite E1. cbn [va_arg]. rewrite Kv. cbn [kind_eqb bind].
  unfold with_width. replace (0 <=? to_int (a_value w))%Z with false by (symmetry; rewrite Tw; apply Z.leb_gt; unfold two32 in W2; lia).
  replace (fmt + 1 + 1 - fmt + 1) with 3 by lia.
  assert (El : load m fmt 3 = [37; 42; 100]) by (apply (spelled_load m [37; 42; 100] fmt); cbn [spelled]; repeat split; assumption).
  rewrite El. reflexivity.
Qed.

(** ... and so it is for width and precision, both given as arguments. *)
Theorem C70_two_stars_refuted : forall fuel render m str size fmt w p v rest,
  spelled m fmt [37; 42; 46; 42; 102; 0] -> a_kind w = KInt -> a_kind p = KInt -> a_kind v = KDouble ->
  dfsw_snprintf (S (S (S (S (S fuel))))) render m str size fmt (w :: p :: v :: rest) = UB.
Proof.
  intros fuel render m str size fmt w p v rest (E0 & E1 & E2 & E3 & E4 & _) Kw Kp Kv.
  unfold dfsw_snprintf. cbn [format_loop]. rewrite E0. cbn [N.eqb Pos.eqb negb].
  cbn [scan]. rewrite E1. cbn [conv_of N.eqb Pos.eqb va_arg]. rewrite Kw. cbn [kind_eqb bind]. rewrite E2. cbn [conv_of N.eqb Pos.eqb].
  rewrite E3. cbn [conv_of N.eqb Pos.eqb va_arg]. rewrite Kp. cbn [kind_eqb bind]. rewrite E4. cbn [conv_of bind].
  unfold float_kind. replace (fmt + 1 + 1 + 1 + 1 - 1) with (fmt + 1 + 1 + 1) by lia. rewrite E3. cbn [N.eqb Pos.eqb va_arg]. rewrite Kv. cbn [kind_eqb bind].
  replace (fmt + 1 + 1 + 1 + 1 - fmt + 1) with 5 by lia.
  assert (El : load m fmt 5 = [37; 42; 46; 42; 102]) by (apply (spelled_load m [37; 42; 46; 42; 102] fmt); cbn [spelled]; repeat split; assumption).
  rewrite El. unfold emit, libc_snprintf, with_width. destruct (0 <=? to_int (a_value p))%Z; reflexivity.
Qed.

(** The directive "%m" of glibc is not known: a format that ends with it is read beyond its
    terminator, and what follows it in memory is taken as the format. *)
Theorem C70_overread_refuted : forall fuel render m str size fmt args, spelled m fmt [37; 109; 0] ->
  dfsw_snprintf (S (S (S fuel))) render m str size fmt args = dfsw_snprintf (S (S fuel)) render m str size (fmt + 3) args.
Proof.
  intros fuel render m str size fmt args (E0 & E1 & E2 & _). unfold dfsw_snprintf. remember (S (S fuel)) as f.
  cbn [format_loop]. rewrite E0. cbn [N.eqb Pos.eqb negb]. rewrite Heqf at 1. cbn [scan]. rewrite E1. cbn [conv_of N.eqb Pos.eqb].
  rewrite E2. cbn [conv_of N.eqb Pos.eqb bind Z.ltb Z.compare Z.to_N]. rewrite N.add_0_r. f_equal. lia.
Qed.

(** C71 is false when the text does not fit: the label is given to the first (length - size)
    bytes instead of those written ... *)
Theorem C71_truncation_refuted : forall fuel render m str size fmt v piece,
  spelled m fmt [37; 100; 0] -> a_kind v = KInt -> a_label v < two32 -> render [37; 100] [(KInt, a_value v)] m = Some piece ->
  0 < size -> size <= len piece -> len piece < 2147483648 -> 0x700000008000 <= str -> str + len piece < 0x800000000000 ->
  app_range fmt 3 -> apart str (len piece + 1) fmt 3 ->
  exists m', dfsw_snprintf (S (S (S fuel))) render m str size fmt [v] = Ok (m', Z.of_N (len piece), Some 0) /\
  forall q, app_byte q -> label_at m' q = if (str <=? q) && (q <? str + (len piece - size)) then a_label v else label_at m q.
Proof.
  intros fuel render m str size fmt v piece (E0 & E1 & E2 & _) Kv Lv R S0 Sp Lp B1 B2 Fr Fa.
  unfold dfsw_snprintf. remember (S (S fuel)) as f. cbn [format_loop]. rewrite E0. cbn [N.eqb Pos.eqb negb].
  assert (Sc : scan f m fmt (-1)%Z [v] = Ok (fmt + 1, Some Cint, (-1)%Z, [v])) by (rewrite Heqf; cbn [scan]; rewrite E1; reflexivity).
  rewrite Sc. cbn [bind]. unfold int_kind. replace (fmt + 1 - 1) with fmt by lia. rewrite E0.
  cbn [va_arg]. rewrite Kv. cbn [kind_eqb bind]. replace (fmt + 1 - fmt + 1) with 2 by lia.
  assert (El : load m fmt 2 = [37; 100]) by (apply (spelled_load m [37; 100] fmt); cbn [spelled]; repeat split; assumption). rewrite El.
  unfold emit, libc_snprintf, with_width. cbn [Z.leb Z.compare app]. rewrite Kv.
  change (len [(KInt, a_value v)] <? needs [37; 100]) with false. cbn iota. rewrite R.
  replace (len piece <? 2147483648) with true by (symmetry; now apply N.ltb_lt). cbn [bind].
  unfold avail. replace (0 <? size) with true by (symmetry; now apply N.ltb_lt). rewrite N.sub_0_r.
  replace (size =? 0) with false by (symmetry; apply N.eqb_neq; lia). rewrite N.add_0_r.
  set (m1 := store m str _).
  assert (M1 : forall x, x < str \/ str + len piece < x -> m1 x = m x).
  { intros x X. apply store_other. unfold len. rewrite app_length, firstn_length. cbn [length]. unfold len in *. lia. }
  assert (En : num_written_bytes size 0 (Z.of_N (len piece)) = len piece - size).
  { unfold num_written_bytes. replace (Z.of_N (len piece) <? 0)%Z with false by (symmetry; apply Z.ltb_ge; lia).
    unfold avail. replace (0 <? size) with true by (symmetry; now apply N.ltb_lt). rewrite N.sub_0_r, N2Z.id.
    replace (size =? 0) with false by (symmetry; apply N.eqb_neq; lia). replace (size <=? len piece) with true by (symmetry; now apply N.leb_le). reflexivity. }
  rewrite En. set (n := len piece - size) in *.
  assert (Ar : app_range str n) by (split; unfold n; lia).
  rewrite set_any_app by (try exact Ar; unfold n; lia). cbn [bind].
  replace (Z.of_N (len piece) <? 0)%Z with false by (symmetry; apply Z.ltb_ge; lia).
  assert (Z2 : set_label m1 (a_label v) str n (fmt + 1 + 1) = 0).
  { rewrite (set_label_app m1 (a_label v) str n Lv Ar); [|right; unfold n; lia|destruct Fr; split; lia].
    rewrite M1 by (unfold apart in Fa; lia). exact E2. }
  subst f. cbn [format_loop]. rewrite Z2. cbn [N.eqb]. rewrite N2Z.id, N.add_0_l, to_int_small by exact Lp.
  eexists. split; [reflexivity|]. intros q Q.
  assert (L1 : label_at m1 q = label_at m q) by (apply labels_app; [intros x X; apply M1; lia|exact Q]).
  destruct (N.leb_spec str q), (N.ltb_spec q (str + n)); cbn [andb].
  - replace q with (str + (q - str)) by lia. apply (set_label_in m1 (a_label v) str n (q - str) Lv Ar); [right; unfold n; lia|lia].
  - rewrite (set_label_out m1 (a_label v) str n q Lv Ar); [exact L1|right; unfold n; lia|exact Q|unfold within; lia].
  - rewrite (set_label_out m1 (a_label v) str n q Lv Ar); [exact L1|right; unfold n; lia|exact Q|unfold within; lia].
  - rewrite (set_label_out m1 (a_label v) str n q Lv Ar); [exact L1|right; unfold n; lia|exact Q|unfold within; lia].
Qed.

(** ... which includes a byte behind the buffer when the text is more than twice as long,
    and not the last character written when it is shorter. *)
Theorem C71_truncation_bytes_refuted : forall fuel render m str size fmt v piece,
  spelled m fmt [37; 100; 0] -> a_kind v = KInt -> a_label v < two32 -> render [37; 100] [(KInt, a_value v)] m = Some piece ->
  0 < size -> size <= len piece -> len piece < 2147483648 -> 0x700000008000 <= str -> str + len piece < 0x800000000000 ->
  app_range fmt 3 -> apart str (len piece + 1) fmt 3 ->
  exists m', dfsw_snprintf (S (S (S fuel))) render m str size fmt [v] = Ok (m', Z.of_N (len piece), Some 0) /\
  (2 * size < len piece -> label_at m' (str + size) = a_label v) /\
  (len piece + 1 < 2 * size -> label_at m' (str + size - 2) = label_at m (str + size - 2)).
Proof.
  intros fuel render m str size fmt v piece Sf Kv Lv R S0 Sp Lp B1 B2 Fr Fa.
  destruct (C71_truncation_refuted fuel render m str size fmt v piece) as (m' & E & L); auto.
  exists m'. split; [exact E|]. split; intros H; rewrite L by (split; lia).
  - replace (str <=? str + size) with true by (symmetry; apply N.leb_le; lia).
    replace (str + size <? str + (len piece - size)) with true by (symmetry; apply N.ltb_lt; lia). reflexivity.
  - replace (str + size - 2 <? str + (len piece - size)) with false by (symmetry; apply N.ltb_ge; lia). now rewrite andb_false_r.
Qed.
(** A libc that prints every number as "12345": snprintf(buf, 2, "%d", n) labels buf[2],
    snprintf(buf, 4, "%d", n) leaves buf[2] without a label. *)
Example C71_truncation_case :
  let m := store mem_zero 0x7fff00001000 [37; 100; 0] in
  let label size := match dfsw_snprintf 9 (fun _ _ _ => Some [49; 50; 51; 52; 53]) m 0x7fff00000000 size 0x7fff00001000 [mk_arg KInt 12345 4] with
                    | Ok (m', 5%Z, _) => Some (m' 0x7fff00000002, label_at m' 0x7fff00000002)
                    | _ => None
                    end in
  label 2 = Some (0, 4) /\ label 4 = Some (51, 0).
Proof. split; vm_compute; reflexivity. Qed.

(** A string printed with a width gives its labels to the padding ... *)
Theorem C71_padding_refuted :
  let m := store demo_mem 0x7fff00001000 [37; 52; 115; 0] in
  match dfsw_sprintf 20 demo_render m 0x7fff00000000 0x7fff00001000 [mk_arg KPtr 0x7fff00002000 0] with
  | Ok (m', r, _) =>
      (r =? 4)%Z && (m' 0x7fff00000000 =? 32) && (m' 0x7fff00000002 =? 97) &&
      (label_at m' 0x7fff00000000 =? 9) && (label_at m' 0x7fff00000002 =? 0) && (label_at m 0x7fff00002000 =? 9)
  | _ => false
  end = true.
Proof. vm_compute. reflexivity. Qed.

(** ... and "%n" clears the labels of eight bytes for a count of four. *)
Theorem C71_count_refuted : forall fuel render m str size fmt v,
  spelled m fmt [37; 110; 0] -> app_range fmt 3 -> a_kind v = KPtr -> 0x700000008000 <= a_value v -> a_value v + 8 < 0x800000000000 ->
  apart (a_value v) 4 fmt 3 ->
  exists m', dfsw_snprintf (S (S (S fuel))) render m str size fmt [v] = Ok (m', 0%Z, Some 0) /\
  (forall i, i < 4 -> m' (a_value v + 4 + i) = m (a_value v + 4 + i) /\ label_at m' (a_value v + 4 + i) = 0).
Proof.
  intros fuel render m str size fmt v (E0 & E1 & E2 & _) Fr Kv B1 B2 Fa.
  unfold dfsw_snprintf. remember (S (S fuel)) as f. cbn [format_loop]. rewrite E0. cbn [N.eqb Pos.eqb negb].
  assert (Sc : scan f m fmt (-1)%Z [v] = Ok (fmt + 1, Some Ccount, (-1)%Z, [v])) by (rewrite Heqf; cbn [scan]; rewrite E1; reflexivity).
  rewrite Sc. cbn [bind va_arg]. rewrite Kv. cbn [kind_eqb bind].
  assert (Ar : app_range (a_value v) 8) by (split; lia). rewrite set_any_app by (try exact Ar; lia). cbn [bind Z.ltb Z.compare Z.to_N].
  set (m1 := store_int m (a_value v) 4 (0 mod two32)).
  assert (M1 : forall x, x < a_value v \/ a_value v + 4 <= x -> m1 x = m x).
  { intros x X. unfold m1, store_int. apply store_other. rewrite len_le_bytes. cbn. lia. }
  assert (Z0 : 0 < two32) by (unfold two32; lia).
  assert (A2 := set_label_app m1 0 (a_value v) 8 Z0 Ar (or_intror B2)).
  subst f. cbn [format_loop]. rewrite (A2 (fmt + 1 + 1)) by (destruct Fr; split; lia). rewrite M1 by (unfold apart in Fa; lia). rewrite E2. cbn [N.eqb].
  eexists. split; [reflexivity|]. intros i I. split.
  - rewrite A2 by (split; lia). apply M1. lia.
  - replace (a_value v + 4 + i) with (a_value v + (4 + i)) by lia. apply (set_label_in m1 0 (a_value v) 8 (4 + i) Z0 Ar); [right; lia|lia].
Qed.

Print Assumptions C70_snprintf_partial.
Print Assumptions C70_sprintf_partial.
Print Assumptions C70_empty_refuted.
Print Assumptions C70_negative_width_refuted.
Print Assumptions C70_two_stars_refuted.
Print Assumptions C70_overread_refuted.
Print Assumptions C71_labels_partial.
Print Assumptions C71_truncation_refuted.
Print Assumptions C71_truncation_bytes_refuted.
Print Assumptions C71_padding_refuted.
Print Assumptions C71_count_refuted.
