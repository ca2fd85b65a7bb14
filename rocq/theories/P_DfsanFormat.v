(** Proofs about sprintf and snprintf of the DFSan runtime. *)
From Coq Require Import NArith ZArith List Bool Lia.
From Verif Require Import M_Base M_Memory M_Labels M_Dfsan M_DfsanStr M_DfsanFormat S_Dfsan S_Format
  P_Base P_Memory P_Dfsan P_DfsanStr.
Import ListNotations.
Open Scope N_scope.

(** A text of [k] characters and a terminator. *)
Lemma store_text P a k t x : k <= len t ->
  store P a (firstn (N.to_nat k) t ++ [0]) x =
  if (a <=? x) && (x <? a + k) then nth (N.to_nat (x - a)) t 0 else if x =? a + k then 0 else P x.
Proof.
  intros K. unfold store.
  assert (Lf : length (firstn (N.to_nat k) t) = N.to_nat k) by (rewrite firstn_length; unfold len in K; lia).
  assert (L : len (firstn (N.to_nat k) t ++ [0]) = k + 1).
  { unfold len. rewrite app_length, Lf. cbn [length]. lia. }
  rewrite L. destruct (N.leb_spec a x) as [A|A]; cbn [andb].
  - destruct (N.ltb_spec x (a + k)) as [B|B].
    + replace (x <? a + (k + 1)) with true by (symmetry; apply N.ltb_lt; lia).
      rewrite app_nth1 by lia.
      transitivity (nth (N.to_nat (x - a)) (firstn (N.to_nat k) t ++ skipn (N.to_nat k) t) 0).
      * rewrite app_nth1 by lia. reflexivity.
      * now rewrite firstn_skipn.
    + destruct (N.eqb_spec x (a + k)) as [->|Ne].
      * replace (a + k <? a + (k + 1)) with true by (symmetry; apply N.ltb_lt; lia).
        rewrite app_nth2 by lia. replace (_ - _)%nat with 0%nat by lia. reflexivity.
      * replace (x <? a + (k + 1)) with false by (symmetry; apply N.ltb_ge; lia). reflexivity.
  - destruct (N.eqb_spec x (a + k)); [lia|reflexivity].
Qed.

Definition put (m0 : mem) (str size : N) (text : list N) : mem :=
  if size =? 0 then m0 else store m0 str (firstn (N.to_nat (kept size text)) text ++ [0]).

Definition written (P : mem) (str size : N) (d t : list N) : mem :=
  if avail size (len d) =? 0 then P
  else store P (str + len d) (firstn (N.to_nat (N.min (avail size (len d) - 1) (len t))) t ++ [0]).

Lemma put_step m0 P str size d t x : P x = put m0 str size d x \/ d = [] /\ P x = m0 x ->
  written P str size d t x = put m0 str size (d ++ t) x.
Proof.
  intros H. unfold written, put, avail in *. destruct (N.eqb_spec size 0) as [->|S0].
  { replace (len d <? 0) with false by (symmetry; apply N.ltb_ge; lia). cbn [N.eqb]. destruct H as [H|[_ H]]; exact H. }
  assert (La : len (d ++ t) = len d + len t) by apply len_app.
  assert (Kd : forall l, kept size l <= len l) by (intros l; unfold kept; lia).
  rewrite (store_text m0 str (kept size (d ++ t)) (d ++ t) x (Kd _)).
  assert (Ld : length d = N.to_nat (len d)) by (unfold len; lia).
  assert (Base : forall y, y = x -> d <> [] \/ True -> P x = (if (str <=? x) && (x <? str + kept size d) then nth (N.to_nat (x - str)) d 0 else if x =? str + kept size d then 0 else m0 x) \/ d = [] /\ P x = m0 x).
  { intros _ _ _. destruct H as [H|H]; [left|now right]. rewrite H. apply store_text, Kd. }
  destruct (Base x eq_refl (or_intror I)) as [B|[-> B]]; clear Base.
  - destruct (N.ltb_spec (len d) size) as [G|G].
    + replace (size - len d =? 0) with false by (symmetry; apply N.eqb_neq; lia).
      set (k := N.min (size - len d - 1) (len t)).
      assert (Ek : kept size (d ++ t) = len d + k) by (unfold kept, k; lia).
      rewrite (store_text P (str + len d) k t x) by (unfold k; lia). rewrite Ek, B.
      assert (Ed : kept size d = len d) by (unfold kept; lia). rewrite Ed.
      destruct (N.leb_spec str x), (N.leb_spec (str + len d) x), (N.ltb_spec x (str + len d)), (N.ltb_spec x (str + len d + k)),
        (N.ltb_spec x (str + (len d + k))), (N.eqb_spec x (str + len d + k)), (N.eqb_spec x (str + (len d + k))), (N.eqb_spec x (str + len d));
        cbn [andb]; try lia; try reflexivity.
      * rewrite app_nth2 by lia. f_equal. lia.
      * rewrite app_nth2 by lia. f_equal. lia.
      * rewrite app_nth1 by lia. reflexivity.
    + cbn [N.eqb]. rewrite B. assert (Ek : kept size (d ++ t) = size - 1) by (unfold kept; lia).
      assert (Ed : kept size d = size - 1) by (unfold kept; lia). rewrite Ek, Ed.
      destruct (N.leb_spec str x), (N.ltb_spec x (str + (size - 1))); cbn [andb]; try reflexivity.
      rewrite app_nth1 by lia. reflexivity.
  - change (len (@nil N)) with 0. replace (0 <? size) with true by (symmetry; apply N.ltb_lt; lia).
    rewrite !N.sub_0_r. replace (size =? 0) with false by (symmetry; apply N.eqb_neq; lia).
    cbn [app]. rewrite (store_text P (str + 0) (N.min (size - 1) (len t)) t x) by lia.
    replace (kept size t) with (N.min (size - 1) (len t)) by (unfold kept; lia). rewrite N.add_0_r.
    rewrite B. reflexivity.
Qed.

Lemma put_printed m0 m' str size t : (forall x, app_byte x -> m' x = put m0 str size t x) ->
  size = 0 \/ app_range str (kept size t + 1) -> printed m0 m' str size t.
Proof.
  intros H A. assert (K : kept size t <= len t) by (unfold kept; lia). split.
  - intros S0. destruct A as [->|A]; [lia|].
    assert (E : forall i, i <= kept size t -> m' (str + i) = if i <? kept size t then nth (N.to_nat i) t 0 else 0).
    { intros i I. rewrite H by (destruct A; split; lia). unfold put. replace (size =? 0) with false by (symmetry; apply N.eqb_neq; lia).
      rewrite store_text by exact K. destruct (N.leb_spec str (str + i)), (N.ltb_spec (str + i) (str + kept size t)), (N.ltb_spec i (kept size t)),
        (N.eqb_spec (str + i) (str + kept size t)); cbn [andb]; try lia; try reflexivity. f_equal. lia. }
    split.
    + apply list_ext. intros i. destruct (N.lt_ge_cases i (kept size t)) as [G|G].
      * rewrite get_load by exact G. rewrite E by lia. replace (i <? kept size t) with true by (symmetry; now apply N.ltb_lt).
        rewrite get_firstn by lia. unfold get. symmetry. apply nth_error_nth'. unfold len in K. lia.
      * rewrite (proj2 (get_none _ i)) by (rewrite len_load; exact G). symmetry. apply get_none.
        unfold len. rewrite firstn_length. unfold len in K. lia.
    + rewrite E by lia. now rewrite N.ltb_irrefl.
  - intros x X W. rewrite H by exact X. unfold put. unfold room in W. destruct (N.eqb_spec size 0); [reflexivity|].
    rewrite store_text by exact K. unfold within in W.
    destruct (N.leb_spec str x), (N.ltb_spec x (str + kept size t)), (N.eqb_spec x (str + kept size t)); cbn [andb]; try lia; reflexivity.
Qed.

(** Memory before the text is complete. *)
Lemma put_outside m0 str size d t x : ~ within str (room size (d ++ t)) x -> put m0 str size d x = m0 x.
Proof.
  intros W. unfold put, room, within in *. destruct (N.eqb_spec size 0); [reflexivity|].
  assert (K : kept size d <= len d) by (unfold kept; lia). rewrite store_text by exact K.
  assert (La : len (d ++ t) = len d + len t) by apply len_app. assert (kept size d <= kept size (d ++ t)) by (unfold kept; lia).
  destruct (N.leb_spec str x), (N.ltb_spec x (str + kept size d)), (N.eqb_spec x (str + kept size d)); cbn [andb]; try lia; reflexivity.
Qed.

Lemma copy_loop_out n : forall m d s x, x < d \/ d + N.of_nat n <= x -> copy_loop m d s n x = m x.
Proof.
  induction n as [|n IH]; intros m d s x H; [reflexivity|]. cbn [copy_loop]. rewrite IH by lia.
  unfold store. change (len [m s]) with 1.
  destruct (N.leb_spec d x), (N.ltb_spec x (d + 1)); cbn [andb]; try reflexivity. lia.
Qed.

Lemma shadow_add0 p : shadow_for (add64 p 0) = shadow_for p.
Proof.
  unfold add64. rewrite N.add_0_r. unfold shadow_for. f_equal. f_equal.
  assert (E : SHADOW_MASK = N.land (N.ones 64) SHADOW_MASK) by (vm_compute; reflexivity).
  rewrite E, !N.land_assoc, !N.land_ones. change (2 ^ 64) with two64. rewrite N.mod_mod by (unfold two64; lia). reflexivity.
Qed.

Lemma set_any_none m l p : set_label_any m l p 0 = Ok m.
Proof.
  unfold set_label_any, set_label. rewrite shadow_add0.
  assert (U := round_up_spec (shadow_for p)). assert (D := round_down_spec (shadow_for p)).
  replace (round_down (shadow_for p) <=? round_up (shadow_for p) + 8 * PAGE) with true by (symmetry; apply N.leb_le; lia).
  rewrite orb_true_r. unfold touches. cbn [N.ltb N.compare andb N.to_nat write_shadow]. destruct (negb _); reflexivity.
Qed.

Lemma written_low P str size d t x : x < str + len d -> written P str size d t x = P x.
Proof.
  intros H. unfold written. destruct (_ =? 0); [reflexivity|]. apply store_other. lia.
Qed.

(** One chunk. *)
Lemma emit_ok render m str size d chunk vals lab piece :
  render chunk vals m = Some piece -> needs chunk <= len vals -> len piece < 2147483648 ->
  size = 0 \/ (0x700000008000 <= str /\ str + len d + len piece < 0x800000000000) ->
  (forall l, lab = Set_label l -> l < two32) ->
  exists m', emit render m str size (len d) chunk vals lab = Ok (m', Z.of_N (len piece)) /\
  (forall x, app_byte x -> m' x = written m str size d piece x) /\
  (len d + len piece < size ->
     (forall q, app_byte q -> ~ within (str + len d) (len piece) q -> label_at m' q = label_at m q) /\
     (forall i l, i < len piece -> lab = Set_label l -> label_at m' (str + len d + i) = l) /\
     (forall i a, i < len piece -> lab = Copy_labels a -> app_range a (len piece) -> apart (str + len d) (len piece) a (len piece) ->
        label_at m' (str + len d + i) = label_at m (a + i))).
Proof.
  intros R Nd Lp A Ll. unfold emit, libc_snprintf.
  replace (len vals <? needs chunk) with false by (symmetry; apply N.ltb_ge; exact Nd). rewrite R.
  replace (len piece <? 2147483648) with true by (symmetry; now apply N.ltb_lt). cbn [bind].
  fold (written m str size d piece). set (m1 := written m str size d piece).
  set (n := num_written_bytes size (len d) (Z.of_N (len piece))).
  assert (Nn : avail size (len d) = 0 /\ n = 0 \/ 0 < size /\ n <= len piece).
  { unfold n, num_written_bytes. replace (Z.of_N (len piece) <? 0)%Z with false by (symmetry; apply Z.ltb_ge; lia).
    rewrite N2Z.id. destruct (N.eqb_spec (avail size (len d)) 0) as [E|E]; [now left|]. right. split.
    - unfold avail in E. destruct (N.ltb_spec (len d) size); [lia|contradiction].
    - destruct (_ <=? _); lia. }
  assert (Nf : len d + len piece < size -> n = len piece).
  { intros F. unfold n, num_written_bytes. replace (Z.of_N (len piece) <? 0)%Z with false by (symmetry; apply Z.ltb_ge; lia).
    rewrite N2Z.id. unfold avail. replace (len d <? size) with true by (symmetry; apply N.ltb_lt; lia).
    replace (size - len d =? 0) with false by (symmetry; apply N.eqb_neq; lia).
    replace (size - len d <=? len piece) with false by (symmetry; apply N.leb_gt; lia). reflexivity. }
  assert (L1 : size = 0 \/ forall q, app_byte q -> label_at m1 q = label_at m q).
  { destruct A as [A|A]; [now left|]. right. intros q Q. apply labels_app; [|exact Q]. intros x X. apply written_low. lia. }
  clearbody n. destruct lab as [l|a].
  - specialize (Ll l eq_refl).
    destruct Nn as [[Av ->]|[S0 Nn]].
    + rewrite set_any_none. cbn [bind]. eexists. split; [reflexivity|]. split; [reflexivity|].
      intros F. destruct A as [->|A]; [lia|]. destruct L1 as [->|L1]; [lia|]. split; [intros q Q _; now apply L1|].
      split; intros i ? I; rewrite <- (Nf F) in I; lia.
    + destruct A as [A|A]; [lia|]. destruct L1 as [->|L1]; [lia|].
      assert (Ar : app_range (str + len d) n) by (split; lia).
      rewrite set_any_app by (try exact Ar; lia). cbn [bind]. eexists. split; [reflexivity|]. split.
      * intros x X. apply (set_label_app m1 l (str + len d) n Ll Ar); [right; lia|exact X].
      * intros F. specialize (Nf F). subst n. split; [|split].
        -- intros q Q W. rewrite (set_label_out m1 l (str + len d) (len piece) q Ll Ar); [now apply L1|right; lia|exact Q|exact W].
        -- intros i l' I E. injection E as <-. apply (set_label_in m1 l (str + len d) (len piece) i Ll Ar); [right; lia|exact I].
        -- intros i a' I E. discriminate E.
  - cbn [bind]. eexists. split; [reflexivity|].
    destruct Nn as [[Av ->]|[S0 Nn]].
    + cbn [N.mul N.to_nat copy_loop]. split; [reflexivity|]. intros F. destruct A as [->|A]; [lia|]. destruct L1 as [->|L1]; [lia|].
      split; [intros q Q _; now apply L1|]. split; intros i ? I; rewrite <- (Nf F) in I; lia.
    + destruct A as [A|A]; [lia|]. destruct L1 as [->|L1]; [lia|].
      assert (Ab : n = 0 \/ app_byte (str + len d)) by (right; split; lia).
      assert (Sh : forall x, 0x400000000000 <= x -> copy_loop m1 (shadow_for (str + len d)) (shadow_for a) (N.to_nat (n * 4)) x = m1 x).
      { intros x X. apply copy_loop_out. right. rewrite N2Nat.id. destruct Ab as [->|Ab]; [rewrite N.mul_0_l, N.add_0_r|].
        - assert (Q : app_byte (str + len d)) by (split; lia). assert (B := shadow_bounds _ Q). lia.
        - assert (Ar : app_range (str + len d) n) by (split; lia). destruct (N.eq_dec n 0) as [->|N0].
          + assert (B := shadow_bounds _ Ab). lia.
          + assert (B := range_end _ _ Ar ltac:(lia)). lia. }
      split; [intros x X; apply Sh; unfold app_byte in X; lia|].
      intros F. specialize (Nf F). subst n. split; [|split].
      * intros q Q W. rewrite <- (L1 q Q). unfold label_at. apply load_int_ext. intros x X1 X2. apply copy_loop_out.
        rewrite N2Nat.id. assert (Ab' : app_byte (str + len d)) by (split; lia).
        rewrite shadow_for_app in X1, X2 by exact Q. rewrite shadow_for_app by exact Ab'. unfold within, app_byte, BASE in *.
        change (N.of_nat 4) with 4 in X2. lia.
      * intros i l I E. discriminate E.
      * intros i a' I E Aa Ap. injection E as <-.
        assert (Ar : app_range (str + len d) (len piece)) by (split; lia).
        rewrite (label_eq _ _ _ (copy_labels m1 (str + len d) a (len piece) Ar Aa Ap)).
        rewrite move_labels; try assumption; [|destruct Ar; split; lia].
        replace ((str + len d <=? str + len d + i) && (str + len d + i <? str + len d + len piece)) with true.
        -- replace (str + len d + i - (str + len d)) with i by lia. apply L1. destruct Aa. split; lia.
        -- symmetry. apply andb_true_iff. rewrite N.leb_le, N.ltb_lt. lia.
Qed.

(** The characters [s] at [cur]. *)
Fixpoint spelled (m : mem) (cur : N) (s : list N) : Prop :=
  match s with
  | [] => True
  | b :: r => m cur = b /\ spelled m (cur + 1) r
  end.

Lemma spelled_app m s : forall cur t, spelled m cur (s ++ t) <-> spelled m cur s /\ spelled m (cur + len s) t.
Proof.
  induction s as [|b s IH]; intros cur t; cbn [app spelled].
  - rewrite len_nil, N.add_0_r. tauto.
  - rewrite IH, len_cons. replace (cur + (1 + len s)) with (cur + 1 + len s) by lia. tauto.
Qed.

Lemma load_1 m a : load m a 1 = [m a].
Proof. reflexivity. Qed.

Lemma spelled_load m s : forall cur, spelled m cur s <-> load m cur (len s) = s.
Proof.
  induction s as [|b s IH]; intros cur; cbn [spelled].
  - rewrite len_nil, load_0. tauto.
  - rewrite len_cons, load_app, load_1, IH. cbn [app]. split.
    + intros [-> ->]. reflexivity.
    + intros E. injection E as -> E. auto.
Qed.

Lemma spelled_ext m m' s : forall cur, (forall x, cur <= x -> x < cur + len s -> m' x = m x) -> spelled m cur s -> spelled m' cur s.
Proof.
  induction s as [|b s IH]; intros cur E H; [exact I|]. cbn [spelled] in *. rewrite len_cons in E.
  split; [rewrite E by lia; apply H|]. apply IH; [|apply H]. intros x X1 X2. apply E; lia.
Qed.

Definition ordinary (b : N) : Prop := b <> 0 /\ b <> 37.

Lemma literal_end_ok fuel : forall m cur r e, spelled m cur (r ++ [e]) -> r <> [] -> Forall ordinary r -> e = 0 \/ e = 37 ->
  (length r <= fuel)%nat -> literal_end fuel m cur = Ok (cur + len r - 1).
Proof.
  induction fuel as [|f IH]; intros m cur r e S N0 F E L.
  { destruct r; [contradiction|cbn in L; lia]. }
  destruct r as [|b r]; [contradiction|]. cbn [app spelled] in S. destruct S as [_ S]. inversion F as [|? ? _ Fr]; subst.
  cbn [literal_end]. destruct r as [|b' r].
  - cbn [app spelled] in S. destruct S as [-> _].
    replace (negb (e =? 0) && negb (e =? 37)) with false by (destruct E as [-> | ->]; reflexivity).
    f_equal. rewrite len_cons, len_nil. lia.
  - assert (Q : negb (m (cur + 1) =? 0) && negb (m (cur + 1) =? 37) = true).
    { inversion Fr as [|? ? [O1 O2] _]; subst. cbn [app spelled] in S. destruct S as [-> _].
      apply andb_true_iff. rewrite !negb_true_iff, !N.eqb_neq. auto. }
    rewrite Q. rewrite (IH m (cur + 1) (b' :: r) e); auto; [|discriminate|cbn [length] in *; lia].
    f_equal. rewrite !len_cons. lia.
Qed.

Definition to_ints (l : list arg) : list Z := map (fun a => to_int (a_value a)) l.

Lemma scan_ok fuel : forall m cur mid c cv star_args w rest, spelled m (cur + 1) (mid ++ [c]) ->
  Forall (fun b => conv_of b = None /\ b <> 0) mid -> conv_of c = Some cv -> length star_args = stars mid ->
  Forall (fun a => a_kind a = KInt) star_args -> (length mid < fuel)%nat ->
  scan fuel m cur w (star_args ++ rest) = Ok (cur + 1 + len mid, Some cv, last (to_ints star_args) w, rest).
Proof.
  induction fuel as [|f IH]; intros m cur mid c cv sa w rest S F C Ls K L; [lia|].
  cbn [scan]. destruct mid as [|b mid].
  - cbn [app spelled] in S. destruct S as [-> _]. rewrite C. cbn in Ls. destruct sa; [|discriminate].
    cbn [app to_ints map last]. rewrite len_nil, N.add_0_r. reflexivity.
  - cbn [app spelled] in S. destruct S as [Eb S]. inversion F as [|? ? [Cb Zb] Fr]; subst. rewrite Cb.
    unfold stars in Ls. cbn [filter] in Ls. unfold star in Ls. rewrite (N.eqb_sym 42) in Ls.
    destruct (N.eqb_spec (m (cur + 1)) 42) as [E|E].
    + cbn [length] in Ls. destruct sa as [|a sa]; [discriminate|]. inversion K as [|? ? Ka Kr]; subst.
      cbn [app va_arg]. rewrite Ka. cbn [kind_eqb bind].
      rewrite (IH m (cur + 1) mid c cv sa (to_int (a_value a)) rest); auto; try (cbn [length] in *; lia).
      replace (cur + 1 + len (m (cur + 1) :: mid)) with (cur + 1 + 1 + len mid) by (rewrite len_cons; lia).
      do 3 f_equal. unfold to_ints. destruct sa as [|a' sa]; [reflexivity|].
      cbn [map last]. clear. generalize (to_int (a_value a')) as z, (to_int (a_value a)) as y. induction sa as [|a2 sa IHs]; intros z y; [reflexivity|]. cbn [map last] in *.
      destruct (map _ sa); [reflexivity|]. apply (IHs (to_int (a_value a2)) y).
    + replace (m (cur + 1) =? 0) with false by (symmetry; now apply N.eqb_neq).
      rewrite (IH m (cur + 1) mid c cv sa w rest); auto; try (cbn [length] in *; lia).
      replace (cur + 1 + len (m (cur + 1) :: mid)) with (cur + 1 + 1 + len mid) by (rewrite len_cons; lia). reflexivity.
Qed.

(** Valid directives. *)
Definition conv_kind (c : N) (mid : list N) : option (conv * kind) :=
  match conv_of c with
  | Some Cint => Some (Cint, match last (37 :: mid) 0 with 104 => KInt | 108 | 113 | 106 | 122 | 116 => KLong | _ => KInt end)
  | Some Cfloat => Some (Cfloat, if last (37 :: mid) 0 =? 76 then KLongDouble else KDouble)
  | Some Cchar => Some (Cchar, KInt)
  | Some Cstr => Some (Cstr, KPtr)
  | Some Cptr => Some (Cptr, KPtr)
  | _ => None
  end.

Lemma flag_in b : is_flag b = true -> In b [45; 43; 32; 35; 48; 39; 49; 50; 51; 52; 53; 54; 55; 56; 57; 46; 42].
Proof.
  unfold is_flag. intros H. apply existsb_exists in H. destruct H as (x & I & E). apply N.eqb_eq in E. now subst.
Qed.

Lemma in_spelling (P : N -> Prop) l : Forall P l -> forall b, In b l -> P b.
Proof. intros F. now apply Forall_forall. Qed.

Lemma flag_ok b : is_flag b = true -> conv_of b = None /\ b <> 0 /\ b <> 37 /\ ~ In b [104; 108; 113; 106; 122; 116; 76].
Proof.
  intros H. apply flag_in in H. revert b H. apply in_spelling.
  repeat (apply Forall_cons || apply Forall_nil); repeat split; try discriminate; cbn; intuition discriminate.
Qed.

Lemma last_flag flags : forallb is_flag flags = true -> ~ In (last (37 :: flags) 0) [104; 108; 113; 106; 122; 116; 76].
Proof.
  intros F. destruct flags as [|b fl] using rev_ind; [cbn; intuition discriminate|].
  rewrite app_comm_cons, last_last. rewrite forallb_app in F. apply andb_true_iff in F as [_ F]. cbn in F. rewrite andb_true_r in F.
  now apply flag_ok.
Qed.

Lemma stars_app a b : stars (a ++ b) = (stars a + stars b)%nat.
Proof. unfold stars. now rewrite filter_app, app_length. Qed.

Lemma last_app_ne {A} (l : list A) x y d : last (l ++ [x; y]) d = y.
Proof. change [x; y] with ([x] ++ [y]). rewrite app_assoc. apply last_last. Qed.

Lemma not_length_kind b : ~ In b [104; 108; 113; 106; 122; 116; 76] ->
  match b with 104 => KInt | 108 | 113 | 106 | 122 | 116 => KLong | _ => KInt end = KInt /\ (b =? 76) = false.
Proof.
  intros H. assert (Q : b <> 104 /\ b <> 108 /\ b <> 113 /\ b <> 106 /\ b <> 122 /\ b <> 116 /\ b <> 76).
  { repeat split; intros ->; apply H; cbn; tauto. }
  destruct Q as (q1 & q2 & q3 & q4 & q5 & q6 & q7). split; [|now apply N.eqb_neq].
  destruct b as [|p]; [reflexivity|]. repeat (destruct p as [p|p|]; try reflexivity); congruence.
Qed.

Lemma valid_directive mid c ks : valid (Directive mid c) ks ->
  exists k cv, ks = repeat KInt (stars mid) ++ [k] /\ (stars mid <= 1)%nat /\
    Forall (fun b => conv_of b = None /\ b <> 0) mid /\ conv_kind c mid = Some (cv, k) /\ conv_of c = Some cv /\
    (cv = Cstr <-> c = 115) /\ cv <> Ccount /\ cv <> Cpercent.
Proof.
  intros V. inversion V as [| |flags l c0 k F St C E1 E2]; subst.
  assert (Fl : Forall (fun b => conv_of b = None /\ b <> 0) flags).
  { apply Forall_forall. intros b B. rewrite forallb_forall in F. destruct (flag_ok b (F b B)) as (A1 & A2 & _). auto. }
  assert (Lf := last_flag flags F).
  assert (Ll : forall x, In x [[]; [104]; [104; 104]; [108]; [108; 108]; [113]; [106]; [122]; [116]; [76]] ->
    stars (flags ++ x) = stars flags /\ Forall (fun b => conv_of b = None /\ b <> 0) (flags ++ x) /\
    last (37 :: flags ++ x) 0 = last x (last (37 :: flags) 0)).
  { intros x X. cbn [In] in X.
    repeat (destruct X as [<-|X]; [split; [rewrite stars_app; cbn; lia|split; [apply Forall_app; split; [exact Fl|repeat constructor; discriminate]|
      (rewrite app_nil_r; reflexivity) || (rewrite app_comm_cons, last_last; reflexivity) || (rewrite app_comm_cons, last_app_ne; reflexivity)]]|]).
    contradiction. }
  set (z := last (37 :: flags) 0) in *. clearbody z. destruct (not_length_kind _ Lf) as [NK NL].
  inversion C as [x y Ic Il|x y Ic Il|x y Ic Il|y Ic| | |]; subst.
  - exists KInt, Cint. assert (Q : In l [[]; [104]; [104; 104]; [108]; [108; 108]; [113]; [106]; [122]; [116]; [76]]) by (cbn in *; tauto).
    destruct (Ll l Q) as (A1 & A2 & A3). rewrite A1. split; [reflexivity|]. split; [exact St|]. split; [exact A2|].
    assert (Cc : conv_of c = Some Cint /\ c <> 115) by (cbn [In] in Ic; repeat (destruct Ic as [<-|Ic]; [split; [reflexivity|discriminate]|]); contradiction).
    destruct Cc as [Cc Nc]. unfold conv_kind. rewrite Cc, A3. repeat split; try discriminate; try contradiction.
    cbn [In] in Il. destruct Il as [<-|[<-|[<-|[]]]]; cbn [last]; try reflexivity. now rewrite NK.
  - exists KLong, Cint. assert (Q : In l [[]; [104]; [104; 104]; [108]; [108; 108]; [113]; [106]; [122]; [116]; [76]]) by (cbn in *; tauto).
    destruct (Ll l Q) as (A1 & A2 & A3). rewrite A1. split; [reflexivity|]. split; [exact St|]. split; [exact A2|].
    assert (Cc : conv_of c = Some Cint /\ c <> 115) by (cbn [In] in Ic; repeat (destruct Ic as [<-|Ic]; [split; [reflexivity|discriminate]|]); contradiction).
    destruct Cc as [Cc Nc]. unfold conv_kind. rewrite Cc, A3. repeat split; try discriminate; try contradiction.
    cbn [In] in Il. destruct Il as [<-|[<-|[<-|[<-|[<-|[<-|[]]]]]]]; cbn [last]; reflexivity.
  - exists KDouble, Cfloat. assert (Q : In l [[]; [104]; [104; 104]; [108]; [108; 108]; [113]; [106]; [122]; [116]; [76]]) by (cbn in *; tauto).
    destruct (Ll l Q) as (A1 & A2 & A3). rewrite A1. split; [reflexivity|]. split; [exact St|]. split; [exact A2|].
    assert (Cc : conv_of c = Some Cfloat /\ c <> 115) by (cbn [In] in Ic; repeat (destruct Ic as [<-|Ic]; [split; [reflexivity|discriminate]|]); contradiction).
    destruct Cc as [Cc Nc]. unfold conv_kind. rewrite Cc, A3. repeat split; try discriminate; try contradiction.
    cbn [In] in Il. destruct Il as [<-|[<-|[]]]; cbn [last]; try reflexivity. now rewrite NL.
  - exists KLongDouble, Cfloat. assert (Q : In [76] [[]; [104]; [104; 104]; [108]; [108; 108]; [113]; [106]; [122]; [116]; [76]]) by (cbn; tauto).
    destruct (Ll _ Q) as (A1 & A2 & A3). rewrite A1. split; [reflexivity|]. split; [exact St|]. split; [exact A2|].
    assert (Cc : conv_of c = Some Cfloat /\ c <> 115) by (cbn [In] in Ic; repeat (destruct Ic as [<-|Ic]; [split; [reflexivity|discriminate]|]); contradiction).
    destruct Cc as [Cc Nc]. unfold conv_kind. rewrite Cc, A3. repeat split; try discriminate; try contradiction.
  - exists KInt, Cchar. destruct (Ll [] ltac:(cbn; tauto)) as (A1 & A2 & A3). rewrite A1. repeat split; auto; try discriminate.
  - exists KPtr, Cstr. destruct (Ll [] ltac:(cbn; tauto)) as (A1 & A2 & A3). rewrite A1. repeat split; auto; try discriminate.
  - exists KPtr, Cptr. destruct (Ll [] ltac:(cbn; tauto)) as (A1 & A2 & A3). rewrite A1. repeat split; auto; try discriminate.
Qed.

Section Loop.
Variables (render : renderer) (m0 : mem) (str size : N).

Definition text_inv (m : mem) (d : list (N * option N)) : Prop :=
  (forall x, app_byte x -> m x = put m0 str size (map fst d) x) \/ d = [] /\ (forall x, app_byte x -> m x = m0 x).
Definition labels_inv (m : mem) (d : list (N * option N)) : Prop :=
  (forall i b l, get d i = Some (b, Some l) -> label_at m (str + i) = l) /\
  (forall q, app_byte q -> ~ within str (len d) q -> label_at m q = label_at m0 q).

Lemma emit_step m d po chunk vals lab :
  text_inv m d -> render chunk vals m = Some (map fst po) -> needs chunk <= len vals -> len po < 2147483648 ->
  size = 0 \/ (0x700000008000 <= str /\ str + len d + len po < 0x800000000000) ->
  (forall l, lab = Set_label l -> l < two32) ->
  (len (d ++ po) < size -> labels_inv m d -> forall i b l, get po i = Some (b, Some l) -> lab = Set_label l \/
     exists a, lab = Copy_labels a /\ app_range a (len po) /\ apart (str + len d) (len po) a (len po) /\ label_at m (a + i) = l) ->
  exists m1, emit render m str size (len d) chunk vals lab = Ok (m1, Z.of_N (len po)) /\
    (forall x, app_byte x -> m1 x = put m0 str size (map fst (d ++ po)) x) /\
    (len (d ++ po) < size -> labels_inv m d -> labels_inv m1 (d ++ po)).
Proof.
  intros T R Nd Lp A Ll Lb.
  assert (Ld : len (map fst d) = len d) by apply len_map. assert (Lpo : len (map fst po) = len po) by apply len_map.
  destruct (emit_ok render m str size (map fst d) chunk vals lab (map fst po) R Nd) as (m1 & E & X & L); try (rewrite ?Ld, ?Lpo; assumption).
  rewrite Ld, Lpo in E. exists m1. split; [exact E|]. split.
  - intros x Ax. rewrite X by exact Ax. rewrite map_app. apply put_step. destruct T as [T|[-> T]]; [left; now apply T|right; split; [reflexivity|now apply T]].
  - intros F I. rewrite len_app in F. rewrite Ld, Lpo in L. destruct (L F) as (L1 & L2 & L3).
    assert (A' : 0x700000008000 <= str /\ str + len d + len po < 0x800000000000) by (destruct A as [->|A]; [lia|exact A]).
    destruct I as [I1 I2]. split.
    + intros i b l G. destruct (N.lt_ge_cases i (len d)) as [Gi|Gi].
      * rewrite get_app_l in G by exact Gi. rewrite L1; [now apply (I1 i b)|split; lia|unfold within; lia].
      * rewrite get_app_r in G by exact Gi. assert (Gj := get_some _ _ _ G).
        replace (str + i) with (str + len d + (i - len d)) by lia.
        rewrite <- len_app in F. destruct (Lb F (conj I1 I2) _ _ _ G) as [->|(a & -> & A1 & A2 & A3)].
        -- now apply L2.
        -- rewrite (L3 _ a Gj eq_refl A1 A2). exact A3.
    + intros q Q W. rewrite len_app in W. rewrite L1; [|exact Q|unfold within in *; lia]. apply I2; [exact Q|unfold within in *; lia].
Qed.

Lemma ordinary_run n args : forall items out, produces render m0 str n items args out ->
  exists r rest out', items = map Ordinary r ++ rest /\ Forall ordinary r /\
    out = map (fun b => (b, Some 0)) r ++ out' /\ produces render m0 str n rest args out' /\
    (exists e tl, flat_map spelling rest ++ [0] = e :: tl /\ (e = 0 \/ e = 37)).
Proof.
  induction items as [|it items IH]; intros out P.
  - exists [], [], out. repeat split; auto. exists 0, []. auto.
  - destruct it as [b| |mid c].
    + inversion P as [|? ? ? out1 V P1| | | |]; subst. destruct (IH _ P1) as (r & rest & out' & -> & F & -> & P2 & H).
      exists (b :: r), rest, out'. repeat split; auto. constructor; [|exact F]. inversion V; subst. now split.
    + exists [], (Percent :: items), out. repeat split; auto. eexists 37, _. split; [reflexivity|auto].
    + exists [], (Directive mid c :: items), out. repeat split; auto. eexists 37, _. split; [reflexivity|auto].
Qed.

Lemma spelling_ordinary r : flat_map spelling (map Ordinary r) = r.
Proof. induction r as [|b r IH]; [reflexivity|]. cbn. now rewrite IH. Qed.

Lemma text_outside m d out n x : text_inv m d -> n = room size (map fst (d ++ out)) -> app_byte x -> ~ within str n x -> m x = m0 x.
Proof.
  intros [T|[_ T]] -> A W; rewrite T by exact A; [|reflexivity]. rewrite map_app in W. now apply put_outside with (t := map fst out).
Qed.

Lemma len_pairs {A B} (f : A -> B) l : len (map f l) = len l.
Proof. apply len_map. Qed.

Lemma fst_pairs (f : N -> option N) l : map fst (map (fun b => (b, f b)) l) = l.
Proof. rewrite map_map. cbn. apply map_id. Qed.

Lemma fst_combine {A B} (l : list A) (k : list B) : length l = length k -> map fst (combine l k) = l.
Proof.
  revert k. induction l as [|a l IH]; intros [|b k] E; try discriminate; [reflexivity|]. cbn. f_equal. apply IH. now injection E.
Qed.

Lemma get_combine {A B} (l : list A) (k : list B) i a b : get (combine l k) i = Some (a, b) -> get l i = Some a /\ get k i = Some b.
Proof.
  unfold get. generalize (N.to_nat i) as j. revert k. induction l as [|x l IH]; intros [|y k] [|j] E; try discriminate; cbn in *.
  - now injection E as -> ->.
  - now apply IH.
Qed.

Lemma to_int_small v : v < 2147483648 -> to_int v = Z.of_N v.
Proof.
  intros V. unfold to_int. rewrite N.mod_small by (unfold two32; lia).
  replace (v <? 2147483648) with true by (symmetry; now apply N.ltb_lt). reflexivity.
Qed.

Lemma needs_plain b r : b <> 37 -> needs (b :: r) = 0.
Proof.
  intros N. unfold needs. destruct b as [|p]; [reflexivity|].
  do 6 (try (destruct p as [p|p|]; try reflexivity)). now contradiction N.
Qed.

Lemma needs_directive mid c : c <> 37 -> needs (37 :: mid ++ [c]) = N.of_nat (stars mid) + (if c =? 42 then 1 else 0) + 1.
Proof.
  intros C. unfold needs. rewrite last_last. replace (c =? 37) with false by (symmetry; now apply N.eqb_neq).
  unfold stars, star, len. rewrite filter_app, app_length. cbn [filter]. rewrite (N.eqb_sym 42 c). destruct (c =? 42); cbn [length]; lia.
Qed.

Lemma width_vals sa v mid : map a_kind (sa ++ [v]) = repeat KInt (stars mid) ++ [a_kind v] -> (stars mid <= 1)%nat ->
  Forall (fun a => a_value a < 2147483648) sa ->
  length sa = stars mid /\ Forall (fun a => a_kind a = KInt) sa /\
  with_width (last (to_ints sa) (-1)%Z) v = map (fun a => (a_kind a, a_value a)) (sa ++ [v]).
Proof.
  intros E S F. rewrite map_app in E. apply app_inj_tail in E as [E _].
  assert (L : length sa = stars mid) by (rewrite <- (repeat_length KInt (stars mid)), <- E; now rewrite map_length).
  split; [exact L|].
  assert (K : Forall (fun a => a_kind a = KInt) sa).
  { apply Forall_forall. intros a I. apply (in_map a_kind) in I. rewrite E in I. now apply repeat_spec in I. }
  split; [exact K|]. destruct sa as [|a [|a' sa]]; cbn [length] in L; [reflexivity| |lia].
  inversion F as [|? ? V _]; subst. inversion K as [|? ? Ka _]; subst. unfold with_width, to_ints. cbn [map last app].
  rewrite to_int_small by exact V. replace (0 <=? Z.of_N (a_value a))%Z with true by (symmetry; apply Z.leb_le; lia).
  rewrite N2Z.id, Ka. reflexivity.
Qed.

Theorem loop_ok fuel : forall items args out d m cur,
  plain_text render -> produces render m0 str (room size (map fst (d ++ out))) items args out ->
  text_inv m d -> spelled m0 cur (flat_map spelling items ++ [0]) ->
  app_range cur (len (flat_map spelling items ++ [0])) -> apart str (room size (map fst (d ++ out))) cur (len (flat_map spelling items ++ [0])) ->
  len (d ++ out) < 2147483648 -> size = 0 \/ (0x700000008000 <= str /\ str + len (d ++ out) < 0x800000000000) ->
  Forall (fun a => a_label a < two32) args -> (length (flat_map spelling items) < fuel)%nat ->
  exists m', format_loop fuel render m str size (len d) cur args = Ok (m', Z.of_N (len (d ++ out)), Some 0) /\
    (text_inv m' (d ++ out) /\ (items <> [] -> forall x, app_byte x -> m' x = put m0 str size (map fst (d ++ out)) x)) /\
    (len (d ++ out) < size -> labels_inv m d -> labels_inv m' (d ++ out)).
Proof.
  induction fuel as [|f IH]; intros items args out d m cur Pt P T Sp Ar Ap L31 B Fl Fu; [lia|].
  assert (Sm : spelled m cur (flat_map spelling items ++ [0])).
  { revert Sp. apply spelled_ext. intros x X1 X2. apply (text_outside m d out _ x T eq_refl); [destruct Ar; split; lia|].
    unfold apart, within in *. lia. }
  (* what happens after a chunk *)
  assert (Next : forall po out' rest args' m1 chars chunk_args_ok,
    chunk_args_ok = tt ->
    out = po ++ out' -> flat_map spelling items = chars ++ flat_map spelling rest -> chars <> [] ->
    produces render m0 str (room size (map fst (d ++ out))) rest args' out' -> Forall (fun a => a_label a < two32) args' ->
    (forall x, app_byte x -> m1 x = put m0 str size (map fst (d ++ po)) x) ->
    (len (d ++ po) < size -> labels_inv m d -> labels_inv m1 (d ++ po)) ->
    exists m', (if (Z.of_N (len po) <? 0)%Z then Ok (m1, Z.of_N (len po), None)
                else format_loop f render m1 str size (len d + Z.to_N (Z.of_N (len po))) (cur + len chars) args')
               = Ok (m', Z.of_N (len (d ++ out)), Some 0) /\
    (text_inv m' (d ++ out) /\ (items <> [] -> forall x, app_byte x -> m' x = put m0 str size (map fst (d ++ out)) x)) /\
    (len (d ++ out) < size -> labels_inv m d -> labels_inv m' (d ++ out))).
  { intros po out' rest args' m1 chars _ _ -> Es Nc Pr Fa X1 L1.
    replace (Z.of_N (len po) <? 0)%Z with false by (symmetry; apply Z.ltb_ge; lia). rewrite N2Z.id.
    replace (len d + len po) with (len (d ++ po)) by apply len_app. rewrite app_assoc in *.
    rewrite Es in Sp, Ar, Ap, Fu. rewrite <- (app_assoc chars) in Sp, Ar, Ap. apply spelled_app in Sp as [_ Sp].
    assert (Lc : len (chars ++ flat_map spelling rest ++ [0]) = len chars + len (flat_map spelling rest ++ [0])) by apply len_app.
    assert (Lr : len ((d ++ po) ++ out') = len d + len po + len out') by (rewrite !len_app; lia).
    destruct (IH rest args' out' (d ++ po) m1 (cur + len chars) Pt Pr) as (m' & E & [T2 T3] & L2); auto.
    - now left.
    - destruct Ar. split; lia.
    - unfold apart in *. lia.
    - rewrite app_length in Fu. destruct chars; [contradiction|cbn [length] in Fu]. lia.
    - exists m'. split; [exact E|]. split; [split; [exact T2|]|].
      + intros _. destruct rest as [|it rest]; [|now apply T3].
        inversion Pr; subst. destruct f as [|f']; [discriminate E|]. cbn [format_loop flat_map app spelled] in E, Sp.
        destruct T2 as [T2|[Z _]]; [exact T2|].
        assert (Sm1 : m1 (cur + len chars) = 0).
        { destruct Sp as [Z0 _]. rewrite <- Z0. rewrite !app_nil_r in *.
          transitivity (put m0 str size (map fst (d ++ po)) (cur + len chars)).
          - apply X1. cbn [flat_map app] in Ar, Lc. rewrite Lc in Ar. change (len [0]) with 1 in Ar. destruct Ar. split; lia.
          - apply put_outside with (t := []). rewrite app_nil_r. cbn [flat_map app] in Ap, Lc. rewrite Lc in Ap. change (len [0]) with 1 in Ap. unfold apart, within in *. lia. }
        rewrite Sm1 in E. cbn [N.eqb] in E. injection E as <- _. rewrite app_nil_r. exact X1.
      + intros F I. apply L2; [exact F|]. apply L1; [rewrite len_app in F; lia|exact I]. }
  destruct items as [|it items].
  - inversion P; subst. cbn [flat_map app spelled] in Sm. destruct Sm as [Z _]. cbn [format_loop]. rewrite Z. cbn [N.eqb].
    rewrite app_nil_r in *. exists m. rewrite to_int_small by exact L31. split; [reflexivity|]. split; [split; [exact T|contradiction]|auto].
  - assert (Nz : m cur <> 0).
    { destruct it as [b| |mid c]; cbn [flat_map spelling app spelled] in Sm; destruct Sm as [-> _]; [|discriminate|discriminate].
      inversion P as [|? ? ? ? V _| | | |]; subst. now inversion V. }
    cbn [format_loop]. replace (m cur =? 0) with false by (symmetry; now apply N.eqb_neq).
    destruct it as [b| |mid c].
    + (* ordinary characters *)
      destruct (ordinary_run _ _ _ _ P) as (r & rest & out' & Ei & Fr & Eo & Pr & e & tl & Ee & E0).
      destruct r as [|b' r]; [cbn in Ei; subst rest; cbn [flat_map spelling app] in Ee; injection Ee as -> _; inversion P as [|? ? ? ? V _| | | |]; subst; inversion V; subst; destruct E0; contradiction|].
      cbn [map app] in Ei. injection Ei as -> Ei.
      assert (Es : flat_map spelling (Ordinary b' :: items) = (b' :: r) ++ flat_map spelling rest).
      { cbn [flat_map spelling app]. rewrite Ei, flat_map_app, spelling_ordinary. reflexivity. }
      rewrite Es, <- app_assoc, Ee in Sm.
      assert (Sr : spelled m cur ((b' :: r) ++ [e])).
      { change (e :: tl) with ([e] ++ tl) in Sm. rewrite app_assoc in Sm. now apply spelled_app in Sm as [Sm _]. }
      assert (Eb : m cur = b') by apply Sr. inversion Fr as [|? ? [O1 O2] Fr']; subst b'.
      replace (m cur =? 37) with false by (symmetry; now apply N.eqb_neq). cbn [negb].
      rewrite (literal_end_ok f m cur (m cur :: r) e Sr ltac:(discriminate) Fr E0); [|rewrite Es, app_length in Fu; lia].
      cbn [bind]. set (r1 := m cur :: r) in *.
      assert (Lr1 : 1 <= len r1) by (unfold r1; rewrite len_cons; lia).
      replace (cur + len r1 - 1 - cur + 1) with (len r1) by lia.
      rewrite (proj1 (spelled_load m r1 cur)) by (apply spelled_app in Sr; apply Sr).
      set (po := map (fun b => (b, Some 0)) r1) in *.
      assert (Lpo : len po = len r1) by apply len_map.
      rewrite Eo in L31, B. rewrite !len_app in L31, B.
      destruct (emit_step m d po r1 [] (Set_label 0) T) as (m1 & E & X1 & L1).
      * unfold po. rewrite (fst_pairs (fun _ => Some 0)). apply Pt; intros I.
        -- rewrite Forall_forall in Fr. now destruct (Fr 0 I).
        -- rewrite Forall_forall in Fr. now destruct (Fr 37 I).
      * unfold r1. rewrite needs_plain by exact O2. lia.
      * lia.
      * destruct B as [B|B]; [now left|right; lia].
      * intros l0 El. injection El as <-. unfold two32. lia.
      * intros _ _ i b0 l0 G. unfold po in G. rewrite get_map in G. destruct (get r1 i); [|discriminate]. injection G as _ <-. now left.
      * rewrite E. cbn [bind]. replace (cur + len r1 - 1 + 1) with (cur + len r1) by lia.
        apply (Next po out' rest args m1 r1 tt eq_refl Eo Es); auto. discriminate.
    + (* %% *)
      inversion P as [| |? ? out' P'| | |]; subst. cbn [flat_map spelling app spelled] in Sm. destruct Sm as (E1 & E2 & Sm).
      rewrite E1. cbn [N.eqb Pos.eqb negb].
      destruct f as [|f']; [cbn in Fu; lia|]. cbn [scan]. rewrite E2. cbn [conv_of bind].
      replace (cur + 1 - cur + 1) with 2 by lia.
      assert (El : load m cur 2 = [37; 37]).
      { apply (spelled_load m [37; 37] cur). cbn [spelled]. auto. }
      rewrite El.
      destruct (emit_step m d [(37, Some 0)] [37; 37] [] (Set_label 0) T) as (m1 & E & X1 & L1).
      * apply Pt.
      * cbn. lia.
      * cbn. lia.
      * rewrite len_app in B. cbn [len length] in B. rewrite len_cons in B. destruct B as [B|B]; [now left|right]. change (len [(37, Some 0)]) with 1. lia.
      * intros l E'. injection E' as <-. unfold two32. lia.
      * intros _ _ i b0 l G. left. assert (G' := get_some _ _ _ G). change (len [(37, Some 0)]) with 1 in G'. replace i with 0 in G by lia.
        injection G as _ <-. reflexivity.
      * rewrite E. cbn [bind]. replace (cur + 1 + 1) with (cur + len [37; 37]) by (cbn; lia).
        apply (Next [(37, Some 0)] out' items args m1 [37; 37] tt eq_refl); auto; try reflexivity. discriminate.
    + (* a directive *)
      assert (G : exists sa v args' piece po out' lab,
        args = sa ++ v :: args' /\ valid (Directive mid c) (map a_kind (sa ++ [v])) /\ Forall (fun a => a_value a < 2147483648) sa /\
        render (37 :: mid ++ [c]) (map (fun a => (a_kind a, a_value a)) (sa ++ [v])) m = Some piece /\
        piece = map fst po /\ out = po ++ out' /\ produces render m0 str (room size (map fst (d ++ out))) items args' out' /\
        lab = (if c =? 115 then Copy_labels (a_value v) else Set_label (a_label v)) /\
        (len (d ++ po) < size -> labels_inv m d -> forall i b l, get po i = Some (b, Some l) -> lab = Set_label l \/
           exists a, lab = Copy_labels a /\ app_range a (len po) /\ apart (str + len d) (len po) a (len po) /\ label_at m (a + i) = l)).
      { inversion P as [| | |mid' c' sa v items' args' piece out' Nc V Fs Rr Pr|s items' args' piece out' Ks Rr As Aps Pr|mid' sa v items' args' piece out' V Fs Rr Pr]; subst.
        - set (po := map (fun b => (b, Some (a_label v))) piece).
          exists sa, v, args', piece, po, out', (Set_label (a_label v)).
          split; [reflexivity|]. split; [exact V|]. split; [exact Fs|].
          split; [apply Rr; intros x X W; apply (text_outside m d (po ++ out') _ x T eq_refl X); exact W|].
          split; [symmetry; apply (fst_pairs (fun _ => Some (a_label v)))|]. split; [reflexivity|]. split; [exact Pr|].
          split; [replace (c =? 115) with false by (symmetry; now apply N.eqb_neq); reflexivity|].
          intros _ _ i b l G. unfold po in G. rewrite get_map in G. destruct (get piece i); [|discriminate]. injection G as _ <-. now left.
        - set (ls := map (fun i => Some (label_at m0 (a_value s + i))) (nseq 0 (length piece))) in *. set (po := combine piece ls) in *.
          assert (Ll : length piece = length ls) by (unfold ls; now rewrite map_length, nseq_length).
          assert (Fp : map fst po = piece) by (apply fst_combine; exact Ll).
          assert (Lp : len po = len piece) by (rewrite <- (len_map fst po), Fp; reflexivity).
          exists [], s, args', piece, po, out', (Copy_labels (a_value s)).
          split; [reflexivity|]. split.
          { cbn [app map]. rewrite Ks. apply (v_directive [] [] 115 KPtr); [reflexivity|cbn; lia|constructor]. }
          split; [constructor|].
          split; [apply Rr; intros x X W; apply (text_outside m d (po ++ out') _ x T eq_refl X); exact W|].
          split; [symmetry; exact Fp|]. split; [reflexivity|]. split; [exact Pr|].
          split; [reflexivity|].
          intros F I i b l G. right. exists (a_value s). split; [reflexivity|]. rewrite Lp. split; [exact As|].
          assert (Rm : len d + len po <= room size (map fst (d ++ po ++ out'))).
          { unfold room. rewrite len_app in F. destruct (N.eqb_spec size 0); [lia|]. unfold kept. rewrite len_map, !len_app. lia. }
          rewrite Lp in Rm. split; [unfold apart in *; lia|].
          destruct (get_combine _ _ _ _ _ G) as [G1 G2]. assert (Gi := get_some _ _ _ G1).
          unfold ls in G2. rewrite get_map in G2. rewrite get_nseq in G2 by (unfold len in Gi; lia). cbn [option_map] in G2. injection G2 as <-.
          apply I; [destruct As; split; lia|]. unfold within, apart in *. lia.
        - set (po := map (fun b => (b, @None N)) piece).
          exists sa, v, args', piece, po, out', (Copy_labels (a_value v)).
          split; [reflexivity|]. split; [exact V|]. split; [exact Fs|].
          split; [apply Rr; intros x X W; apply (text_outside m d (po ++ out') _ x T eq_refl X); exact W|].
          split; [symmetry; apply (fst_pairs (fun _ => None))|]. split; [reflexivity|]. split; [exact Pr|]. split; [reflexivity|].
          intros _ _ i b l G. unfold po in G. rewrite get_map in G. destruct (get piece i); discriminate. }
      destruct G as (sa & v & args' & piece & po & out' & lab & -> & V & Fs & R & Ep & Eo & Pr & El & Lb).
      destruct (valid_directive _ _ _ V) as (k & cv & Ek & St & Fm & Ck & Cc & Cs & Nn & Np).
      assert (Ev : a_kind v = k).
      { rewrite map_app in Ek. apply app_inj_tail in Ek. apply Ek. }
      rewrite <- Ev in Ek. destruct (width_vals sa v mid Ek St Fs) as (Lsa & Ksa & Ww).
      cbn [flat_map spelling] in Sm. change ((37 :: mid ++ [c]) ++ flat_map spelling items) with (37 :: (mid ++ [c]) ++ flat_map spelling items) in Sm.
      cbn [app spelled] in Sm. destruct Sm as (E1 & Sm). rewrite <- app_assoc in Sm. apply spelled_app in Sm as [Sm _].
      rewrite E1. cbn [N.eqb Pos.eqb negb].
      assert (Fm' : (length mid < f)%nat).
      { cbn [flat_map spelling] in Fu. rewrite app_length in Fu. cbn [length] in Fu. rewrite app_length in Fu. cbn [length] in Fu. lia. }
      rewrite (scan_ok f m cur mid c cv sa (-1)%Z (v :: args') Sm Fm Cc Lsa Ksa Fm'). cbn [bind].
      replace (cur + 1 + len mid - cur + 1) with (len (37 :: mid ++ [c])) by (rewrite len_cons, len_app; change (len [c]) with 1; lia).
      assert (Ec : load m cur (len (37 :: mid ++ [c])) = 37 :: mid ++ [c]) by (apply spelled_load; cbn [spelled]; auto).
      rewrite Ec.
      assert (C37 : c <> 37) by (intros ->; cbn in Cc; congruence). assert (C42 : c <> 42) by (intros ->; discriminate Cc).
      assert (Last : m (cur + 1 + len mid - 1) = last (37 :: mid) 0).
      { replace (cur + 1 + len mid - 1) with (cur + len mid) by lia.
        assert (S2 : spelled m cur (37 :: mid)) by (cbn [spelled]; split; [exact E1|]; now apply spelled_app in Sm as [Sm _]).
        destruct (@exists_last N (37 :: mid) ltac:(discriminate)) as (l0 & z & Ez). rewrite Ez in *. rewrite last_last.
        apply spelled_app in S2 as [_ S2]. cbn [spelled] in S2. destruct S2 as [S2 _]. rewrite <- S2. f_equal.
        assert (Ln : len (37 :: mid) = len (l0 ++ [z])) by now rewrite Ez. rewrite len_cons, len_app in Ln. change (len [z]) with 1 in Ln. lia. }
      assert (Fa : Forall (fun a => a_label a < two32) args').
      { apply Forall_app in Fl as [_ Fl]. now inversion Fl. }
      assert (Fv : a_label v < two32).
      { apply Forall_app in Fl as [_ Fl]. now inversion Fl. }
      destruct (emit_step m d po (37 :: mid ++ [c]) (map (fun a => (a_kind a, a_value a)) (sa ++ [v])) lab T) as (m1 & E & X1 & L1).
      * rewrite R, Ep. reflexivity.
      * rewrite needs_directive by exact C37. replace (c =? 42) with false by (symmetry; now apply N.eqb_neq).
        rewrite len_map, len_app. unfold len. rewrite Lsa. cbn [length]. lia.
      * rewrite Eo, !len_app in L31. lia.
      * rewrite Eo, !len_app in B. destruct B as [B|B]; [now left|right; lia].
      * intros l E'. rewrite El in E'. destruct (c =? 115); [discriminate|]. injection E' as <-. exact Fv.
      * exact Lb.
      * assert (Fin : exists m', (do (p0, args1) <- (do (m2, r) <- emit render m str size (len d) (37 :: mid ++ [c]) (with_width (last (to_ints sa) (-1)%Z) v) lab;
              Ok (m2, r, cur + 1 + len mid, args'));
            let (p1, e) := p0 in let (m2, retval) := p1 in
            if (retval <? 0)%Z then Ok (m2, retval, None)
            else format_loop f render m2 str size (len d + Z.to_N retval) (e + 1) args1) = Ok (m', Z.of_N (len (d ++ out)), Some 0) /\
          (text_inv m' (d ++ out) /\ (Directive mid c :: items <> [] -> forall x, app_byte x -> m' x = put m0 str size (map fst (d ++ out)) x)) /\
          (len (d ++ out) < size -> labels_inv m d -> labels_inv m' (d ++ out))).
        { rewrite Ww, E. cbn [bind]. replace (cur + 1 + len mid + 1) with (cur + len (37 :: mid ++ [c])) by (rewrite len_cons, len_app; change (len [c]) with 1; lia).
          apply (Next po out' items args' m1 (37 :: mid ++ [c]) tt eq_refl Eo); auto. discriminate. }
        unfold conv_kind in Ck. rewrite Cc in Ck. set (z := last (37 :: mid) 0) in *. clearbody z. unfold int_kind, float_kind. rewrite Last.
        destruct cv; try (now contradiction Nn); try (now contradiction Np); injection Ck as Ck;
          cbn [va_arg]; rewrite Ev.
        -- rewrite Ck. replace (kind_eqb k k) with true by (destruct k; reflexivity). cbn [bind].
           assert (N115 : c <> 115) by (intros Q; apply Cs in Q; discriminate).
           rewrite El in Fin. replace (c =? 115) with false in Fin by (symmetry; now apply N.eqb_neq). exact Fin.
        -- rewrite Ck. replace (kind_eqb k k) with true by (destruct k; reflexivity). cbn [bind].
           assert (N115 : c <> 115) by (intros Q; apply Cs in Q; discriminate).
           rewrite El in Fin. replace (c =? 115) with false in Fin by (symmetry; now apply N.eqb_neq). exact Fin.
        -- rewrite <- Ck. cbn [kind_eqb bind].
           assert (N115 : c <> 115) by (intros Q; apply Cs in Q; discriminate).
           rewrite El in Fin. replace (c =? 115) with false in Fin by (symmetry; now apply N.eqb_neq). exact Fin.
        -- rewrite <- Ck. cbn [kind_eqb bind].
           assert (N115 : c = 115) by now apply Cs.
           rewrite El in Fin. replace (c =? 115) with true in Fin by (symmetry; now apply N.eqb_eq). exact Fin.
        -- rewrite <- Ck. cbn [kind_eqb bind].
           assert (N115 : c <> 115) by (intros Q; apply Cs in Q; discriminate).
           rewrite El in Fin. replace (c =? 115) with false in Fin by (symmetry; now apply N.eqb_neq). exact Fin.
Qed.
End Loop.
