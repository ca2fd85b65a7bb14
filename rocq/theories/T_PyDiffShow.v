(** C102, C103: how differences of traces are shown. *)
From Coq Require Import NArith ZArith List Bool Lia.
From Verif Require Import M_Base M_PyAnalysis M_PyTaints M_PyTree M_PyDiff M_PyDiffShow S_PyTaints S_Diff S_DiffShow P_Base P_PyDiff.
Import ListNotations.
Open Scope N_scope.

(** ** The text of a byte *)
Lemma hex_digit_inj a b : a < 16 -> b < 16 -> hex_digit a = hex_digit b -> a = b.
Proof. unfold hex_digit. intros A B. destruct (N.ltb_spec a 10), (N.ltb_spec b 10); lia. Qed.
Lemma render_pos b : 0 < len (render b).
Proof. unfold render. destruct (b =? 10), (b =? 13), (b =? 92), (b =? 9), ((32 <=? b) && (b <=? 126)); reflexivity. Qed.
Lemma render_prefix b c r s : b < 256 -> c < 256 -> render b ++ r = render c ++ s -> b = c /\ r = s.
Proof.
  intros B C. unfold render.
  assert (H : forall x y, hex_digit (x / 16) = hex_digit (y / 16) -> hex_digit (x mod 16) = hex_digit (y mod 16) -> x < 256 -> y < 256 -> x = y).
  { intros x y E1 E2 X Y. apply hex_digit_inj in E1; [|apply N.div_lt_upper_bound; lia|apply N.div_lt_upper_bound; lia]. apply hex_digit_inj in E2; [|apply N.mod_lt; lia|apply N.mod_lt; lia].
    rewrite (N.div_mod' x 16), (N.div_mod' y 16). congruence. }
  destruct (N.eqb_spec b 10), (N.eqb_spec c 10), (N.eqb_spec b 13), (N.eqb_spec c 13), (N.eqb_spec b 92), (N.eqb_spec c 92), (N.eqb_spec b 9), (N.eqb_spec c 9),
    (N.leb_spec 32 b), (N.leb_spec b 126), (N.leb_spec 32 c), (N.leb_spec c 126); cbn [andb app]; intros E; inversion E; subst; try (split; congruence); try lia;
    try (split; [apply H; assumption|reflexivity]).
Qed.

(** ** print_file_context *)
Lemma text_app a b : text_of (a ++ b) = text_of a ++ text_of b. Proof. unfold text_of. now rewrite flat_map_app. Qed.
Lemma len_app' {A} (a b : list A) : len (a ++ b) = len a + len b. Proof. unfold len. rewrite app_length. lia. Qed.
Lemma text_pos l : l <> [] -> 0 < len (text_of l).
Proof. destruct l as [|b l]; [congruence|]. intros _. unfold text_of. cbn [flat_map]. rewrite len_app'. assert (H := render_pos b). lia. Qed.
Lemma text_inj l : forall m, Forall (fun b => b < 256) l -> Forall (fun b => b < 256) m -> text_of l = text_of m -> l = m.
Proof.
  induction l as [|b l IH]; intros [|c m] L M E; [reflexivity| | |].
  - assert (H := text_pos (c :: m) ltac:(discriminate)). rewrite <- E in H. cbn in H. lia.
  - assert (H := text_pos (b :: l) ltac:(discriminate)). rewrite E in H. cbn in H. lia.
  - inversion L; inversion M; subst. unfold text_of in E. cbn [flat_map] in E. destruct (render_prefix b c _ _ ltac:(assumption) ltac:(assumption) E) as [-> E']. f_equal. now apply IH.
Qed.
Definition T (l : list N) (k : N) : Z := Z.of_N (len (text_of (firstn (N.to_nat k) l))).
Definition state_of (before length : N) (p : list N) : Z * Z * Z * list N :=
  (if before <? len p then T p before else (-1)%Z, if before + length <? len p then (T p (before + length) - T p before)%Z else (-1)%Z, Z.of_N (len (text_of p)), text_of p).
Lemma T_app p q k : k <= len p -> T (p ++ q) k = T p k.
Proof. intros L. unfold T. rewrite firstn_app. unfold len in L. replace (N.to_nat k - Datatypes.length p)%nat with O by lia. cbn [firstn]. now rewrite app_nil_r. Qed.
Lemma T_all p : T p (len p) = Z.of_N (len (text_of p)).
Proof. unfold T, len. rewrite Nnat.Nat2N.id, firstn_all. reflexivity. Qed.
Lemma show_loop_ok before length data : forall p, show_loop before length (len p) data (state_of before length p) = state_of before length (p ++ data).
Proof.
  induction data as [|b data IH]; intros p; [now rewrite app_nil_r|]. cbn [show_loop]. unfold state_of at 1. cbv zeta.
  replace (len p + 1) with (len (p ++ [b])) by (rewrite len_app'; reflexivity). replace (p ++ b :: data) with ((p ++ [b]) ++ data) by (rewrite <- app_assoc; reflexivity). rewrite <- IH. f_equal.
  unfold state_of. assert (L : len (p ++ [b]) = len p + 1) by (rewrite len_app'; reflexivity). rewrite L.
  assert (A1 : (if len p =? before then Z.of_N (len (text_of p)) else if before <? len p then T p before else (-1)%Z) = (if before <? len p + 1 then T (p ++ [b]) before else (-1)%Z)).
  { destruct (N.eqb_spec (len p) before) as [E|E].
    - destruct (N.ltb_spec before (len p + 1)); [|lia]. rewrite T_app by lia. rewrite <- E, T_all. reflexivity.
    - destruct (N.ltb_spec before (len p)), (N.ltb_spec before (len p + 1)); try lia. now rewrite T_app by lia. }
  rewrite A1. f_equal; [f_equal; [f_equal|]|].
  - destruct (N.eqb_spec (len p) (before + length)) as [E|E].
    + destruct (N.ltb_spec (before + length) (len p + 1)); [|lia]. destruct (N.ltb_spec before (len p + 1)); [|lia]. rewrite (T_app p [b] (before + length)) by lia. rewrite <- E, T_all. reflexivity.
    + destruct (N.ltb_spec (before + length) (len p)), (N.ltb_spec (before + length) (len p + 1)); try lia. now rewrite !T_app by lia.
  - rewrite text_app, len_app'. unfold text_of at 3. cbn [flat_map]. rewrite app_nil_r. lia.
  - rewrite text_app. unfold text_of at 3. cbn [flat_map]. now rewrite app_nil_r.
Qed.
Lemma show_loop_all before length data : show_loop before length 0 data ((-1)%Z, (-1)%Z, 0%Z, []) = state_of before length data.
Proof. assert (H := show_loop_ok before length data []). cbn [app] in H. rewrite <- H. f_equal. unfold state_of. cbn [len Datatypes.length]. destruct (N.ltb_spec before (len (@nil N))), (N.ltb_spec (before + length) (len (@nil N))); cbn in *; try lia. reflexivity. Qed.
Lemma text_split data k n : part (text_of data) (len (text_of (firstn (N.to_nat k) data))) (len (text_of (slice data k (k + n)))) = text_of (slice data k (k + n)).
Proof.
  unfold part, slice. replace (k + n - k) with n by lia. unfold len at 2. rewrite Nnat.Nat2N.id. set (u := firstn (N.to_nat k) data). set (v := skipn (N.to_nat k) data).
  assert (E : text_of data = text_of u ++ text_of v) by (rewrite <- text_app; unfold u, v; now rewrite firstn_skipn). rewrite E, skipn_app, skipn_all, Nat.sub_diag. cbn [skipn app].
  set (w := firstn (N.to_nat n) v). assert (F : text_of v = text_of w ++ text_of (skipn (N.to_nat n) v)) by (rewrite <- text_app; unfold w; now rewrite firstn_skipn).
  rewrite F, firstn_app. unfold len. rewrite Nnat.Nat2N.id, firstn_all, Nat.sub_diag. cbn [firstn]. now rewrite app_nil_r.
Qed.
Lemma firstn_slice data k n : Z.of_N (len (text_of (slice data k (k + n)))) = (T data (k + n) - T data k)%Z.
Proof.
  unfold T, slice. replace (k + n - k) with n by lia. replace (N.to_nat (k + n)) with (N.to_nat k + N.to_nat n)%nat by lia.
  assert (E : firstn (N.to_nat k + N.to_nat n) data = firstn (N.to_nat k) data ++ firstn (N.to_nat n) (skipn (N.to_nat k) data)).
  { generalize (N.to_nat k) as i, (N.to_nat n) as j. clear. induction data as [|b data IH]; intros i j; [now rewrite skipn_nil, !firstn_nil|]. destruct i; [reflexivity|]. cbn [Nat.add firstn skipn app]. now rewrite IH. }
  rewrite E, text_app, len_app'. lia.
Qed.
Lemma slice_slice content s c k n : k + n <= c -> slice (firstn (N.to_nat c) (skipn (N.to_nat s) content)) k (k + n) = slice content (s + k) (s + k + n).
Proof.
  intros L. unfold slice. replace (k + n - k) with n by lia. replace (s + k + n - (s + k)) with n by lia. rewrite skipn_firstn_comm, firstn_firstn.
  replace (Nat.min (N.to_nat n) (N.to_nat c - N.to_nat k)) with (N.to_nat n) by lia. f_equal. replace (N.to_nat (s + k)) with (N.to_nat k + N.to_nat s)%nat by lia.
  generalize (N.to_nat k) as i, (N.to_nat s) as j. clear. intros i j. revert content. induction j as [|j IH]; intros content; [now rewrite Nat.add_0_r|]. rewrite Nat.add_succ_r. destruct content as [|b content]; [now rewrite !skipn_nil|]. cbn [skipn]. apply IH.
Qed.

(** The line of bytes shows the file from some bytes before the offset on, and the marks are
    under exactly the first bytes of the region that are in the file (at most [most]). *)
Theorem C102_marks : forall content offset length context most,
  let s := print_file_context content offset length context most in
  let a := offset - N.min offset (context / 2) in
  let region := slice content offset (offset + N.min length most) in
  (exists b, offset + N.min length most <= b /\ sh_text s = text_of (slice content a b)) /\
  match sh_marks s with
  | Some (k, n) => region <> [] /\ part (sh_text s) k n = text_of region /\ k = len (text_of (slice content a offset))
  | None => region = []
  end.
Proof.
  intros content offset length context most. cbv zeta. unfold print_file_context. cbv zeta.
  replace (if most <? length then most else length) with (N.min length most) by (destruct (N.ltb_spec most length); lia). set (n := N.min length most).
  replace (if offset <? context / 2 then offset else context / 2) with (N.min offset (context / 2)) by (destruct (N.ltb_spec offset (context / 2)); lia). set (before := N.min offset (context / 2)).
  set (c := n + (if 0 <? (if most <? length then length - most else 0) then context / 2 else context)).
  assert (Lc : before + n <= c). { unfold c, before. assert (context / 2 <= context) by (apply N.div_le_upper_bound; lia). destruct (0 <? (if most <? length then length - most else 0)); lia. }
  assert (La : offset - before + before = offset) by (unfold before; lia).
  rewrite show_loop_all. set (data := firstn (N.to_nat c) (skipn (N.to_nat (offset - before)) content)). unfold state_of. cbv iota. cbn [sh_text sh_marks].
  assert (R : slice content offset (offset + n) = slice data before (before + n)). { unfold data. rewrite slice_slice by exact Lc. now rewrite La. }
  split.
  - exists (offset - before + c). split; [lia|]. unfold slice. replace (offset - before + c - (offset - before)) with c by lia. reflexivity.
  - rewrite R. assert (H : Z.of_N (len (text_of (slice data before (before + n)))) = (T data (before + n) - T data before)%Z) by apply firstn_slice.
    assert (Full : len data <= before + n -> T data (before + n) = Z.of_N (len (text_of data))). { intros G. unfold T, len in *. rewrite firstn_all2 by lia. reflexivity. }
    assert (K : T data before = Z.of_N (len (text_of (slice content (offset - before) offset)))).
    { unfold T. do 3 f_equal. unfold data. rewrite firstn_firstn. replace (Nat.min (N.to_nat before) (N.to_nat c)) with (N.to_nat before) by lia. unfold slice. now replace (offset - (offset - before)) with before by lia. }
    assert (Some_case : forall k m, (0 < m)%Z -> k = T data before -> m = (T data (before + n) - T data before)%Z ->
      slice data before (before + n) <> [] /\ part (text_of data) (Z.to_N k) (Z.to_N m) = text_of (slice data before (before + n)) /\ Z.to_N k = len (text_of (slice content (offset - before) offset))).
    { intros k m P -> Em. rewrite <- H in Em. split; [|split].
      - intros E. rewrite E in Em. cbn in Em. lia.
      - rewrite Em, N2Z.id. unfold T. rewrite N2Z.id. apply text_split.
      - rewrite K. apply N2Z.id. }
    assert (None_case : (T data (before + n) - T data before <= 0)%Z -> slice data before (before + n) = []).
    { intros P. destruct (slice data before (before + n)) as [|b l] eqn:E; [reflexivity|]. assert (Q := text_pos (b :: l) ltac:(discriminate)). lia. }
    destruct (N.ltb_spec (before + n) (len data)) as [A|A].
    + destruct (N.ltb_spec before (len data)); [|lia].
      destruct (Z.ltb_spec (T data (before + n) - T data before) 0); [lia|]. cbn [andb]. destruct (Z.ltb_spec 0 (T data (before + n) - T data before)); [now apply Some_case|now apply None_case].
    + destruct (N.ltb_spec before (len data)) as [B|B].
      * replace ((-1 <? 0)%Z && (0 <=? T data before)%Z) with true by (unfold T; symmetry; apply andb_true_iff; split; [reflexivity|apply Z.leb_le; lia]). rewrite <- (Full A).
        destruct (Z.ltb_spec 0 (T data (before + n) - T data before)); [now apply Some_case|now apply None_case].
      * cbn. apply None_case. rewrite (Full A). unfold T, len in *. rewrite (firstn_all2 (n := N.to_nat before)) by lia. lia.
Qed.
(** The text of bytes says which they are. *)
Theorem C102_unambiguous : forall l m, Forall (fun b => b < 256) l -> Forall (fun b => b < 256) m -> text_of l = text_of m -> l = m.
Proof. intros l m. apply text_inj. Qed.
(** The bytes of the region that are not shown are counted, if there are enough bytes before the
    offset. *)
Theorem C102_rest_partial : forall content offset length context most,
  let s := print_file_context content offset length context most in
  sh_extra s = length - most /\
  (most < length -> context / 2 <= offset -> sh_text s = text_of (slice content (offset - context / 2) (offset + most))).
Proof.
  intros content offset length context most. unfold print_file_context. cbv zeta. rewrite show_loop_all. unfold state_of. cbn [sh_extra sh_text]. split; [destruct (N.ltb_spec most length); lia|].
  intros L M. destruct (N.ltb_spec most length); [|lia]. destruct (N.ltb_spec 0 (length - most)); [|lia]. destruct (N.ltb_spec offset (context / 2)); [lia|].
  unfold slice. now replace (offset + most - (offset - context / 2)) with (most + context / 2) by lia.
Qed.
(** Otherwise bytes that are shown are counted again: all bytes of the region are shown, and
    still there are said to be more. *)
Theorem C102_rest_refuted : forall content offset length, offset < 16 -> 32 < length -> offset + length <= 48 ->
  let s := print_file_context content offset length 32 32 in
  sh_text s = text_of (slice content 0 48) /\ 0 < sh_extra s.
Proof.
  intros content offset length A B C. unfold print_file_context. cbv zeta. rewrite show_loop_all. unfold state_of. cbn [sh_extra sh_text]. destruct (N.ltb_spec 32 length); [|lia]. split; [|lia].
  destruct (N.ltb_spec 0 (length - 32)); [|lia]. change (32 / 2) with 16. destruct (N.ltb_spec offset 16); [|lia]. rewrite N.sub_diag. unfold slice. reflexivity.
Qed.
Example C102_case : let content := [65; 10; 0; 92; 66; 67; 200; 9; 68] in
  let s := print_file_context content 2 3 2 32 in
  sh_text s = [92; 110; 92; 120; 48; 48; 92; 92; 66; 67] /\ sh_marks s = Some (2, 7) /\ sh_extra s = 0 /\
  sh_extra (print_file_context content 1 8 2 5) = 3.
Proof. vm_compute. repeat split; reflexivity. Qed.

(** ** Images *)
Lemma grow_ok fuel : forall w h n, 0 < w -> n <= w * h + N.of_nat fuel -> exists h', grow fuel w h n = Ok h' /\ h <= h' /\ n <= w * h'.
Proof.
  induction fuel as [|f IH]; intros w h n W L; cbn [grow]; destruct (N.ltb_spec (w * h) n).
  - lia.
  - exists h. split; [reflexivity|]. lia.
  - destruct (IH w (h + 1) n W) as (h' & E & A & B); [nia|]. exists h'. split; [exact E|]. lia.
  - exists h. split; [reflexivity|]. lia.
Qed.
Definition byte_color (a b : bool) : color := if a then if b then White else Blue else if b then Red else Black.
Lemma paint_ok f g im i : i < im_width im * im_height im -> 0 < im_width im -> exists im', paint f g im i = Ok im' /\ im_width im' = im_width im /\ im_height im' = im_height im /\
  (forall x y, x < im_width im -> im_pixel im' x y = if y * im_width im + x =? i then (if f i && g i then im_pixel im x y else byte_color (f i) (g i)) else im_pixel im x y).
Proof.
  intros L W. unfold paint. assert (M : i mod im_width im < im_width im) by (apply N.mod_lt; lia). assert (D : i / im_width im < im_height im) by (apply N.div_lt_upper_bound; lia).
  assert (P : forall c, exists im', putpixel im (i mod im_width im) (i / im_width im) c = Ok im' /\ im_width im' = im_width im /\ im_height im' = im_height im /\
    (forall x y, x < im_width im -> im_pixel im' x y = if y * im_width im + x =? i then c else im_pixel im x y)).
  { intros c. unfold putpixel. destruct (N.ltb_spec (i mod im_width im) (im_width im)); [|lia]. destruct (N.ltb_spec (i / im_width im) (im_height im)); [|lia]. cbn [andb]. eexists. split; [reflexivity|]. split; [reflexivity|]. split; [reflexivity|].
    intros x y X. cbn [im_pixel]. assert (Q := N.div_mod' i (im_width im)). destruct (N.eqb_spec x (i mod im_width im)), (N.eqb_spec y (i / im_width im)), (N.eqb_spec (y * im_width im + x) i); cbn [andb]; try reflexivity; exfalso.
    - subst. lia.
    - subst x. apply n. apply (N.mul_cancel_r _ _ (im_width im)); [lia|]. lia.
    - subst y. lia.
    - apply n. apply (N.mod_unique i (im_width im) y x X). lia. }
  destruct (f i), (g i); cbn [andb negb]; [|apply P|apply P|apply P]. exists im. split; [reflexivity|]. split; [reflexivity|]. split; [reflexivity|]. intros x y X. now destruct (y * im_width im + x =? i).
Qed.
Lemma paint_all_ok f g n : forall k im, k + N.of_nat n <= im_width im * im_height im -> 0 < im_width im ->
  exists im', paint_all f g im (nseq k n) = Ok im' /\ im_width im' = im_width im /\ im_height im' = im_height im /\
  (forall x y, x < im_width im -> im_pixel im' x y = let i := y * im_width im + x in if (k <=? i) && (i <? k + N.of_nat n) then (if f i && g i then im_pixel im x y else byte_color (f i) (g i)) else im_pixel im x y).
Proof.
  induction n as [|n IH]; intros k im L W; cbn [nseq paint_all].
  - exists im. split; [reflexivity|]. split; [reflexivity|]. split; [reflexivity|]. intros x y X. cbv zeta. destruct (N.leb_spec k (y * im_width im + x)), (N.ltb_spec (y * im_width im + x) (k + N.of_nat 0)); cbn [andb]; try reflexivity. lia.
  - destruct (paint_ok f g im k) as (im1 & E1 & W1 & H1 & P1); [lia|exact W|]. rewrite E1. cbn [bind]. destruct (IH (k + 1) im1) as (im2 & E2 & W2 & H2 & P2); [rewrite W1, H1; lia|now rewrite W1|].
    exists im2. split; [exact E2|]. split; [congruence|]. split; [congruence|]. intros x y X. rewrite P2 by (rewrite W1; exact X). cbv zeta. rewrite W1, P1 by exact X. set (i := y * im_width im + x).
    destruct (N.leb_spec (k + 1) i), (N.ltb_spec i (k + 1 + N.of_nat n)), (N.leb_spec k i), (N.ltb_spec i (k + N.of_nat (S n))), (N.eqb_spec i k) as [E|E]; cbn [andb]; try reflexivity; try lia. now rewrite E.
Qed.

(** Every byte of the input that is shown has a pixel, its colour says which of the traces
    touched it (white if both did), and there are at least as many pixels as bytes, whatever
    size the image starts from.  Missing: see below. *)
Theorem C103_image_partial : forall w h t1 t2 x n rest fuel, 0 < w -> n <= N.of_nat fuel -> exists im,
  to_image fuel true w h t1 t2 ((x, n) :: rest) = Ok (Some im) /\ im_width im = w /\ n <= w * im_height im /\
  forall o, o < n -> let c := im_pixel im (o mod w) (o / w) in
    (c = White <-> touched t1 x o /\ touched t2 x o) /\ (c = Blue <-> touched t1 x o /\ ~ touched t2 x o) /\
    (c = Red <-> ~ touched t1 x o /\ touched t2 x o) /\ (c = Black <-> ~ touched t1 x o /\ ~ touched t2 x o).
Proof.
  intros w h t1 t2 x n rest fuel W Lf. destruct (touched_intervals t1) as (a & Ea & Fa & _ & Ha). destruct (touched_intervals t2) as (b & Eb & Fb & _ & Hb).
  assert (Hold : forall t d, fine (merged d) -> (forall x p, held (merged d) x p <-> exists o, p = Z.of_N o /\ touched t x o) -> forall o, holds_byte (merged d) x o = true <-> touched t x o).
  { intros t d Fd Hd o. unfold holds_byte. split.
    - intros H. destruct (dict_get input_eqb (merged d) x) as [s|] eqn:E; [|discriminate]. destruct (get_some _ _ _ E) as (k & I & X). apply existsb_exists in H. destruct H as (i & Ii & C). apply andb_true_iff in C. destruct C as [C1 C2]. apply Z.leb_le in C1. apply Z.ltb_lt in C2.
      destruct (proj1 (Hd x (Z.of_N o))) as (q & Q & T0); [exists k, s; split; [exact I|]; split; [exact X|]; exists i; split; [exact Ii|split; assumption]|]. assert (o = q) by lia. now subst q.
    - intros T0. destruct (proj2 (Hd x (Z.of_N o))) as (k & s & I & X & i & Ii & C); [now exists o|]. rewrite (get_in _ x k s (proj1 Fd) I X). apply existsb_exists. exists i. split; [exact Ii|]. destruct C as [C1 C2]. apply andb_true_iff. split; [now apply Z.leb_le|now apply Z.ltb_lt]. }
  unfold to_image. rewrite Ea, Eb. cbn [bind]. cbv zeta. rewrite (assertion_ok _ _ Fa Fb). unfold file_diff.
  destruct (grow_ok fuel w h n W) as (h' & Eg & _ & G); [lia|]. rewrite Eg. cbn [bind]. unfold py_range. rewrite N.sub_0_r.
  destruct (paint_all_ok (holds_byte (merged a) x) (holds_byte (merged b) x) (N.to_nat n) 0 (mkImage w h' (fun _ _ => White))) as (im & E & Wi & Hi & P); [cbn [im_width im_height]; lia|exact W|].
  rewrite E. cbn [bind]. exists im. split; [reflexivity|]. cbn [im_width im_height] in *. split; [exact Wi|]. split; [now rewrite Hi|]. intros o Lo. cbv zeta.
  rewrite P by (apply N.mod_lt; lia). cbv zeta. replace (o / w * w + o mod w) with o by (assert (Q := N.div_mod' o w); lia). destruct (N.leb_spec 0 o); [|lia]. destruct (N.ltb_spec o (0 + N.of_nat (N.to_nat n))); [|lia]. cbn [andb im_pixel].
  assert (A := Hold t1 a Fa Ha o). assert (B := Hold t2 b Fb Hb o). clear P E.
  assert (A' : if holds_byte (merged a) x o then touched t1 x o else ~ touched t1 x o) by (destruct (holds_byte (merged a) x o); [now apply A|intros K; apply A in K; discriminate]).
  assert (B' : if holds_byte (merged b) x o then touched t2 x o else ~ touched t2 x o) by (destruct (holds_byte (merged b) x o); [now apply B|intros K; apply B in K; discriminate]).
  clear A B. destruct (holds_byte (merged a) x o), (holds_byte (merged b) x o); cbn [andb byte_color]; (split; [|split; [|split]]); (split; [intros K; first [discriminate K|tauto]|intros K; first [reflexivity|exfalso; tauto]]).
Qed.
(** Only one of several inputs is shown: traces that differ in the bytes of another give the
    same image. *)
Theorem C103_inputs_refuted : forall fuel w h x n rest t1 t2 t2', (forall o, touched t2 x o <-> touched t2' x o) -> 0 < w -> n <= N.of_nat fuel ->
  exists im im', to_image fuel true w h t1 t2 ((x, n) :: rest) = Ok (Some im) /\ to_image fuel true w h t1 t2' ((x, n) :: rest) = Ok (Some im') /\
  forall o, o < n -> im_pixel im (o mod w) (o / w) = im_pixel im' (o mod w) (o / w).
Proof.
  intros fuel w h x n rest t1 t2 t2' S W L. destruct (C103_image_partial w h t1 t2 x n rest fuel W L) as (im & E & _ & _ & P). destruct (C103_image_partial w h t1 t2' x n rest fuel W L) as (im' & E' & _ & _ & P').
  exists im, im'. split; [exact E|]. split; [exact E'|]. intros o Lo. specialize (P o Lo). specialize (P' o Lo). cbv zeta in P, P'. specialize (S o).
  destruct P as (A1 & A2 & A3 & A4), P' as (B1 & B2 & B3 & B4). destruct (im_pixel im (o mod w) (o / w)).
  - symmetry. apply B1. rewrite <- S. now apply A1.
  - symmetry. apply B2. rewrite <- S. now apply A2.
  - symmetry. apply B3. rewrite <- S. now apply A3.
  - symmetry. apply B4. rewrite <- S. now apply A4.
Qed.
(** Functions without the method get_taints (see C101). *)
Theorem C103_method_refuted : forall fuel w h t1 t2 sources, t1 ++ t2 <> [] -> to_image fuel false w h t1 t2 sources = Exit.
Proof. intros fuel w h t1 t2 sources N0. destruct t1 as [|f t1]; [|reflexivity]. destruct t2 as [|g t2]; [now destruct N0|reflexivity]. Qed.
Example C103_case : let x := mkInput 1 ([], [[120]]) 9 in
  match to_image 9 true 3 1 [mkFunc 0 7 [(x, 0); (x, 1)]] [mkFunc 0 7 [(x, 1); (x, 2); (x, 6)]] [(x, 8)] with
  | Ok (Some im) => im_height im = 3 /\ map (fun p => im_pixel im (fst p) (snd p)) [(0, 0); (1, 0); (2, 0); (0, 1); (0, 2); (2, 2)] = [Blue; White; Red; Black; Red; White]
  | _ => False
  end.
Proof. vm_compute. split; reflexivity. Qed.

Print Assumptions C102_marks.
Print Assumptions C102_unambiguous.
Print Assumptions C102_rest_partial.
Print Assumptions C102_rest_refuted.
Print Assumptions C103_image_partial.
Print Assumptions C103_inputs_refuted.
Print Assumptions C103_method_refuted.
