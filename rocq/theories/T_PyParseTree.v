(** C116: terminals and excerpts as text.  C117: trees. *)
From Coq Require Import NArith Arith List Bool Lia.
From Verif Require Import M_Base M_PyParseTree S_ParseTree P_Base P_PyParseTree.
Import ListNotations.
Open Scope N_scope.

(** ** C116 *)
(** The text of a terminal can be printed, and where it starts in a longer text is enough to know
    the bytes and where it ends: no two terminals are shown alike. *)
Theorem C116_terminal : forall a b x y, Forall (fun c => c < 256) a -> Forall (fun c => c < 256) b ->
  Forall printable (terminal_str a) /\
  (terminal_str a ++ x = terminal_str b ++ y -> a = b /\ x = y).
Proof.
  intros a b x y Ha Hb. split.
  - unfold terminal_str. cbn [app]. constructor; [unfold printable; lia|]. apply Forall_app. split; [|repeat constructor; unfold printable; lia].
    clear Hb. induction Ha as [|c a Hc _ IH]; [constructor|]. cbn [flat_map]. apply Forall_app. split; [now apply escape_printable|exact IH].
  - unfold terminal_str. cbn [app]. rewrite <- !app_assoc. cbn [app]. intros E. injection E as E.
    assert (X := unescape_all a x Ha). rewrite E, (unescape_all b y Hb) in X. injection X. auto.
Qed.
Print Assumptions C116_terminal.
Example C116_terminal_case : terminal_str [104; 10; 34; 92; 0; 255] = [34; 104; 92; 110; 92; 34; 92; 92; 92; 120; 48; 48; 92; 120; 102; 102; 34].
Proof. reflexivity. Qed.

(** The excerpt for an offset within the text: the bytes up to half the length before and after
    it, and marks exactly below the characters that stand for the byte at the offset. *)
Theorem C116_excerpt_partial : forall text offset n, offset < len text -> 2 <= n ->
  exists skipped before b after rest first second,
    text = skipped ++ before ++ [b] ++ after ++ rest /\
    len skipped + len before = offset /\
    len before = N.min offset (n / 2) /\ 1 + len after = N.min (n / 2) (len text - offset) /\
    highlight_offset text offset n = (first, second) /\
    first = [34] ++ flat_map escape_byte before ++ escape_byte b ++ flat_map escape_byte after ++ [34] /\
    marks (1 + len (flat_map escape_byte before)) (1 + len (flat_map escape_byte before) + len (escape_byte b)) second.
Proof.
  intros text offset n Ho Hn. set (h := n / 2).
  assert (Hh : 1 <= h) by (apply N.div_le_lower_bound; lia).
  set (start := offset - h). set (stop := N.min (offset + h) (len text)).
  set (skipped := firstn (N.to_nat start) text). set (before := firstn (N.to_nat (offset - start)) (skipn (N.to_nat start) text)).
  assert (E : exists b, skipn (N.to_nat offset) text = b :: skipn (S (N.to_nat offset)) text).
  { assert (L : (N.to_nat offset < length text)%nat) by (unfold len in Ho; lia).
    revert L. generalize (N.to_nat offset). clear. intros k. revert k. induction text as [|x text IH]; intros [|k] L; cbn in L; try lia.
    - exists x. reflexivity.
    - apply (IH k). lia. }
  destruct E as (b & Eb). set (after := firstn (N.to_nat (stop - offset - 1)) (skipn (S (N.to_nat offset)) text)).
  set (rest := skipn (N.to_nat (stop - offset - 1)) (skipn (S (N.to_nat offset)) text)).
  assert (Sp : skipn (N.to_nat start) text = before ++ b :: after ++ rest).
  { unfold before, after, rest. rewrite (firstn_skipn (N.to_nat (stop - offset - 1))), <- Eb.
    rewrite <- (firstn_skipn (N.to_nat (offset - start)) (skipn (N.to_nat start) text)) at 1. f_equal.
    replace (N.to_nat offset) with (N.to_nat (offset - start) + N.to_nat start)%nat by (unfold start; lia). apply skipn_twice. }
  assert (Lb : len before = offset - start).
  { unfold before, len. rewrite firstn_length, skipn_length. unfold len in Ho. unfold start. lia. }
  assert (La : len after = stop - offset - 1).
  { unfold after, len. rewrite firstn_length, skipn_length. unfold stop. unfold len in *. lia. }
  exists skipped, before, b, after, rest.
  assert (Es : slice text start stop = before ++ b :: after).
  { unfold slice. rewrite Sp. replace (N.to_nat (stop - start)) with (length (before ++ b :: after)).
    - change (before ++ b :: after ++ rest) with (before ++ (b :: after) ++ rest). rewrite app_assoc, firstn_app, Nat.sub_diag, firstn_O, app_nil_r.
      apply firstn_all.
    - rewrite app_length. cbn [length]. unfold len in *. unfold stop, start in *. lia. }
  do 2 eexists. split; [|split; [|split; [|split; [|split]]]].
  - unfold skipped. cbn [app]. rewrite <- Sp. symmetry. apply firstn_skipn.
  - rewrite Lb. unfold skipped, len. rewrite firstn_length. unfold len in Ho. unfold start. lia.
  - rewrite Lb. unfold start. lia.
  - rewrite La. unfold stop. lia.
  - unfold highlight_offset. fold h. cbv zeta. fold start stop. rewrite Es. rewrite highlight_before by lia.
    rewrite Lb. rewrite N.add_0_l. cbn [highlight_loop]. rewrite N.ltb_irrefl, N.eqb_refl. rewrite highlight_after by lia. rewrite N.add_0_l, app_nil_l. reflexivity.
  - split; [unfold esc; cbn [app]; rewrite <- !app_assoc; reflexivity|]. apply marks_repeat.
Qed.
Print Assumptions C116_excerpt_partial.
(** For the offset just behind the text, the mark stands below the closing quote. *)
Theorem C116_end : forall text n, exists before skipped first second,
  text = skipped ++ before /\ len before = N.min (len text) (n / 2) /\
  highlight_offset text (len text) n = (first, second) /\
  first = [34] ++ flat_map escape_byte before ++ [34] /\
  marks (1 + len (flat_map escape_byte before)) (1 + len (flat_map escape_byte before) + 1) second.
Proof.
  intros text n. set (h := n / 2). set (start := len text - h).
  exists (skipn (N.to_nat start) text), (firstn (N.to_nat start) text).
  assert (Lb : len (skipn (N.to_nat start) text) = len text - start).
  { unfold len. rewrite skipn_length. unfold start, len. lia. }
  do 2 eexists. split; [symmetry; apply firstn_skipn|]. split; [rewrite Lb; unfold start; lia|]. split.
  - unfold highlight_offset. fold h. cbv zeta. fold start. replace (N.min (len text + h) (len text)) with (len text) by lia.
    assert (Es : slice text start (len text) = skipn (N.to_nat start) text).
    { unfold slice. apply firstn_all2. rewrite skipn_length. unfold len. lia. }
    rewrite Es. assert (X := highlight_before (skipn (N.to_nat start) text) [] 0 (len text - start) 0 1 []). rewrite app_nil_r in X.
    rewrite X by lia. cbn [highlight_loop]. rewrite N.add_0_l, app_nil_l. reflexivity.
  - split; [reflexivity|]. apply marks_repeat.
Qed.
Print Assumptions C116_end.
(** With a length of one, the byte at the offset is neither shown nor marked. *)
Theorem C116_length_refuted : forall text offset, highlight_offset text offset 1 = ([34; 34], [32; 94]).
Proof.
  intros text offset. unfold highlight_offset, slice. change (1 / 2) with 0. rewrite N.sub_0_r, N.add_0_r, N.sub_diag.
  replace (N.min offset (len text) - offset) with 0 by lia. reflexivity.
Qed.
Print Assumptions C116_length_refuted.
Example C116_excerpt_case : highlight_offset [1; 2; 97; 98; 0; 99; 100; 101] 4 4 =
  ([34; 97; 98; 92; 120; 48; 48; 99; 34], [32; 32; 32; 94; 94; 94; 94]).
Proof. reflexivity. Qed.

(** ** C117 *)
(** Both traversals end and visit every node of the tree, children from left to right: one visits
    a node before, the other after everything below it. *)
Theorem C117_traversals : forall V (t : ptree V), exists fuel0, forall fuel, (fuel0 <= fuel)%nat ->
  preorder fuel t = Ok (nodes_first t) /\ postorder fuel t = Ok (nodes_last t) /\
  leaves fuel t = Ok (filter is_leaf (nodes_first t)) /\
  (forall n, In n (nodes_first t) <-> occurs t n) /\ (forall n, In n (nodes_last t) <-> occurs t n).
Proof.
  intros V t. exists (S (2 * tsize t)). intros fuel L.
  assert (P : preorder fuel t = Ok (nodes_first t)).
  { unfold preorder. rewrite preorder_loop_spec; [cbn [flat_map]; now rewrite app_nil_r|]. cbn [map list_sum fold_right]. lia. }
  split; [exact P|]. split; [|split; [|split]].
  - unfold postorder. rewrite postorder_loop_spec; [cbn [flat_map visits fst snd]; now rewrite app_nil_r|]. cbn [map list_sum fold_right cost fst snd]. lia.
  - unfold leaves. rewrite P. reflexivity.
  - apply nodes_first_occurs.
  - apply nodes_last_occurs.
Qed.
Print Assumptions C117_traversals.
(** The edges of the graph made from a tree are those between its nodes and their children. *)
Theorem C117_edges : forall V (t : ptree V), exists fuel0, forall fuel, (fuel0 <= fuel)%nat ->
  exists es, dag_edges fuel t = Ok es /\
    forall n c, In (n, c) es <-> occurs t n /\ exists v cs, n = PNode v cs /\ In c cs.
Proof.
  intros V t. destruct (C117_traversals V t) as (fuel0 & H). exists fuel0. intros fuel L. destruct (H fuel L) as (P & _ & _ & O & _).
  unfold dag_edges. rewrite P. cbn [bind]. eexists. split; [reflexivity|]. intros n c. rewrite in_flat_map. split.
  - intros (x & Hx & Hc). apply in_map_iff in Hc as (y & E & Hy). injection E as <- <-. split; [now apply O|].
    destruct x as [v cs]. exists v, cs. auto.
  - intros (Hn & v & cs & -> & Hc). exists (PNode v cs). split; [now apply O|]. apply in_map_iff. exists c. auto.
Qed.
Print Assumptions C117_edges.
(** Cloning ends, and the clone is equal to the tree. *)
Theorem C117_clone : forall V (t : ptree V), exists fuel0, forall fuel, (fuel0 <= fuel)%nat -> clone fuel t = Ok t.
Proof. intros V t. destruct (clone_spec t) as (f & H). exists f. exact H. Qed.
Print Assumptions C117_clone.
(** The number of descendants of a tree that was not asked for before. *)
Theorem C117_descendants_partial : forall t, d_kept t = None -> fst (descendants_of t) + 1 = d_size t /\
  fst (descendants_of (snd (descendants_of t))) = fst (descendants_of t) /\ d_size (snd (descendants_of t)) = d_size t.
Proof.
  intros t E. unfold descendants_of. rewrite E. cbn [fst snd]. split; [apply fill_kept|]. split; [|apply fill_size].
  destruct t as [k cs]. reflexivity.
Qed.
Print Assumptions C117_descendants_partial.
(** The number is not adapted when a child is added, at whatever place. *)
Theorem C117_descendants_refuted : forall t path c, d_kept t = None ->
  fst (descendants_of (add_child (snd (descendants_of t)) path c)) = fst (descendants_of t).
Proof.
  intros t path c E. unfold descendants_of at 2 3. rewrite E. cbn [fst snd]. destruct t as [k cs]. cbn [fill].
  destruct path as [|i p]; cbn [add_child]; [reflexivity|]. destruct (nth_error (map fill cs) i); reflexivity.
Qed.
Print Assumptions C117_descendants_refuted.
Example C117_descendants_case :
  let t := DNode None [DNode None [DNode None []]; DNode None []] in
  fst (descendants_of t) = 3 /\ d_size (add_child (snd (descendants_of t)) [0%nat; 0%nat] (DNode None [])) = 5 /\
  fst (descendants_of (add_child (snd (descendants_of t)) [0%nat; 0%nat] (DNode None []))) = 3.
Proof. repeat split. Qed.
(** The text of a tree: the value, and in brackets the first child, the second right after it
    without a blank, and a blank after each child but the first. *)
Theorem C117_text_partial : forall V name (t : ptree V), exists fuel0, forall fuel, (fuel0 <= fuel)%nat -> p_str name fuel t = Ok (shown name t).
Proof.
  intros V name t. exists (S (weight t)). intros fuel L. unfold p_str. rewrite str_loop_spec.
  - cbn [flat_map item_text]. now rewrite app_nil_r.
  - cbn [map list_sum fold_right item_cost]. lia.
Qed.
Print Assumptions C117_text_partial.
(** Two different trees, with values that contain neither blanks nor brackets, have one text:
    "s [abc ]". *)
Theorem C117_text_refuted : exists (t u : ptree (list N)) fuel, t <> u /\
  p_str (fun v => v) fuel t = Ok [115; 32; 91; 97; 98; 99; 32; 93] /\ p_str (fun v => v) fuel u = Ok [115; 32; 91; 97; 98; 99; 32; 93].
Proof.
  exists (PNode [115] [PNode [97] []; PNode [98; 99] []]), (PNode [115] [PNode [97; 98] []; PNode [99] []]), 20%nat.
  split; [discriminate|]. split; reflexivity.
Qed.
Print Assumptions C117_text_refuted.
Definition some_tree : ptree N := PNode 1 [PNode 2 [PNode 4 []; PNode 5 []]; PNode 3 []].
Example C117_case :
  (do l <- preorder 50 some_tree; Ok (map p_value l)) = Ok [1; 2; 4; 5; 3] /\
  (do l <- postorder 50 some_tree; Ok (map p_value l)) = Ok [4; 5; 2; 3; 1] /\
  (do l <- leaves 50 some_tree; Ok (map p_value l)) = Ok [4; 5; 3] /\ clone 50 some_tree = Ok some_tree.
Proof. repeat split. Qed.
