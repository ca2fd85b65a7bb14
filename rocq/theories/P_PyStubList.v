(** Proofs about the lists of functions. *)
From Coq Require Import NArith List Bool Lia Arith.
From Verif Require Import M_Base M_Functions M_PyStubList S_StubList.
Import ListNotations.
Open Scope N_scope.

Lemma eqb_iff a b : bytes_eqb a b = true <-> a = b.
Proof.
  revert b. induction a as [|x a IH]; intros [|y b]; cbn; try (split; congruence).
  rewrite andb_true_iff, N.eqb_eq, IH. split; [intros [-> ->]; reflexivity|intros E; injection E; auto].
Qed.
Lemma mem_iff x l : M_PyStubList.mem x l = true <-> In x l.
Proof.
  unfold M_PyStubList.mem. rewrite existsb_exists. split.
  - intros (y & I & E). apply eqb_iff in E as ->. exact I.
  - intros I. exists x. split; [exact I|now apply eqb_iff].
Qed.
Lemma uniq_in l n : In n (uniq l) <-> In n l.
Proof.
  induction l as [|x l IH]; cbn; [tauto|]. destruct (M_PyStubList.mem x l) eqn:M.
  - rewrite IH. split; [auto|]. intros [<-|I]; [now apply mem_iff|exact I].
  - cbn. rewrite IH. tauto.
Qed.
Lemma uniq_nodup l : NoDup (uniq l).
Proof.
  induction l as [|x l IH]; cbn; [constructor|]. destruct (M_PyStubList.mem x l) eqn:M; [exact IH|]. constructor; [|exact IH].
  rewrite uniq_in, <- mem_iff. congruence.
Qed.
Lemma two_lines_in f l : In f l -> In (t_fun ++ clean f ++ t_uninst) (flat_map two_lines l) /\ In (t_fun ++ clean f ++ t_discard) (flat_map two_lines l).
Proof. intros I. split; apply in_flat_map; exists f; split; auto; [now left|right; now left]. Qed.

Lemma skipn_exact {A} (a b : list A) n : length a = n -> skipn n (a ++ b) = b.
Proof. intros <-. rewrite skipn_app, skipn_all, Nat.sub_diag. reflexivity. Qed.
Lemma firstn_head {A} (a b : list A) n : (n <= length a)%nat -> firstn n (a ++ b) = firstn n a.
Proof. intros H. rewrite firstn_app. replace (n - length a)%nat with 0%nat by lia. cbn. apply app_nil_r. Qed.
Lemma right_length w t : (length t <= w)%nat -> length (right w t) = w.
Proof. intros H. unfold right. rewrite app_length, repeat_length. lia. Qed.
Lemma left_length w t : (length t <= w)%nat -> length (left w t) = w.
Proof. intros H. unfold left. rewrite app_length, repeat_length. lia. Qed.

Section Line.
  Variable s : sym.
  Hypothesis R : real s.
  Hypothesis F : fits s.
  Let A := right 6 (s_num s) ++ [58; 32] ++ s_value s ++ [32] ++ right 5 (s_size s) ++ [32].
  Let T := left 7 (type_text (s_type s)).
  Let B := left 6 (bind_text (s_bind s)).
  Let V := left 7 (vis_text (s_vis s)).
  Let X := right 4 (ndx_text (s_ndx s)).
  Lemma len_A : length A = 31%nat.
  Proof.
    destruct R as (V16 & _), F as (F1 & F2 & _). unfold A. rewrite !app_length, V16, !right_length by assumption. reflexivity.
  Qed.
  Lemma len_T : length T = 7%nat.
  Proof. apply left_length. destruct (s_type s); cbn; lia. Qed.
  Lemma len_B : length B = 6%nat.
  Proof. apply left_length. destruct (s_bind s); cbn; lia. Qed.
  Lemma len_V : length V = 7%nat.
  Proof. apply left_length. apply F. Qed.
  Lemma len_X : length X = 4%nat.
  Proof. apply right_length. apply F. Qed.
  Lemma line_parts : line_of s = A ++ T ++ [32] ++ B ++ [32] ++ V ++ [32] ++ X ++ [32] ++ s_name s.
  Proof. unfold line_of, A, T, B, V, X. rewrite <- !app_assoc. reflexivity. Qed.
  Lemma at_type : skipn 31 (line_of s) = T ++ [32] ++ B ++ [32] ++ V ++ [32] ++ X ++ [32] ++ s_name s.
  Proof. rewrite line_parts. apply skipn_exact, len_A. Qed.
  Lemma at_bind : skipn 39 (line_of s) = B ++ [32] ++ V ++ [32] ++ X ++ [32] ++ s_name s.
  Proof. rewrite line_parts. rewrite !app_assoc, <- (app_assoc _ B), <- !app_assoc, !(app_assoc A), (app_assoc (A ++ T)). rewrite skipn_exact; [reflexivity|]. rewrite !app_length, len_A, len_T. reflexivity. Qed.
  Lemma at_ndx : skipn 54 (line_of s) = X ++ [32] ++ s_name s.
  Proof.
    rewrite line_parts. replace (A ++ T ++ [32] ++ B ++ [32] ++ V ++ [32] ++ X ++ [32] ++ s_name s) with ((A ++ T ++ [32] ++ B ++ [32] ++ V ++ [32]) ++ X ++ [32] ++ s_name s) by (rewrite <- !app_assoc; reflexivity).
    apply skipn_exact. rewrite !app_length, len_A, len_T, len_B, len_V. reflexivity.
  Qed.
  Lemma at_name : skipn 59 (line_of s) = s_name s.
  Proof.
    rewrite line_parts. replace (A ++ T ++ [32] ++ B ++ [32] ++ V ++ [32] ++ X ++ [32] ++ s_name s) with ((A ++ T ++ [32] ++ B ++ [32] ++ V ++ [32] ++ X ++ [32]) ++ s_name s) by (rewrite <- !app_assoc; reflexivity).
    apply skipn_exact. rewrite !app_length, len_A, len_T, len_B, len_V, len_X. reflexivity.
  Qed.
  Lemma function_iff : is_function (line_of s) = true <-> s_type s = Func \/ s_type s = IFunc.
  Proof.
    unfold is_function, slice. rewrite at_type, !firstn_head by (rewrite len_T; lia). unfold T.
    destruct (s_type s); cbn; split; intros H; auto; try discriminate; destruct H; discriminate.
  Qed.
  Lemma local_iff : bytes_eqb (slice 39 44 (line_of s)) t_local = true <-> s_bind s = Local.
  Proof.
    unfold slice. rewrite at_bind, firstn_head by (rewrite len_B; lia). unfold B. destruct (s_bind s); cbn; split; intros H; auto; discriminate.
  Qed.
  Lemma und_iff : bytes_eqb (slice 55 58 (line_of s)) t_und = true <-> s_ndx s = Und.
  Proof.
    assert (E : slice 55 58 (line_of s) = tl X).
    { unfold slice. change 55%nat with (1 + 54)%nat.
      assert (G := at_ndx). assert (Lx := len_X). destruct X as [|x0 [|x1 [|x2 [|x3 [|]]]]]; try discriminate Lx.
      assert (K : forall (l : list N) n, skipn (1 + n) l = skipn 1 (skipn n l)).
      { intros l n. revert l. induction n as [|n IH]; intros [|y l]; cbn; try reflexivity. apply (IH l). }
      rewrite K, G. reflexivity. }
    rewrite E, eqb_iff. unfold X, right. destruct R as (_ & _ & _ & D), F as (_ & _ & F3 & _).
    destruct (s_ndx s) as [| | |d]; cbn; try (split; [discriminate|discriminate] || split; auto; discriminate).
    destruct (D d eq_refl) as (Ne & Dd). cbn in F3. split; [|discriminate]. intros H. exfalso.
    destruct d as [|d0 [|d1 [|d2 [|d3 [|]]]]]; cbn in H, F3; try discriminate; try lia; try contradiction.
    - injection H as -> _ _. inversion Dd as [|? ? Q]. unfold digit in Q. lia.
    - injection H as -> _ _. inversion Dd as [|? ? _ Q]. inversion Q as [|? ? Q']. unfold digit in Q'. lia.
  Qed.
End Line.

Lemma before_iff l n : before 64 l = n <-> ~ In 64 n /\ (l = n \/ exists v, l = n ++ 64 :: v).
Proof.
  revert n. induction l as [|x l IH]; intros n; cbn.
  - split; [intros <-; split; auto|]. intros [_ [->|(v & E)]]; [reflexivity|]. destruct n; discriminate.
  - destruct (N.eqb_spec x 64) as [->|Ne].
    + split; [intros <-; split; [auto|right; now exists l]|]. intros [N [E|(v & E)]]; [subst n; destruct N; now left|].
      destruct n as [|y n]; [reflexivity|]. injection E as <- _. destruct N. now left.
    + split.
      * intros <-. destruct (IH (before 64 l)) as [H _]. destruct (H eq_refl) as [N E]. split; [intros [H'|H']; [now apply Ne|auto]|].
        destruct E as [E|(v & E)]; [left; now rewrite <- E|right; exists v; cbn; now rewrite <- E].
      * intros [N [E|(v & E)]].
        -- subst n. f_equal. apply IH. split; [intros I; apply N; now right|now left].
        -- destruct n as [|y n]; [injection E as -> _; contradiction|]. injection E as <- E. f_equal. apply IH. split; [intros I; apply N; now right|eauto].
Qed.
Lemma name_iff s n : real s -> fits s -> line_name (line_of s) = n <-> named s n.
Proof. intros R F. unfold line_name. rewrite at_name by assumption. apply before_iff. Qed.
Lemma defined_iff s : real s -> fits s -> is_defined (line_of s) = true <-> callable s.
Proof.
  intros R F. unfold is_defined, callable. rewrite !andb_true_iff, !negb_true_iff, (function_iff s R F).
  assert (L := local_iff s R F). assert (U := und_iff s R F).
  destruct (bytes_eqb (slice 39 44 (line_of s)) t_local), (bytes_eqb (slice 55 58 (line_of s)) t_und); intuition congruence.
Qed.
Lemma defined_list syms n : Forall real syms -> Forall fits syms ->
  In n (defined_function_list (map line_of syms)) <-> exists s, In s syms /\ callable s /\ named s n.
Proof.
  intros R F. rewrite Forall_forall in R, F. unfold defined_function_list. rewrite in_map_iff. split.
  - intros (l & E & I). apply filter_In in I as [I D]. apply in_map_iff in I as (s & <- & Is). exists s.
    split; [exact Is|]. split; [apply defined_iff; auto|apply name_iff; auto].
  - intros (s & Is & C & N). exists (line_of s). split; [apply name_iff; auto|]. apply filter_In. split; [now apply in_map|apply defined_iff; auto].
Qed.
Lemma starts_app p q : starts p (p ++ q) = true.
Proof. induction p as [|x p IH]; cbn; [reflexivity|]. now rewrite N.eqb_refl. Qed.
Lemma contains_app p a b : contains p (a ++ p ++ b) = true.
Proof.
  induction a as [|x a IH]; cbn [app].
  - destruct (p ++ b) eqn:E; cbn [contains]; rewrite <- E, starts_app; reflexivity.
  - cbn [contains]. rewrite IH. apply orb_true_r.
Qed.
Lemma undefined_list syms s n : Forall real syms -> Forall fits syms -> In s syms -> (s_type s = Func \/ s_type s = IFunc) -> s_ndx s = Und -> named s n ->
  In n (undefined_function_list (map line_of syms)).
Proof.
  intros R F I T U N. rewrite Forall_forall in R, F. unfold undefined_function_list. apply in_map_iff. exists (line_of s).
  split; [apply name_iff; auto|]. apply filter_In. split; [now apply in_map|]. apply andb_true_iff. split; [apply function_iff; auto|].
  rewrite <- (firstn_skipn 54 (line_of s)), (at_ndx s (R s I) (F s I)), U. cbn [ndx_text].
  change (right 4 [85; 78; 68]) with ([32] ++ t_und). rewrite <- app_assoc, (app_assoc _ [32]). apply contains_app.
Qed.

Lemma starts_iff p l : starts p l = true -> exists b, l = p ++ b.
Proof.
  revert l. induction p as [|x p IH]; intros [|y l]; cbn; intros H; try discriminate; eauto.
  apply andb_true_iff in H as [E H]. apply N.eqb_eq in E as ->. destruct (IH l H) as (b & ->). eauto.
Qed.
Lemma remove_none p l : (forall a b, l <> a ++ p ++ b) -> remove p l = l.
Proof.
  unfold remove. induction l as [|x l IH]; intros H; [reflexivity|]. cbn [remove_go].
  destruct (starts p (x :: l)) eqn:S; [apply starts_iff in S as (b & E); destruct (H [] b E)|].
  f_equal. apply IH. intros a b E. apply (H (x :: a) b). cbn. now rewrite E.
Qed.
Lemma clean_source n m : source_name n m -> clean n = m.
Proof.
  intros (P & H). unfold clean.
  assert (A : remove t_dfs m = m) by (apply remove_none; intros a b; apply P).
  assert (B : remove t_dfsw m = m) by (apply remove_none; intros a b; apply P).
  destruct H as [->|[->| ->]].
  - now rewrite B.
  - replace (remove t_dfsw (t_dfs ++ m)) with (t_dfs ++ remove t_dfsw m) by reflexivity. rewrite B.
    change (remove t_dfs (t_dfs ++ m)) with (remove t_dfs m). exact A.
  - change (remove t_dfsw (t_dfsw ++ m)) with (remove t_dfsw m). now rewrite B.
Qed.

Lemma before_eq n r : ~ In 61 n -> before 61 (n ++ 61 :: r) = n.
Proof.
  induction n as [|x n IH]; intros H; cbn; [reflexivity|]. destruct (N.eqb_spec x 61) as [->|_]; [destruct H; now left|].
  f_equal. apply IH. intros I. apply H. now right.
Qed.
Lemma item_name_entry n a : ~ In 61 n -> item_name (t_fun ++ n ++ 61 :: a ++ [10]) = n.
Proof.
  intros H. unfold item_name. replace (existsb (N.eqb 61) (t_fun ++ n ++ 61 :: a ++ [10])) with true.
  - rewrite app_assoc, before_eq; [reflexivity|]. rewrite in_app_iff. intros [I|I]; [|auto]. cbn in I. repeat (destruct I as [I|I]; [discriminate|]). exact I.
  - symmetry. apply existsb_exists. exists 61. split; [|reflexivity]. rewrite !in_app_iff. right. right. now left.
Qed.

Definition is_digit (c : N) : bool := (48 <=? c) && (c <=? 57).
Lemma digits_ok l : forallb is_digit l = true -> Forall digit l.
Proof.
  rewrite forallb_forall, Forall_forall. intros H x I. specialize (H x I). unfold is_digit in H. apply andb_true_iff in H as [A B].
  apply N.leb_le in A, B. now split.
Qed.
Lemma real_intro num v size t b vis ndx name : length v = 16%nat -> forallb is_digit num = true -> forallb is_digit size = true ->
  match ndx with Sec [] => false | Sec d => forallb is_digit d | _ => true end = true -> real (mkSym num v size t b vis ndx name).
Proof.
  intros L A B C. split; [exact L|]. split; [now apply digits_ok|]. split; [now apply digits_ok|]. cbn. intros d ->.
  destruct d as [|x d]; [discriminate|]. split; [discriminate|now apply digits_ok].
Qed.

Lemma lines_once l : NoDup l -> (forall n, In n l -> plain n) -> NoDup (flat_map two_lines l).
Proof.
  intros D P.
  assert (K : forall n, In n l -> clean n = n) by (intros n I; apply clean_source; split; [now apply P|now left]).
  assert (X : forall n m, t_fun ++ n ++ t_uninst <> t_fun ++ m ++ t_discard).
  { intros n m E. apply app_inv_head in E. apply (f_equal (@rev N)) in E. rewrite !rev_app_distr in E. discriminate. }
  clear P. induction D as [|n l N D IH]; [constructor|]. cbn [flat_map]. unfold two_lines at 1. cbn [app].
  rewrite (K n) by now left.
  assert (O : forall e, (e = t_uninst \/ e = t_discard) -> ~ In (t_fun ++ n ++ e) (flat_map two_lines l)).
  { intros e He I. apply in_flat_map in I as (m & Im & L). unfold two_lines in L. rewrite (K m) in L by now right.
    assert (E : n = m).
    { destruct L as [L|[L|[]]]; destruct He; subst e; try (destruct (X _ _ L)); try (symmetry in L; destruct (X _ _ L));
        apply app_inv_head, app_inv_tail in L; auto. }
    subst m. contradiction. }
  constructor; [intros [E|I]; [symmetry in E; now apply X in E|apply (O t_uninst) in I; auto]|].
  constructor; [intros I; apply (O t_discard) in I; auto|]. apply IH. intros m Im. apply K. now right.
Qed.
