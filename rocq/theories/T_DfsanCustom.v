(** C109: what wrappers of custom functions are given. *)
From Coq Require Import NArith List Bool Arith Lia.
From Verif Require Import M_Base M_DfsanCustom S_DfsanCustom P_Base.
Import ListNotations.
Local Open Scope nat_scope.

Lemma fun_pointer_some p f : fun_pointer p = Some f -> p = TPtr (as_ty f).
Proof. destruct p as [|[| |ps r va]|]; cbn; try discriminate. intros [= <-]. reflexivity. Qed.
Lemma fun_pointer_is p : is_fun_pointer p <-> fun_pointer p <> None.
Proof.
  split; [intros (ps & r & va & ->); discriminate|]. destruct p as [|[| |ps r va]|]; cbn; try congruence. intros _. exists ps, r, va. reflexivity.
Qed.
Fixpoint ptypes (ps : list ty) : list ty :=
  match ps with
  | [] => []
  | p :: r => (match fun_pointer p with Some _ => [tramp_type p; TBytePtr] | None => [p] end) ++ ptypes r
  end.
Fixpoint proles (ps : list ty) (i : nat) : list role :=
  match ps with
  | [] => []
  | p :: r => (match fun_pointer p with Some _ => [Tramp i; Pointer i] | None => [Param i] end) ++ proles r (S i)
  end.
Fixpoint starts (ps : list ty) (q : nat) : list nat :=
  match ps with
  | [] => []
  | p :: r => q :: starts r (match fun_pointer p with Some _ => 2 + q | None => S q end)
  end.
Lemma map_repeat {A} (x : ty) (l : list A) : map (fun _ => x) l = repeat x (length l).
Proof. induction l; cbn; congruence. Qed.
Lemma custom_params_ok : forall ps types m, (forall q r, ~ In (TPtr (TFun q r true)) ps) ->
  custom_params ps types m = Ok (types ++ ptypes ps, m ++ starts ps (length types)).
Proof.
  induction ps as [|p ps IH]; intros types m H; [cbn; rewrite !app_nil_r; reflexivity|]. cbn [custom_params ptypes starts].
  assert (H' : forall q r, ~ In (TPtr (TFun q r true)) ps) by (intros q r I; apply (H q r); right; exact I).
  destruct (fun_pointer p) as [f|] eqn:F.
  - pose proof (fun_pointer_some _ _ F) as ->. unfold trampoline_type. destruct f as [q r [|]]; cbn [ft_va as_ty ft_params ft_ret] in *.
    + destruct (H q r). now left.
    + cbn [bind]. rewrite IH by exact H'. rewrite <- !app_assoc, app_length. cbn [length app]. rewrite (Nat.add_comm _ 2). cbn [tramp_type as_ty ft_params ft_ret ft_va].
      rewrite map_repeat. reflexivity.
  - rewrite IH by exact H'. rewrite <- !app_assoc, app_length. cbn [length app]. rewrite (Nat.add_comm _ 1). reflexivity.
Qed.
Lemma proles_ok : forall ps i, roles_of_params i ps (proles ps i).
Proof.
  induction ps as [|p ps IH]; intros i; cbn; [constructor|]. destruct (fun_pointer p) eqn:F; cbn.
  - constructor; [apply fun_pointer_is; congruence|apply IH].
  - constructor; [rewrite fun_pointer_is; congruence|apply IH].
Qed.
Lemma len_ptypes : forall ps i, length (ptypes ps) = length (proles ps i).
Proof. induction ps as [|p ps IH]; intros i; cbn; [reflexivity|]. rewrite !app_length, (IH (S i)). destruct (fun_pointer p); reflexivity. Qed.
Lemma len_fixed : forall ps i, length (fixed_args ps i) = length (proles ps i).
Proof. induction ps as [|p ps IH]; intros i; cbn; [reflexivity|]. rewrite !app_length, (IH (S i)). destruct (fun_pointer p); reflexivity. Qed.
Lemma len_starts : forall ps q, length (starts ps q) = length ps.
Proof. induction ps as [|p ps IH]; intros q; cbn; [reflexivity|]. now rewrite IH. Qed.

Lemma F2_map {A B C} (P : B -> C -> Prop) (f : A -> B) (g : A -> C) l : (forall x, In x l -> P (f x) (g x)) -> Forall2 P (map f l) (map g l).
Proof. intros H. induction l as [|x l IH]; cbn; constructor; [apply H; now left|apply IH; intros y I; apply H; now right]. Qed.

Lemma fixed_right t n : forall ps i, Forall2 (right_value t n) (proles ps i) (fixed_args ps i).
Proof.
  induction ps as [|p ps IH]; intros i; cbn; [constructor|]. destruct (fun_pointer p); cbn; repeat (constructor; [reflexivity|]); apply IH.
Qed.
Lemma skipn_seq k : forall n i, skipn k (seq i n) = seq (k + i) (n - k).
Proof. induction k as [|k IH]; intros n i; [rewrite Nat.sub_0_r; reflexivity|]. destruct n; [reflexivity|]. cbn [seq skipn]. rewrite IH. cbn. f_equal. lia. Qed.
Lemma seq_shift_by k m : forall s, map (fun j => k + j) (seq s m) = seq (k + s) m.
Proof. induction m as [|m IH]; intros s; cbn; [reflexivity|]. f_equal. rewrite IH. f_equal. lia. Qed.
Lemma values_right t n : Forall2 (right_value t n) (proles (ft_params t) 0 ++ map LabelOf (seq 0 (length (ft_params t))) ++ (if ft_va t then [LabelsOfRest] else []) ++
         (match ft_ret t with Some _ => [ResultLabel] | None => [] end) ++ map Rest (seq 0 (n - length (ft_params t)))) (new_args t n).
Proof.
  unfold new_args, shadow_args. rewrite <- !app_assoc. apply Forall2_app; [apply fixed_right|]. apply Forall2_app; [apply F2_map; reflexivity|].
  apply Forall2_app.
  - destruct (ft_va t); [|constructor]. constructor; [|constructor]. cbn. eexists. split; [reflexivity|]. rewrite seq_length. split; [reflexivity|]. intros j J. apply seq_nth, J.
  - apply Forall2_app; [destruct (ft_ret t); [constructor; [reflexivity|constructor]|constructor]|].
    rewrite skipn_seq, Nat.add_0_r. set (k := length (ft_params t)). generalize (n - k) as m. intros m.
    replace (seq k m) with (map (fun j => k + j) (seq 0 m)).
    + rewrite map_map. apply F2_map. reflexivity.
    + rewrite seq_shift_by, Nat.add_0_r. reflexivity.
Qed.

Lemma types_fixed args : forall ps i, (forall j, j < length ps -> nth_error args (i + j) = nth_error ps j) -> Forall2 (right_type args) (proles ps i) (ptypes ps).
Proof.
  induction ps as [|p ps IH]; intros i H; cbn; [constructor|].
  assert (H0 := H 0 ltac:(cbn; lia)). rewrite Nat.add_0_r in H0. cbn in H0.
  assert (Hr : forall j, j < length ps -> nth_error args (S i + j) = nth_error ps j) by (intros j J; rewrite Nat.add_succ_comm; apply (H (S j)); cbn; lia).
  destruct (fun_pointer p) eqn:F; cbn.
  - constructor; [exists p; auto|]. constructor; [reflexivity|]. apply IH, Hr.
  - constructor; [exact H0|]. apply IH, Hr.
Qed.
Lemma types_right t ty_args : firstn (length (ft_params t)) ty_args = ft_params t ->
  Forall2 (right_type ty_args) (proles (ft_params t) 0 ++ map LabelOf (seq 0 (length (ft_params t))) ++ (if ft_va t then [LabelsOfRest] else []) ++
         (match ft_ret t with Some _ => [ResultLabel] | None => [] end))
  (ptypes (ft_params t) ++ repeat TShadow (length (ft_params t)) ++ (if ft_va t then [TShadowPtr] else []) ++ ret_ptr (ft_ret t)).
Proof.
  intros E. apply Forall2_app; [apply types_fixed|apply Forall2_app; [|apply Forall2_app]].
  - intros j J. cbn. rewrite <- E. clear - J. revert j J. generalize (length (ft_params t)) as k. induction ty_args as [|a l IH]; intros k j J; [destruct k, j; reflexivity|].
    destruct k; [lia|]. destruct j; [reflexivity|]. cbn. apply IH. lia.
  - generalize 0 as s. generalize (length (ft_params t)) as k. induction k as [|k IH]; intros s; cbn; constructor; [reflexivity|apply IH].
  - destruct (ft_va t); repeat constructor.
  - destruct (ft_ret t); repeat constructor.
Qed.

Lemma set_nth_app x : forall l1 l2 y, set_nth (l1 ++ y :: l2) (length l1) x = l1 ++ x :: l2.
Proof. induction l1 as [|a l1 IH]; intros l2 y; cbn; [reflexivity|]. now rewrite IH. Qed.
Fixpoint pattrs (a : attrs) (ps : list ty) (i : nat) : list (list N) :=
  match ps with
  | [] => []
  | p :: r => (match fun_pointer p with Some _ => [param_attr a i; []] | None => [param_attr a i] end) ++ pattrs a r (S i)
  end.
Lemma copy_ok a : forall ps i done m, copy_attrs a i (starts ps (length done)) (done ++ repeat [] (length (proles ps i) + m)) = done ++ pattrs a ps i ++ repeat [] m.
Proof.
  induction ps as [|p ps IH]; intros i done m; [reflexivity|]. cbn [starts copy_attrs proles pattrs]. destruct (fun_pointer p); cbn [app length repeat plus].
  - rewrite set_nth_app. replace (done ++ param_attr a i :: [] :: repeat [] (length (proles ps (S i)) + m)) with ((done ++ [param_attr a i; []]) ++ repeat [] (length (proles ps (S i)) + m)) by (rewrite <- app_assoc; reflexivity).
    replace (S (S (length done))) with (length (done ++ [param_attr a i; []])) by (rewrite app_length; cbn; lia). rewrite IH, <- app_assoc. reflexivity.
  - rewrite set_nth_app. replace (done ++ param_attr a i :: repeat [] (length (proles ps (S i)) + m)) with ((done ++ [param_attr a i]) ++ repeat [] (length (proles ps (S i)) + m)) by (rewrite <- app_assoc; reflexivity).
    replace (S (length done)) with (length (done ++ [param_attr a i])) by (rewrite app_length; cbn; lia). rewrite IH, <- app_assoc. reflexivity.
Qed.
Lemma zext_ok : forall k done rest, zext_labels (done ++ repeat [] k ++ rest) (length done) k = done ++ repeat [ZEXT] k ++ rest.
Proof.
  induction k as [|k IH]; intros done rest; [reflexivity|]. cbn [repeat app zext_labels]. rewrite app_nth2 by lia. rewrite Nat.sub_diag. cbn [nth]. rewrite set_nth_app.
  replace (done ++ [ZEXT] :: repeat [] k ++ rest) with ((done ++ [[ZEXT]]) ++ repeat [] k ++ rest) by (rewrite <- app_assoc; reflexivity).
  replace (S (length done)) with (length (done ++ [[ZEXT]])) by (rewrite app_length; cbn; lia). rewrite IH, <- app_assoc. reflexivity.
Qed.
Lemma pattrs_right t a : forall ps i, Forall2 (right_attr t a) (proles ps i) (pattrs a ps i).
Proof. induction ps as [|p ps IH]; intros i; cbn; [constructor|]. destruct (fun_pointer p); cbn; repeat (constructor; [reflexivity|]); apply IH. Qed.
Lemma labels_attr t a k : forall s, Forall2 (right_attr t a) (map LabelOf (seq s k)) (repeat [ZEXT] k).
Proof. induction k as [|k IH]; intros s; cbn; constructor; [reflexivity|apply IH]. Qed.
Lemma len_pattrs a ps i : length (pattrs a ps i) = length (proles ps i).
Proof. revert i. induction ps as [|p ps IH]; intros i; cbn; [reflexivity|]. rewrite !app_length, IH. destruct (fun_pointer p); reflexivity. Qed.
Lemma Forall2_nth_default {A B} (P : A -> B -> Prop) l m d : Forall2 P l m -> forall q r, nth_error l q = Some r -> P r (nth q m d).
Proof. intros F. induction F as [|x y l m H F IH]; intros [|q] r E; try discriminate E; cbn in *; [injection E as <-; exact H|exact (IH q r E)]. Qed.

Lemma F2_length {A B} (P : A -> B -> Prop) l m : Forall2 P l m -> length l = length m.
Proof. intros F. induction F; cbn; congruence. Qed.
Lemma attrs_nth t a fixed A n : Forall2 (right_attr t a) fixed A -> let k := length (ft_params t) in
  forall q r, nth_error (fixed ++ map Rest (seq 0 (n - k))) q = Some r -> right_attr t a r (nth q (A ++ map (param_attr a) (seq k (num_sets a - k))) []).
Proof.
  intros F k q r Hr. pose proof (F2_length _ _ _ F) as LF. destruct (Nat.lt_ge_cases q (length fixed)) as [Q|Q].
  - rewrite nth_error_app1 in Hr by exact Q. rewrite app_nth1 by lia. exact (Forall2_nth_default _ _ _ [] F q r Hr).
  - rewrite nth_error_app2 in Hr by exact Q. rewrite app_nth2 by lia. rewrite LF in Hr. set (j := q - _) in *. clearbody j. clear - Hr.
    assert (J : j < n - k). { rewrite <- (seq_length (n - k) 0), <- (map_length Rest). apply nth_error_Some. congruence. }
    rewrite nth_error_map in Hr. rewrite (nth_error_nth' _ 0) in Hr by (rewrite seq_length; exact J). rewrite seq_nth in Hr by exact J. cbn in Hr. injection Hr as <-. cbn [right_attr].
    fold k. destruct (Nat.lt_ge_cases j (num_sets a - k)) as [B|B].
    + rewrite (nth_indep _ [] (param_attr a 0)) by (rewrite map_length, seq_length; exact B). rewrite map_nth, seq_nth by exact B. reflexivity.
    + rewrite nth_overflow by (rewrite map_length, seq_length; exact B). unfold param_attr. symmetry. apply nth_overflow. unfold num_sets in B. clearbody k; destruct (at_params a) as [|x l]; cbn [length] in B |- *; lia.
Qed.

(** The call that replaces a call of a custom function.  For every type of the function without
    pointers to variadic functions among its parameters, and every call of it with arguments of
    the right types: the call has one argument for every role, the right one; the declared type of
    the wrapper has the type of that argument at the same place; the attributes of every
    argument are those of the original one. *)
Theorem C109_arguments_partial t args a : no_variadic_callback t -> firstn (length (ft_params t)) args = ft_params t ->
  exists rs new vs at', documented t (length args - length (ft_params t)) rs /\ custom_call t (length args) a = Ok (new, vs, at') /\
    Forall2 (right_value t (length args)) rs vs /\
    (exists fixed, firstn (length fixed) rs = fixed /\ Forall2 (right_type args) fixed (ft_params new) /\ forall r, In r (skipn (length fixed) rs) -> exists j, r = Rest j) /\
    ft_ret new = ft_ret t /\ ft_va new = ft_va t /\
    (forall q r, nth_error rs q = Some r -> right_attr t a r (nth q at' [])).
Proof.
  intros NV E. set (k := length (ft_params t)). set (n := length args).
  set (mid := (if ft_va t then [LabelsOfRest] else []) ++ (match ft_ret t with Some _ => [ResultLabel] | None => [] end)).
  set (fixed := proles (ft_params t) 0 ++ map LabelOf (seq 0 k) ++ mid).
  set (new := mkFty (ptypes (ft_params t) ++ repeat TShadow k ++ (if ft_va t then [TShadowPtr] else []) ++ ret_ptr (ft_ret t)) (ft_ret t) (ft_va t)).
  exists (fixed ++ map Rest (seq 0 (n - k))), new, (new_args t n).
  eexists. split; [|split; [|split; [|split; [|split; [reflexivity|split; [reflexivity|]]]]]].
  - exists (proles (ft_params t) 0). split; [apply proles_ok|]. unfold fixed, mid. rewrite <- !app_assoc. reflexivity.
  - unfold custom_call, custom_type. rewrite custom_params_ok by exact NV. cbn [app length bind fst snd]. fold k new. reflexivity.
  - unfold fixed, mid. rewrite <- !app_assoc. apply values_right.
  - exists fixed. split; [rewrite firstn_app, firstn_all, Nat.sub_diag, firstn_O, app_nil_r; reflexivity|]. split; [exact (types_right t args E)|].
    intros r I. rewrite skipn_app, skipn_all, Nat.sub_diag in I. cbn in I. apply in_map_iff in I. destruct I as (j & <- & _). exists j. reflexivity.
  - unfold transform_attrs. cbn [ft_params new]. rewrite len_fixed.
    assert (L : length (ptypes (ft_params t) ++ repeat TShadow k ++ (if ft_va t then [TShadowPtr] else []) ++ ret_ptr (ft_ret t)) = length (proles (ft_params t) 0) + (k + length mid)).
    { rewrite !app_length, (len_ptypes _ 0), repeat_length. unfold mid. rewrite app_length. destruct (ft_va t), (ft_ret t); reflexivity. }
    unfold new. cbn [ft_params]. rewrite L. pose proof (copy_ok a (ft_params t) 0 [] (k + length mid)) as C. cbn [app length] in C. rewrite C. clear C L.
    rewrite repeat_app, <- !app_assoc. rewrite <- (len_pattrs a). rewrite zext_ok. fold k.
    intros q r Hr. rewrite !app_assoc. rewrite <- (app_assoc (pattrs a (ft_params t) 0)). 
    assert (F : Forall2 (right_attr t a) fixed (pattrs a (ft_params t) 0 ++ repeat [ZEXT] k ++ repeat [] (length mid))).
    { apply Forall2_app; [apply pattrs_right|apply Forall2_app].
      - apply labels_attr.
      - unfold mid. destruct (ft_va t), (ft_ret t); cbn; repeat constructor. }
    rewrite <- app_assoc. set (A := pattrs a (ft_params t) 0 ++ repeat [ZEXT] k ++ repeat [] (length mid)) in *.
    match goal with |- right_attr t a r (nth q ?X []) => replace X with (A ++ map (param_attr a) (seq k (num_sets a - k))) by (unfold A; rewrite <- !app_assoc; reflexivity) end.
    exact (attrs_nth t a fixed A n F q r Hr).
Qed.
Print Assumptions C109_arguments_partial.
(** int f(int, void ( * )(char), int, ...) called with two more arguments. *)
Example C109_case :
  let t := mkFty [TInt 32; TPtr (TFun [TInt 8] None false); TInt 32] (Some (TInt 32)) true in
  custom_call t 5 (mkAttrs [[7]; [8]; []; []; [9]]%N 0) = Ok (
    mkFty [TInt 32; TPtr (TFun [TPtr (TFun [TInt 8] None false); TInt 8; TInt 32] None false); TPtr (TInt 8); TInt 32; TInt 32; TInt 32; TInt 32; TPtr (TInt 32); TPtr (TInt 32)] (Some (TInt 32)) true,
    [VArg 0; VTramp 1; VCast 1; VArg 2; VLabel 0; VLabel 1; VLabel 2; VLabels [3; 4]; VRet; VArg 3; VArg 4],
    [[7]; [8]; []; []; [1]; [1]; [1]; []; []; []; [9]; []; []]%N).
Proof. vm_compute. reflexivity. Qed.

(** Missing: pointers to variadic functions. *)
Theorem C109_variadic_callback_refuted t args a : (exists ps r, In (TPtr (TFun ps r true)) (ft_params t)) -> custom_call t args a = Exit.
Proof.
  intros (ps & r & I). unfold custom_call, custom_type.
  assert (X : forall l types m, In (TPtr (TFun ps r true)) l -> custom_params l types m = Exit).
  { induction l as [|p l IH]; intros types m H; [destruct H|]. cbn [custom_params]. destruct H as [->|H]; [reflexivity|].
    destruct (fun_pointer p) as [f|]; [|apply IH, H]. unfold trampoline_type. destruct (ft_va f); [reflexivity|]. cbn [bind]. apply IH, H. }
  rewrite X by exact I. reflexivity.
Qed.
Print Assumptions C109_variadic_callback_refuted.

(** The labels of results are those the wrappers store... *)
Theorem C109_result_labels_partial {Lb} cell (calls : list Lb) : results cell (map Some calls) = map Some calls.
Proof. revert cell. induction calls as [|c calls IH]; intros cell; cbn; [reflexivity|]. now rewrite IH. Qed.
Print Assumptions C109_result_labels_partial.
(** ... but after one that stores none, as that of dfsan_set_write_callback, the result has the label of the
    last result before, or, if it is the first, one that was never written. *)
Theorem C109_result_labels_refuted {Lb} (before : list Lb) (l : Lb) :
  results None [None : option Lb] = [None] /\ results None (map Some before ++ [Some l; None]) = map Some before ++ [Some l; Some l].
Proof.
  split; [reflexivity|]. enough (H : forall c, results c (map Some before ++ [Some l; None]) = map Some before ++ [Some l; Some l]) by apply H.
  induction before as [|b before IH]; intros c; cbn; [reflexivity|]. now rewrite IH.
Qed.
Print Assumptions C109_result_labels_refuted.
