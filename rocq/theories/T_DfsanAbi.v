(** C87: calls are treated as the ABI list says, however they are made.
    C88: so are calls that custom functions make of functions passed to them. *)
From Coq Require Import NArith List Bool Lia.
From Verif Require Import M_Base M_DfsanAbi S_DfsanAbi P_DfsanAbi.
Import ListNotations.
Open Scope N_scope.

(** C87.  A call or invoke, by name or through a pointer, of a function or alias with at most 200 fixed parameters
    and no others: what runs, on which values and labels, and the label of the result are what the list
    says, whatever the thread-local arrays held before. *)
Theorem C87_calls_partial : forall (Lb W : Type) (zero : Lb) join sources (native : N -> list N -> W -> N * W * tls) body custom L M n k invoke t vals labels w x,
  (forall i, ~ sources zero i) -> (forall a b i, sources (join a b) i <-> sources a i \/ sources b i) ->
  distinct M -> names L M n k -> type_of M n = Some t ->
  t_vararg t = false -> (t_params t <= 200)%nat -> length vals = t_params t -> length labels = t_params t ->
  exists v l w' x' lb,
    run_call zero join native body custom L M k invoke t vals labels w x = Ok (v, l, w', x') /\
    as_listed zero sources (returns native) (returns_labelled body) (returns_labelled custom) L M n vals labels w v lb w' /\
    (t_void t = false -> l = lb).
Proof. intros. now apply calls_as_listed. Qed.
Print Assumptions C87_calls_partial.

(** C87, variadic functions on the list, called by name (invokes of custom functions are another matter): the labels of all
    arguments count. *)
Theorem C87_variadic_partial : forall (Lb W : Type) (zero : Lb) join sources (native : N -> list N -> W -> N * W * tls) body custom L M n f invoke vals labels w x,
  (forall i, ~ sources zero i) -> (forall a b i, sources (join a b) i <-> sources a i \/ sources b i) ->
  distinct M -> find_fun (m_funs M) n = Some f -> t_vararg (fd_type f) = true -> listed L n ->
  (invoke = true -> ~ listed_in L n Custom \/ listed_in L n Functional \/ listed_in L n Discard) ->
  exists v l w' x',
    run_call zero join native body custom L M (ByName n) invoke (fd_type f) vals labels w x = Ok (v, l, w', x') /\
    as_listed zero sources (returns native) (returns_labelled body) (returns_labelled custom) L M n vals labels w v l w'.
Proof. intros. now apply variadic_by_name. Qed.
Print Assumptions C87_variadic_partial.

(** C87 is false of variadic functions on the list that are called through a pointer, or, if custom, by invoke: the
    program is stopped. *)
Theorem C87_variadic_pointer_refuted : forall (Lb W : Type) (zero : Lb) join (native : N -> list N -> W -> N * W * tls) body custom L M n f c invoke vals labels w x,
  distinct M -> find_fun (m_funs M) n = Some f -> t_vararg (fd_type f) = true -> listed L n -> pointer L M n = Some c ->
  run_call zero join native body custom L M (ByPointer c) invoke (fd_type f) vals labels w x = Exit.
Proof.
  intros. pose proof (H _ _ H0) as A. unfold pointer in H3. rewrite A, H0 in H3.
  apply instr_false in H2. unfold fun_code, zero_args_void in H3. rewrite H2, H1, andb_false_r in H3. injection H3 as <-.
  unfold run_call, run_plain. cbn [run_code]. unfold run_forward. now rewrite H1.
Qed.
Print Assumptions C87_variadic_pointer_refuted.
Theorem C87_variadic_invoke_refuted : forall (Lb W : Type) (zero : Lb) join (native : N -> list N -> W -> N * W * tls) body custom L M n f vals labels w x,
  distinct M -> find_fun (m_funs M) n = Some f -> t_vararg (fd_type f) = true -> listed L n ->
  listed_in L n Custom -> ~ listed_in L n Functional -> ~ listed_in L n Discard ->
  run_call zero join native body custom L M (ByName n) true (fd_type f) vals labels w x = Exit.
Proof.
  intros. pose proof (H _ _ H0) as A. apply instr_false in H2. apply is_in_true in H3. apply is_in_false in H4, H5.
  unfold run_call, unwrapped, pointer. rewrite A, H0.
  unfold fun_code, zero_args_void. rewrite H2, H1, andb_false_r. cbn [negb orb andb]. rewrite N.eqb_refl.
  unfold wrapper_kind. rewrite H3, H4, H5. cbn [wkind_eqb andb]. unfold run_plain. cbn [run_code]. unfold run_forward. now rewrite H1.
Qed.
Print Assumptions C87_variadic_invoke_refuted.
(** An alias of a variadic function is no better, even when called by its name. *)
Theorem C87_variadic_alias_refuted : forall (Lb W : Type) (zero : Lb) join (native : N -> list N -> W -> N * W * tls) body custom L M a n f invoke vals labels w x,
  distinct M -> find_alias (m_aliases M) a = Some n -> find_fun (m_funs M) n = Some f -> t_vararg (fd_type f) = true -> listed L n ->
  run_call zero join native body custom L M (ByName a) invoke (fd_type f) vals labels w x = Exit.
Proof.
  intros. apply instr_false in H3. assert (a <> n) by (intros ->; rewrite (H _ _ H1) in H0; discriminate).
  unfold run_call, unwrapped, pointer, alias_made. rewrite H0, H1, H3.
  unfold fun_code, zero_args_void. rewrite H3, H2, andb_false_r.
  destruct (is_instrumented L a); cbn [eqb negb orb andb].
  - unfold run_plain. cbn [run_code]. unfold run_forward. now rewrite H2.
  - destruct (N.eqb_spec n a); [congruence|]. unfold run_plain. cbn [run_code]. unfold run_forward. now rewrite H2.
Qed.
Print Assumptions C87_variadic_alias_refuted.

(** C87 is false of the variable arguments of the program's own functions: their labels go nowhere. *)
Theorem C87_variadic_labels_refuted : forall (Lb W : Type) (zero : Lb) join (native : N -> list N -> W -> N * W * tls) body custom L M n f invoke vals fixed more more' w x,
  distinct M -> find_fun (m_funs M) n = Some f -> ~ listed L n -> length fixed = t_params (fd_type f) ->
  run_call zero join native body custom L M (ByName n) invoke (fd_type f) vals (fixed ++ more) w x =
  run_call zero join native body custom L M (ByName n) invoke (fd_type f) vals (fixed ++ more') w x.
Proof.
  intros. pose proof (H _ _ H0) as A. apply instr_true in H1.
  unfold run_call, unwrapped, pointer. rewrite A, H0. unfold fun_code. rewrite H1. unfold run_plain.
  rewrite <- H2. now rewrite !firstn_app, !PeanoNat.Nat.sub_diag, !firstn_O.
Qed.
Print Assumptions C87_variadic_labels_refuted.

(** ** A module *)
(** 1 is a function of the program; 2 is native; 3 an alias of 1; 4 an alias of 2; 5 is variadic and native; 6 has
    201 parameters; 7 is defined by the program and listed; 8 is custom.  2, 3, 5, 7 and 8 are listed;
    2, 3 and 6 are functional. *)
Definition plainT n := mkType n false false.
Definition demo_module := mkModul
  [mkFdecl 1 (plainT 2) true; mkFdecl 2 (plainT 2) false; mkFdecl 5 (mkType 1 true false) false; mkFdecl 6 (plainT 201) true;
   mkFdecl 7 (plainT 2) true; mkFdecl 8 (plainT 2) false] [(3, 1); (4, 2)].
Definition demo_list := mkList (fun _ => false) (fun n c =>
  match c with
  | Uninstrumented => existsb (N.eqb n) [2; 3; 5; 7; 8]
  | Functional => existsb (N.eqb n) [2; 3; 6]
  | Discard => false
  | Custom => n =? 8
  end).
(** Labels are lists of inputs; the state records what ran with which labels. *)
Definition demo_native (n : N) (vals : list N) (w : list (N * list (list N))) : N * list (N * list (list N)) * @tls (list N) :=
  (n + fold_left N.add vals 0, w ++ [(n, [])], mkTls (fun _ => [77]) [78]).
Definition demo_body (n : N) (vals : list N) (ls : list (list N)) (w : list (N * list (list N))) : N * list N * list (N * list (list N)) * @tls (list N) :=
  (n + fold_left N.add vals 0, last ls [], w ++ [(n, ls)], mkTls (fun _ => [87]) [88]).
Definition demo_custom (n : N) (vals : list N) (ls : list (list N)) (w : list (N * list (list N))) : N * list N * list (N * list (list N)) * @tls (list N) :=
  (n + fold_left N.add vals 0, hd [] ls, w ++ [(n, ls)], mkTls (fun _ => [97]) [98]).
Definition demo_call := run_call [] (@app N) demo_native demo_body demo_custom demo_list demo_module.
Definition seen (r : Res (N * list N * list (N * list (list N)) * @tls (list N))) : Res (N * list N * list (N * list (list N))) :=
  do r <- r; let '(v, l, w, _) := r in Ok (v, l, w).
Lemma demo_distinct : distinct demo_module.
Proof.
  intros n f H. unfold demo_module in *. cbn [m_funs m_aliases find_fun find_alias fd_name] in *.
  destruct (N.eqb_spec 3 n); [subst; discriminate|]. destruct (N.eqb_spec 4 n); [subst; discriminate|]. reflexivity.
Qed.
Definition stale : @tls (list N) := mkTls (fun _ => [55]) [66].

(** C87 is false of functions with more than 200 parameters: here label 9 of the last argument is lost. *)
Theorem C87_many_parameters_refuted :
  type_of demo_module 6 = Some (plainT 201) /\
  let labels := repeat [] 200 ++ [[9]] in
  seen (demo_call (ByName 6) false (plainT 201) (repeat 0 201) labels [] stale) = Ok (6, [], [(6, repeat [] 201)]) /\
  ~ returns_labelled demo_body 6 (repeat 0 201) labels [] 6 [] [(6, repeat [] 201)].
Proof.
  split; [reflexivity|]. split; [vm_compute; reflexivity|]. intros (x & H).
  apply (f_equal (fun r : N * list N * list (N * list (list N)) * @tls (list N) => snd (fst (fst r)))) in H. vm_compute in H. discriminate.
Qed.
Print Assumptions C87_many_parameters_refuted.

(** C87 is false of native functions that are called through a pointer the program did not make (from dlsym, or passed
    in by native code): the result has whatever label was left. *)
Theorem C87_native_pointer_refuted : forall (Lb W : Type) (zero : Lb) join (native : N -> list N -> W -> N * W * tls) body custom L M n invoke t vals labels w x v w' x',
  find_fun (m_funs M) n = None -> find_alias (m_aliases M) n = None -> t_void t = false ->
  native n vals w = (v, w', x') ->
  run_call zero join native body custom L M (ByPointer (XNative n)) invoke t vals labels w x = Ok (v, tl_ret x', w', x').
Proof.
  intros. unfold run_call, run_plain. cbn [run_code]. unfold run_native, alias_made. rewrite H, H0, H2. cbn. now rewrite H1.
Qed.
Print Assumptions C87_native_pointer_refuted.

(** C88.  A function that the program passes to a custom function, called there through the trampoline: as if
    the program called it with the same labels. *)
Theorem C88_callbacks_partial : forall (Lb W : Type) (zero : Lb) join sources (native : N -> list N -> W -> N * W * tls) body custom L M n c t vals labels w x,
  (forall i, ~ sources zero i) -> (forall a b i, sources (join a b) i <-> sources a i \/ sources b i) ->
  distinct M -> pointer L M n = Some c -> type_of M n = Some t ->
  t_vararg t = false -> (t_params t <= 200)%nat -> length vals = t_params t -> length labels = t_params t ->
  exists v l w' x' lb,
    trampoline zero join native body custom L M c t vals labels w x = Ok (v, l, w', x') /\
    as_listed zero sources (returns native) (returns_labelled body) (returns_labelled custom) L M n vals labels w v lb w' /\
    (t_void t = false -> l = lb).
Proof. intros. apply calls_as_listed; auto. right. now exists c. Qed.
Print Assumptions C88_callbacks_partial.

(** The hypotheses are met. *)
Example C87_case : exists v l w' x' lb,
    demo_call (ByPointer (XAlias 4 2)) true (plainT 2) [10; 20] [[1]; [2]] [] stale = Ok (v, l, w', x') /\
    as_listed [] (fun l i => In i l) (returns demo_native) (returns_labelled demo_body) (returns_labelled demo_custom) demo_list demo_module 4 [10; 20] [[1]; [2]] [] v lb w' /\
    (false = false -> l = lb).
Proof.
  refine (C87_calls_partial (list N) _ [] (@app N) _ demo_native demo_body demo_custom demo_list demo_module 4 _ true (plainT 2) _ _ _ _ _ _ demo_distinct _ _ _ _ _ _); try reflexivity.
  - intros i [].
  - intros a b i. apply in_app_iff.
  - right. exists (XAlias 4 2). split; reflexivity.
  - cbn. lia.
Qed.
Example C87_values :
  seen (demo_call (ByName 1) false (plainT 2) [10; 20] [[1]; [2]] [] stale) = Ok (31, [2], [(1, [[1]; [2]])]) /\
  seen (demo_call (ByName 2) false (plainT 2) [10; 20] [[1]; [2]] [] stale) = Ok (32, [1; 2], [(2, [])]) /\
  seen (demo_call (ByPointer (XWrapper 2)) false (plainT 2) [10; 20] [[1]; [2]] [] stale) = Ok (32, [1; 2], [(2, [])]) /\
  seen (demo_call (ByName 3) true (plainT 2) [10; 20] [[1]; [2]] [] stale) = Ok (31, [1; 2], [(1, [[]; []])]) /\
  seen (demo_call (ByName 4) false (plainT 2) [10; 20] [[1]; [2]] [] stale) = Ok (32, [1; 2], [(2, [])]) /\
  seen (demo_call (ByName 7) false (plainT 2) [10; 20] [[1]; [2]] [] stale) = Ok (37, [], [(7, [[]; []])]) /\
  seen (demo_call (ByName 8) false (plainT 2) [10; 20] [[1]; [2]] [] stale) = Ok (38, [1], [(8, [[1]; [2]])]) /\
  seen (demo_call (ByName 8) true (plainT 2) [10; 20] [[1]; [2]] [] stale) = Ok (38, [1], [(8, [[1]; [2]])]).
Proof. repeat split; vm_compute; reflexivity. Qed.
Example C87_variadic_case : listed demo_list 5 /\ find_fun (m_funs demo_module) 5 = Some (mkFdecl 5 (mkType 1 true false) false) /\
  seen (demo_call (ByName 5) false (mkType 1 true false) [10; 20] [[1]; [2]] [] stale) = Ok (35, [], [(5, [])]) /\
  demo_call (ByPointer (XWrapper 5)) false (mkType 1 true false) [10; 20] [[1]; [2]] [] stale = Exit.
Proof. repeat split; try reflexivity. right. reflexivity. Qed.
Example C88_case : seen (trampoline [] (@app N) demo_native demo_body demo_custom demo_list demo_module (XBody 1) (plainT 2) [10; 20] [[1]; [2]] [] stale)
  = Ok (31, [2], [(1, [[1]; [2]])]) /\ pointer demo_list demo_module 1 = Some (XBody 1).
Proof. split; vm_compute; reflexivity. Qed.
