(** C121: the lists made from a library have its functions, and no others. *)
From Coq Require Import NArith List Bool Lia Arith.
From Verif Require Import M_Base M_Functions M_PyStubList S_StubList P_PyStubList.
Import ListNotations.
Open Scope N_scope.

(** From a library whose symbols fit the columns, exactly the names of the functions that other
    libraries can call are taken. *)
Theorem C121_names_partial : forall syms n, Forall real syms -> Forall fits syms ->
  (In n (defined_function_list (map line_of syms)) <-> exists s, In s syms /\ callable s /\ named s n).
Proof. exact defined_list. Qed.
Print Assumptions C121_names_partial.

(** For every such function whose name is that of the source program, with or without one of the
    prefixes, the list has the two lines that treat it as a function that is not instrumented and
    whose result has no label. *)
Theorem C121_listed_partial : forall syms s n m, Forall real syms -> Forall fits syms ->
  In s syms -> callable s -> named s n -> source_name n m ->
  In (t_fun ++ m ++ t_uninst) (stublist (map line_of syms)) /\ In (t_fun ++ m ++ t_discard) (stublist (map line_of syms)).
Proof.
  intros syms s n m R F I C N S. rewrite <- (clean_source n m S). apply two_lines_in, uniq_in, defined_list; eauto.
Qed.
Print Assumptions C121_listed_partial.
(** It has no other lines, if all names are of that kind. *)
Theorem C121_only_partial : forall syms l, Forall real syms -> Forall fits syms ->
  (forall s n, In s syms -> callable s -> named s n -> exists m, source_name n m) ->
  In l (stublist (map line_of syms)) ->
  exists s n m, In s syms /\ callable s /\ named s n /\ source_name n m /\ (l = t_fun ++ m ++ t_uninst \/ l = t_fun ++ m ++ t_discard).
Proof.
  intros syms l R F A I. apply in_flat_map in I as (n & In_ & L). rewrite uniq_in in In_. apply defined_list in In_ as (s & Is & C & N); auto.
  destruct (A s n Is C N) as (m & S). exists s, n, m. repeat (split; [assumption|]). rewrite <- (clean_source n m S). destruct L as [<-|[<-|[]]]; auto.
Qed.
Print Assumptions C121_only_partial.
(** No line comes twice, however often a function occurs, if the names have no prefixes. *)
Theorem C121_once_partial : forall syms, Forall real syms -> Forall fits syms ->
  (forall s n, In s syms -> callable s -> named s n -> plain n) -> NoDup (stublist (map line_of syms)).
Proof.
  intros syms R F A. apply lines_once; [apply uniq_nodup|]. intros n I. rewrite uniq_in in I. apply defined_list in I as (s & Is & C & N); eauto.
Qed.
Print Assumptions C121_once_partial.

(** The second list made for libc++ has the two lines of each function of the ABI library, and no others. *)
Theorem C121_ignored_partial : forall abi l, Forall real abi -> Forall fits abi ->
  (forall s n, In s abi -> callable s -> named s n -> exists m, source_name n m) ->
  (In l (abi_ignore (map line_of abi)) <->
   exists s n m, In s abi /\ callable s /\ named s n /\ source_name n m /\ (l = t_fun ++ m ++ t_uninst \/ l = t_fun ++ m ++ t_discard)).
Proof.
  intros abi l R F A. unfold abi_ignore. split.
  - apply C121_only_partial; assumption.
  - intros (s & n & m & I & C & N & S & [-> | ->]); destruct (C121_listed_partial abi s n m R F I C N S); assumption.
Qed.
Print Assumptions C121_ignored_partial.

(** The list made for libc++: the functions of its ABI library, and those that libc++ needs from
    elsewhere. *)
Theorem C121_tracklist_partial : forall cxx abi s n m, Forall real cxx -> Forall fits cxx -> Forall real abi -> Forall fits abi ->
  named s n -> source_name n m ->
  (In s abi /\ callable s) \/ (In s cxx /\ (s_type s = Func \/ s_type s = IFunc) /\ s_ndx s = Und) ->
  In (t_fun ++ m ++ t_uninst) (tracklist (map line_of cxx) (map line_of abi)) /\ In (t_fun ++ m ++ t_discard) (tracklist (map line_of cxx) (map line_of abi)).
Proof.
  intros cxx abi s n m R1 F1 R2 F2 N S H. rewrite <- (clean_source n m S). apply two_lines_in, uniq_in, in_app_iff.
  assert (D : In n (defined_function_list (map line_of abi)) \/ ~ In n (defined_function_list (map line_of abi))).
  { destruct (M_PyStubList.mem n (defined_function_list (map line_of abi))) eqn:M; [left; now apply mem_iff|right; rewrite <- mem_iff; congruence]. }
  destruct D as [D|D]; [now right|]. left. destruct H as [(I & C)|(I & T & U)].
  - destruct D. apply defined_list; eauto.
  - apply filter_In. split; [now apply (undefined_list cxx s)|]. apply negb_true_iff. destruct (M_PyStubList.mem n _) eqn:M; [|reflexivity].
    apply mem_iff in M. contradiction.
Qed.
Print Assumptions C121_tracklist_partial.

(** A function of 100000 bytes is missing from the list: its line is one column longer. *)
Theorem C121_large_refuted : exists s, real s /\ callable s /\ named s [103] /\ s_size s = [49; 48; 48; 48; 48; 48] /\ stublist [line_of s] = [].
Proof.
  exists (mkSym [49] (repeat 48 16) [49; 48; 48; 48; 48; 48] Func Global Default (Sec [55]) [103]).
  split; [apply real_intro; reflexivity|].
  split; [repeat split; auto; discriminate|]. split; [split; [intros [E|[]]; discriminate|now left]|]. split; reflexivity.
Qed.
Print Assumptions C121_large_refuted.
(** A protected function is listed under a name with a part of its section's number. *)
Theorem C121_protected_refuted : exists s, real s /\ callable s /\ named s [103] /\ s_vis s = Protected /\
  defined_function_list [line_of s] = [[55; 32; 103]].
Proof.
  exists (mkSym [49] (repeat 48 16) [57] Func Global Protected (Sec [55]) [103]).
  split; [apply real_intro; reflexivity|].
  split; [repeat split; auto; discriminate|]. split; [split; [intros [E|[]]; discriminate|now left]|]. split; reflexivity.
Qed.
Print Assumptions C121_protected_refuted.
(** A name with a prefix in its middle is listed under a name that the library does not have. *)
Theorem C121_inner_refuted : exists s, real s /\ fits s /\ callable s /\ named s ([97] ++ t_dfs ++ [98]) /\
  stublist [line_of s] = [t_fun ++ [97; 98] ++ t_uninst; t_fun ++ [97; 98] ++ t_discard].
Proof.
  exists (mkSym [49] (repeat 48 16) [57] Func Global Default (Sec [55]) ([97] ++ t_dfs ++ [98])).
  split; [apply real_intro; reflexivity|].
  split; [repeat split; cbn; lia|]. split; [repeat split; auto; discriminate|].
  split; [split; [cbn; intros H; repeat (destruct H as [H|H]; [discriminate|]); exact H|now left]|]. reflexivity.
Qed.
Print Assumptions C121_inner_refuted.
(** A function that libc++ defines counts as undefined if its name has the letters UND; one that
    an object file needs has no type yet, and is missing. *)
Theorem C121_undefined_refuted :
  (exists s, real s /\ fits s /\ callable s /\ s_name s = [82; 79; 85; 78; 68] /\ undefined_function_list [line_of s] = [s_name s]) /\
  (exists s, real s /\ fits s /\ s_ndx s = Und /\ s_type s = NoType /\ undefined_function_list [line_of s] = []).
Proof.
  split.
  - exists (mkSym [49] (repeat 48 16) [57] Func Global Default (Sec [55]) [82; 79; 85; 78; 68]).
    split; [apply real_intro; reflexivity|].
    split; [repeat split; cbn; lia|]. split; [repeat split; auto; discriminate|]. split; reflexivity.
  - exists (mkSym [49] (repeat 48 16) [48] NoType Global Default Und [103]).
    split; [apply real_intro; reflexivity|].
    split; [repeat split; cbn; lia|]. repeat split; reflexivity.
Qed.
Print Assumptions C121_undefined_refuted.
(** The list for libc has the same text for every function. *)
Theorem C121_libc_refuted : forall lines l, In l (libc_list lines) -> l = [102; 117; 110; 58; 123; 102; 125; 61; 117; 110; 105; 110; 115; 116; 114; 117; 109; 101; 110; 116; 101; 100].
Proof. intros lines l I. apply in_map_iff in I as (x & <- & _). reflexivity. Qed.
Print Assumptions C121_libc_refuted.

(** Of two lists of entries, those of the second are shown whose function the first does not
    mention, in order. *)
Theorem C121_difference_partial : forall main items,
  (forall i, In i (main ++ items) -> exists n a, i = entry n a /\ ~ In 61 n) ->
  (forall n a, ~ In 61 n -> In (entry n a) items -> (In (entry n a) (list_diff main items) <-> ~ exists b, In (entry n b) main)) /\
  exists keep, list_diff main items = filter keep items.
Proof.
  intros main items A. split; [|eexists; reflexivity]. intros n a Nn I. unfold list_diff. rewrite filter_In, negb_true_iff.
  assert (E : forall n a, ~ In 61 n -> item_name (entry n a) = n) by (intros; now apply item_name_entry).
  rewrite (E n a Nn). split.
  - intros [_ M] (b & Ib). enough (X : M_PyStubList.mem n (map item_name main) = true) by congruence.
    apply mem_iff, in_map_iff. exists (entry n b). auto.
  - intros No. split; [exact I|]. destruct (M_PyStubList.mem n _) eqn:M; [|reflexivity]. destruct No.
    apply mem_iff, in_map_iff in M as (i & Ei & Ii). destruct (A i) as (n' & b & -> & Nn'); [apply in_app_iff; now left|].
    rewrite (E n' b Nn') in Ei. subst n'. eauto.
Qed.
Print Assumptions C121_difference_partial.
(** Entries of other kinds hide functions: src:a=discard in the first list hides fun:a=custom. *)
Theorem C121_difference_refuted : exists main item, main = [115; 114; 99; 58; 97; 61; 100; 105; 115; 99; 97; 114; 100] ++ [10] /\ item = [102; 117; 110; 58; 97; 61; 99; 117; 115; 116; 111; 109] ++ [10] /\ list_diff [main] [item] = [].
Proof. eexists _, _. split; [reflexivity|]. split; [reflexivity|]. reflexivity. Qed.
Print Assumptions C121_difference_refuted.

Example C121_case :
  let s := mkSym [49; 50] (repeat 97 16) [55] Func Weak Hidden (Sec [49; 50]) (t_dfsw ++ [103; 64; 64; 86]) in
  let u := mkSym [49; 51] (repeat 97 16) [48] Func Global Default Und [104] in
  real s /\ fits s /\ callable s /\ named s (t_dfsw ++ [103]) /\ source_name (t_dfsw ++ [103]) [103] /\ ~ callable u /\
  stublist (map line_of [s; u; s]) = [t_fun ++ [103] ++ t_uninst; t_fun ++ [103] ++ t_discard].
Proof.
  cbv zeta. split; [apply real_intro; reflexivity|].
  split; [repeat split; cbn; lia|]. split; [repeat split; auto; discriminate|].
  split; [split; [cbn; intros H; repeat (destruct H as [H|H]; [discriminate|]); exact H|right; exists [64; 86]; reflexivity]|].
  split; [split; [|auto]; intros a b; split; intros E; apply (f_equal (@length N)) in E; rewrite !app_length in E; cbn in E; lia|].
  split; [|reflexivity]. intros (_ & _ & H). now apply H.
Qed.
