(** Property C124: the commands of polytracker. *)
From Coq Require Import NArith List Bool Lia.
From Verif Require Import M_Base M_PyPlugins S_Plugins P_Base P_PyPlugins.
Import ListNotations.
Open Scope N_scope.

(** C124.  After every history of definitions as documented, all of which succeed: the words
    of a command or subcommand run it once, then each of its extensions once in the order of
    their definitions, and nothing else; without extensions the status of the program is its
    result; other words run nothing.  (Missing: the status with extensions, and other
    histories, for which it is false, see below.) *)
Theorem C124_runs_partial : forall ds r value fuel, documented ds -> define_all no_classes ds = (r, true) -> (length ds < fuel)%nat ->
  (forall i words, called ds i words -> exists s,
     main fuel value r words = Ok (RanCommand i :: map (fun e => RanExtension e i) (extensions ds i), s) /\
     (extensions ds i = [] -> forall n, value i = Some n -> s = n) /\ (extensions ds i = [] -> value i = None -> s = 0)) /\
  (forall words, (forall i, ~ called ds i words) -> main fuel value r words = Exit).
Proof.
  intros ds r value fuel D E L. pose proof (define_all_inv ds r D E) as V. split.
  - intros i words C. unfold main. rewrite (built ds r D V fuel L), (proj2 (resolve_called ds r D V words i) C), (iv_exts ds r V).
    destruct (extensions ds i) as [|e es]; eexists; (split; [reflexivity|]); split; try discriminate.
    + intros _ n ->. reflexivity.
    + intros _ ->. reflexivity.
  - intros words N1. unfold main. rewrite (built ds r D V fuel L). destruct (resolve r words) as [i|] eqn:R; [|reflexivity].
    exfalso. apply (N1 i). apply (resolve_called ds r D V). assumption.
Qed.
Print Assumptions C124_runs_partial.

(** C124.  The words of a class are its own: no two classes are called by the same words. *)
Theorem C124_unique : forall ds r i j words, documented ds -> define_all no_classes ds = (r, true) ->
  called ds i words -> called ds j words -> i = j.
Proof.
  intros ds r i j words D E A B. pose proof (define_all_inv ds r D E) as V.
  apply (resolve_called ds r D V) in A. apply (resolve_called ds r D V) in B. congruence.
Qed.
Print Assumptions C124_unique.

(** C124.  The full name of a command or subcommand, which the help shows, is what is typed. *)
Theorem C124_full_name : forall ds i words, documented ds -> called ds i words -> full_name ds i = join_blanks words.
Proof.
  intros ds i words D C. unfold full_name. rewrite (stack_called ds i words D C); [rewrite rev_involutive; reflexivity|].
  destruct C as [i c A _|i c p ws A _ _ _]; apply nth_error_Some; congruence.
Qed.
Print Assumptions C124_full_name.

(** C124.  All definitions succeed if no name contains "_" and no two classes have both the
    same name and parents of the same name.  (Missing: that it is enough if no two classes are
    called by the same words, which is false, see below.) *)
Theorem C124_defined_partial : forall ds, documented ds ->
  (forall i c, nth_error ds i = Some c -> ~ In 95 (cname c)) -> NoDup (map (names_of ds) ds) ->
  snd (define_all no_classes ds) = true.
Proof. exact all_defined. Qed.
Print Assumptions C124_defined_partial.

(** polytracker foo asdf, as in the documentation, with two extensions of foo and a subcommand
    of asdf. *)
Definition foo : list N := [102; 111; 111].
Definition asdf : list N := [97; 115; 100; 102].
Definition command (n : list N) : cls := mkCls KCommand n None true None.
Definition subcommand (n : list N) (p : nat) : cls := mkCls KSubcommand n None true (Some p).
Definition extension (n : list N) (p : nat) : cls := mkCls KExtension n None true (Some p).
Definition plain : list cls :=
  [command foo; extension [120] 0; subcommand asdf 0; command [98]; extension [121] 0; subcommand foo 2].
Example C124_case : documented plain /\ snd (define_all no_classes plain) = true /\
  called plain 5 [foo; asdf; foo] /\ called plain 0 [foo] /\ extensions plain 0 = [1; 4]%nat /\ extensions plain 5 = [] /\
  (forall i c, nth_error plain i = Some c -> ~ In 95 (cname c)) /\ NoDup (map (names_of plain) plain) /\
  full_name plain 5 = [102; 111; 111; 32; 97; 115; 100; 102; 32; 102; 111; 111].
Proof.
  assert (C0 : called plain 0 [foo]) by (apply (called_command plain 0 (command foo)); reflexivity).
  assert (C2 : called plain 2 [foo; asdf]) by (apply (called_sub plain 2 (subcommand asdf 0) 0 [foo]); [reflexivity|reflexivity|reflexivity|assumption]).
  split; [|split; [reflexivity|split; [|split; [assumption|split; [reflexivity|split; [reflexivity|split; [|split; [|reflexivity]]]]]]]].
  - intros i c H. destruct i as [|[|[|[|[|[|i]]]]]]; [| | | | | |destruct i; discriminate]; cbn in H; inversion H; subst; cbn; (split; [reflexivity|]); (split; [reflexivity|]); try reflexivity;
      eexists _, _; (split; [reflexivity|]); (split; [lia|]); (split; [reflexivity|]); discriminate.
  - apply (called_sub plain 5 (subcommand foo 2) 2 [foo; asdf]); [reflexivity|reflexivity|reflexivity|assumption].
  - intros i c H. destruct i as [|[|[|[|[|[|i]]]]]]; [| | | | | |destruct i; discriminate]; cbn in H; inversion H; subst; cbn; intuition discriminate.
  - repeat constructor; cbn; intuition discriminate.
Qed.

(** Refuted: the status of a command that has an extension.  The command fails with 1, the
    program reports success. *)
Theorem C124_status_refuted : exists r, define_all no_classes [command foo; extension [120] 0] = (r, true) /\
  main 9 (fun _ => Some 1) r [foo] = Ok ([RanCommand 0; RanExtension 1 0], 0).
Proof. eexists. split; vm_compute; reflexivity. Qed.
Print Assumptions C124_status_refuted.

(** Refuted: that a class whose definition fails is not run.  The extension has the name of a
    subcommand of the same command: a TypeError, but it is run. *)
Theorem C124_failed_refuted : exists r, define_all no_classes [command foo; subcommand [120] 0; extension [120] 0] = (r, false) /\
  main 9 (fun _ => Some 1) r [foo] = Ok ([RanCommand 0; RanExtension 2 0], 0).
Proof. eexists. split; vm_compute; reflexivity. Qed.
Print Assumptions C124_failed_refuted.

(** Refuted: that classes called by different words do not clash.  foo x y and b x y cannot
    both be defined, nor foo x and the command foo_x. *)
Theorem C124_clash_refuted :
  (exists a b, nth_error [command foo; subcommand [120] 0; subcommand [121] 1; command [98]; subcommand [120] 3; subcommand [121] 4] 2 = Some a /\
     nth_error [command foo; subcommand [120] 0; subcommand [121] 1; command [98]; subcommand [120] 3; subcommand [121] 4] 5 = Some b /\
     snd (define_all no_classes [command foo; subcommand [120] 0; subcommand [121] 1; command [98]; subcommand [120] 3]) = true /\
     snd (define_all no_classes [command foo; subcommand [120] 0; subcommand [121] 1; command [98]; subcommand [120] 3; subcommand [121] 4]) = false) /\
  snd (define_all no_classes [command foo; subcommand [120] 0; command (foo ++ [95; 120])]) = false.
Proof. split; [eexists _, _; split; [reflexivity|]; split; [reflexivity|]; split|]; vm_compute; reflexivity. Qed.
Print Assumptions C124_clash_refuted.

(** Refuted: that a command keeps its name.  A second command with the same name and another
    plugin_name takes its place without an error. *)
Theorem C124_replaced_refuted : exists r, define_all no_classes [command foo; mkCls KCommand foo (Some [120]) true None] = (r, true) /\
  main 9 (fun _ => Some 1) r [foo] = Ok ([RanCommand 1], 1).
Proof. eexists. split; vm_compute; reflexivity. Qed.
Print Assumptions C124_replaced_refuted.

(** Refuted: that a subcommand that is not well defined harms only itself.  One without help
    is accepted, and then no command of polytracker can be run. *)
Theorem C124_help_refuted : exists r, define_all no_classes [command foo; command [98]; mkCls KSubcommand [120] None false (Some 0%nat)] = (r, true) /\
  forall words, main 9 (fun _ => Some 1) r words = Exit.
Proof. eexists. split; [vm_compute; reflexivity|]. intro words. reflexivity. Qed.
Print Assumptions C124_help_refuted.
