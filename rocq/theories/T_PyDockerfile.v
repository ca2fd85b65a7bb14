(** C127: the progress of a build is read off the lines of the Dockerfile. *)
From Coq Require Import NArith List Bool Lia Arith.
From Verif Require Import M_Base M_PyDockerfile S_Dockerfile P_PyDockerfile.
Import ListNotations.
Open Scope N_scope.

(** The length is the number of terminated lines. *)
Theorem C127_length_partial : forall lines last, (forall l, In l lines -> plain l) -> plain last ->
  num_lines (file_of lines last) = length lines.
Proof. intros. unfold num_lines. now apply newlines_length. Qed.
Print Assumptions C127_length_partial.

(** From a line of the file on, the first line equal to the command is found, its end included. *)
Theorem C127_found_partial : forall lines last command start,
  (forall l, In l lines -> plain l) -> plain last -> (start <= length lines)%nat ->
  forall n, get_line (file_of lines last) command start = Some n <->
    (start <= n)%nat /\ line_at lines last n = Some command /\
    forall j, (start <= j < n)%nat -> line_at lines last j <> Some command.
Proof. exact get_line_spec. Qed.
Print Assumptions C127_found_partial.

(** From behind the last line on, nothing is found. *)
Theorem C127_behind : forall lines last command start,
  (forall l, In l lines -> plain l) -> plain last -> (length lines < start)%nat ->
  get_line (file_of lines last) command start = None.
Proof.
  intros ls last c start P Q S. unfold get_line.
  rewrite (proj2 (nth_error_None _ _)); [easy|]. unfold line_offsets. cbn [length].
  rewrite newlines_length by assumption. lia.
Qed.
Print Assumptions C127_behind.

(** A search that succeeds can be resumed behind its result, and no line is missed. *)
Theorem C127_resume : forall lines last command start n,
  (forall l, In l lines -> plain l) -> plain last -> (start <= length lines)%nat ->
  get_line (file_of lines last) command start = Some n ->
  (n <= length lines)%nat /\ get_line (file_of lines last) command n = Some n.
Proof.
  intros ls last c start n P Q S H. apply get_line_spec in H; try assumption. destruct H as (K & H & F).
  assert (n <= length ls)%nat as N.
  { unfold line_at in H. destruct (n <? length ls)%nat eqn:A; [apply Nat.ltb_lt in A; lia|].
    destruct (n =? length ls)%nat eqn:B; [apply Nat.eqb_eq in B; lia|easy]. }
  split; [exact N|]. apply get_line_spec; try assumption. repeat split; [lia|exact H|]. intros j J. lia.
Qed.
Print Assumptions C127_resume.

(** "FROM a", "RUN b", "RUN c" and an unterminated "RUN b". *)
Definition case_lines : list (list N) := [[70; 32; 97]; [82; 32; 98]; [82; 32; 99]].
Example C127_case :
  (forall l, In l case_lines -> plain l) /\ plain [82; 32; 98]
  /\ num_lines (file_of case_lines [82; 32; 98]) = 3%nat
  /\ get_line (file_of case_lines [82; 32; 98]) [82; 32; 99; 10] 1 = Some 2%nat
  /\ get_line (file_of case_lines [82; 32; 98]) [82; 32; 98; 10] 2 = None
  /\ get_line (file_of case_lines [82; 32; 98]) [82; 32; 98] 0 = Some 3%nat.
Proof.
  repeat split; try reflexivity.
  all: unfold plain; intros; cbn in *; intuition (subst; cbn in *; intuition (subst; discriminate)).
Qed.

(** Commands come from docker without the end of their line (re: .+), and then no terminated
    line is ever found: the bar does not move, whatever the Dockerfile is. *)
Theorem C127_moves_refuted : forall lines command start,
  (forall l, In l lines -> plain l) -> plain command ->
  get_line (file_of lines []) command start = None.
Proof.
  intros ls c start P C. destruct (le_lt_dec start (length ls)) as [S|S].
  - destruct (get_line (file_of ls []) c start) as [n|] eqn:E; [|easy].
    apply get_line_spec in E; try assumption; [|intros ? []]. destruct E as (_ & H & _). exfalso.
    unfold line_at in H. destruct (n <? length ls)%nat.
    + destruct (nth_error ls n) as [l|]; [|discriminate]. cbn in H. injection H as H.
      destruct (C 10) as [X _]; [rewrite <- H; apply in_or_app; right; now left|]. now apply X.
    + destruct (n =? length ls)%nat; discriminate.
  - apply C127_behind; try assumption. intros ? [].
Qed.
Print Assumptions C127_moves_refuted.

(** A last line without an end is not counted, although it can be found. *)
Theorem C127_last_refuted : exists f, num_lines f = 1%nat /\ get_line f [66] 0 = Some 1%nat.
Proof. exists [65; 10; 66]. split; reflexivity. Qed.
Print Assumptions C127_last_refuted.

(** With a carriage return in the file the number of a line depends on where the search
    starts, and may not be a line one can start from. *)
Theorem C127_carriage_refuted : exists f command,
  get_line f command 0 = Some 2%nat /\ get_line f command 1 = Some 1%nat
  /\ get_line f command 2 = None.
Proof. exists [65; 13; 66; 10; 67; 10], [67; 10]. repeat split; reflexivity. Qed.
Print Assumptions C127_carriage_refuted.
