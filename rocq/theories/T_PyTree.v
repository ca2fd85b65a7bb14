(** C94: the parse tree extracted from a trace spells the input. *)
From Coq Require Import NArith ZArith List Bool Lia.
From Verif Require Import M_Base M_PyGrammar M_PyTree S_Grammar S_Tree P_Base P_PyTree P_PyTreeRun P_PyTreeOk T_Grammar.
Import ListNotations.
Open Scope Z_scope.

(** A tree that is returned: every node's range is exactly made up of its children's, in order,
    the leaves in order are the input, and the other nodes are calls and blocks of the trace,
    in its order. *)
Theorem C94_spells : forall input f d, sound (regions_of f) -> trace_to_non_generalized_tree input f = Ok d ->
  tiles input d /\ d_begin d = 0 /\ Z.of_nat (length input) <= d_end d /\ yield (plain d) = input /\
  pruned (Node VStart [calls f]) (plain (events d)).
Proof.
  intros input f d S E. destruct (extract_sound input f d S E) as (A & B & C & D & _ & F). auto.
Qed.
Print Assumptions C94_spells.
(** The grammar extracted from that tree accepts the input. *)
Theorem C94_grammar : forall input f d fuel, sound (regions_of f) -> trace_to_non_generalized_tree input f = Ok d ->
  (tree_size (plain d) <= fuel)%nat ->
  tree_matches fuel (plain d) = Ok input /\ exists g, parse_tree_to_grammar fuel (plain d) = Ok g /\ accepts g input.
Proof.
  intros input f d fuel S E L. destruct (extract_sound input f d S E) as (_ & _ & _ & Y & I & _).
  destruct (C74_extract fuel (plain d) I L) as (A & g & B & C). rewrite Y in *. eauto.
Qed.
Print Assumptions C94_grammar.
(** A program that reads its input from left to right, at each level of its calls, gets a tree
    with exactly the blocks and calls that read something, each with the range it read.
    Missing: programs that do not; see the refutations. *)
Theorem C94_left_to_right_partial : forall input f, input <> [] -> counted f -> within (Z.of_nat (length input)) (regions_of f) ->
  left_to_right f ->
  exists d, trace_to_non_generalized_tree input f = Ok d /\ events d = Done VStart 0 (Z.of_nat (length input)) (call_event f).
Proof. exact extract_ordered. Qed.
Print Assumptions C94_left_to_right_partial.

(** A block that reads all of the input, then two that read one byte each: there is no tree. *)
Definition rereads : invocation :=
  Invocation 1 [(2%N, 1, [(0, 10)], None); (3%N, 2, [(3, 1)], None); (4%N, 3, [(5, 1)], None)].
Theorem C94_overlap_refuted : exists input f, input <> [] /\ counted f /\ within (Z.of_nat (length input)) (regions_of f) /\
  trace_to_non_generalized_tree input f = Exit.
Proof.
  exists (repeat 65%N 10), rereads. split; [discriminate|]. split; [|split; [|reflexivity]].
  - constructor. intros bb uid rs called H. cbn in H.
    repeat (destruct H as [H|H]; [injection H as <- <- <- <-; split; [lia|discriminate]|]). destruct H.
  - intros o l H. cbn in H. repeat (destruct H as [H|H]; [injection H as <- <-; cbn; lia|]). destruct H.
Qed.
Print Assumptions C94_overlap_refuted.
(** The last reader of a byte need not get it: here block 3 reads byte 2 after block 2, and is
    not in the tree. *)
Theorem C94_last_reader_refuted : exists input f d, counted f /\ within (Z.of_nat (length input)) (regions_of f) /\
  f = Invocation 1 [(2%N, 1, [(0, 5)], None); (3%N, 2, [(2, 1)], None)] /\
  trace_to_non_generalized_tree input f = Ok d /\
  events d = Done VStart 0 5 [Done (VEvent 1 false) 0 5 [Done (VEvent 2 true) 0 5 []]].
Proof.
  exists [10; 11; 12; 13; 14]%N, (Invocation 1 [(2%N, 1, [(0, 5)], None); (3%N, 2, [(2, 1)], None)]),
    (Done VStart 0 5 [Done (VEvent 1 false) 0 5 [Done (VEvent 2 true) 0 5 [Done (VTerminal [10; 11; 12; 13; 14]%N) 0 5 []]]]).
  split; [|split; [|split; [reflexivity|split; reflexivity]]].
  - constructor. intros bb uid rs called H. cbn in H.
    repeat (destruct H as [H|H]; [injection H as <- <- <- <-; split; [lia|discriminate]|]). destruct H.
  - intros o l H. cbn in H. repeat (destruct H as [H|H]; [injection H as <- <-; cbn; lia|]). destruct H.
Qed.
Print Assumptions C94_last_reader_refuted.
(** An empty input has no tree. *)
Theorem C94_empty_refuted : forall f d, trace_to_non_generalized_tree [] f <> Ok d.
Proof.
  intros f d E. unfold trace_to_non_generalized_tree, extract, trace_tree in E. rewrite bottom_up_eq in E. cbn [length] in E.
  apply bind_ok in E. destruct E as (t & E & _). apply bind_ok in E. destruct E as (cs & _ & E). discriminate.
Qed.
Print Assumptions C94_empty_refuted.
(** A node never takes a byte from its child, although that is what deconflict_parent is for:
    whatever the child read, its intervals stay. *)
Theorem C94_parent_refuted : forall child b e ivs, child <> [] ->
  (forall i, In i child -> b <= iv_begin i < iv_end i /\ 0 <= iv_data i) ->
  deconflict_parent child [mkIv b e (-1)] = Ok ivs -> ivs = child.
Proof.
  intros child b e ivs Nn H. apply parent_same; [exact Nn|]. intros i A. specialize (H i A). lia.
Qed.
Print Assumptions C94_parent_refuted.

(** main reads bytes 0 and 1, calls a function that reads 2 to 5, reads 7, and calls one that reads nothing. *)
Definition neat_trace : invocation :=
  Invocation 1 [(2%N, 1, [(0, 1); (1, 1)], Some (Invocation 5 [(6%N, 2, [(2, 3)], None); (7%N, 3, [(5, 1)], None)])); (3%N, 4, [(7, 1)], None);
                (8%N, 5, [], Some (Invocation 9 []))].
Example C94_case :
  left_to_right neat_trace /\ counted neat_trace /\ within 10 (regions_of neat_trace) /\
  trace_to_non_generalized_tree [10; 11; 12; 13; 14; 15; 16; 17; 18; 19]%N neat_trace =
  Ok (Done VStart 0 10
       [Done (VEvent 1 false) 0 8
          [Done (VEvent 2 true) 0 2 [Done (VTerminal [10; 11]%N) 0 2 []];
           Done (VEvent 5 false) 2 6
             [Done (VEvent 6 true) 2 5 [Done (VTerminal [12; 13; 14]%N) 2 5 []];
              Done (VEvent 7 true) 5 6 [Done (VTerminal [15]%N) 5 6 []]];
           Done (VTerminal [16]%N) 6 7 [];
           Done (VEvent 3 true) 7 8 [Done (VTerminal [17]%N) 7 8 []]];
        Done (VTerminal [18; 19]%N) 8 10 []]).
Proof.
  split; [|split; [|split; [|reflexivity]]].
  - constructor; [cbn; lia|]. intros bb uid rs g H. cbn in H.
    destruct H as [H|[H|[H|[]]]]; try discriminate; injection H as <- <- <- <-.
    + constructor; [cbn; lia|]. intros bb uid rs g H. cbn in H. destruct H as [H|[H|[]]]; discriminate.
    + constructor; [exact I|]. intros bb uid rs g [].
  - constructor. intros bb uid rs called H. cbn in H. destruct H as [H|[H|[H|[]]]]; injection H as <- <- <- <-; (split; [lia|]); intros g E; try discriminate; injection E as <-;
    constructor; intros bb uid rs called H; cbn in H; [|destruct H].
    destruct H as [H|[H|[]]]; injection H as <- <- <- <-; (split; [lia|discriminate]).
  - intros o l H. cbn in H. repeat (destruct H as [H|H]; [injection H as <- <-; lia|]). destruct H.
Qed.
(** Two blocks that overlap: the later reader gets the common bytes. *)
Example C94_overlap_case :
  trace_to_non_generalized_tree [10; 11; 12; 13; 14; 15; 16; 17]%N (Invocation 1 [(2%N, 1, [(0, 5)], None); (3%N, 2, [(3, 5)], None)]) =
  Ok (Done VStart 0 8
       [Done (VEvent 1 false) 0 8
          [Done (VEvent 2 true) 0 3 [Done (VTerminal [10; 11; 12]%N) 0 3 []];
           Done (VEvent 3 true) 3 8 [Done (VTerminal [13; 14; 15; 16; 17]%N) 3 8 []]]]).
Proof. reflexivity. Qed.
