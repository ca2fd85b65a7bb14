(** C81: chunks of tainted offsets. *)
From Coq Require Import NArith List Bool Lia Sorted.
From Verif Require Import M_Base M_PyChunks P_PyChunks.
Import ListNotations.
Open Scope N_scope.

(** The chunks [start, end) hold exactly the given offsets; each has at least one; they come in
    order, with at least one untainted offset between any two. *)
Theorem C81_chunks : forall offsets : list N,
  (forall x, In x offsets <-> exists s e, In (s, e) (tainted_chunks offsets) /\ s <= x /\ x < e) /\
  (forall s e, In (s, e) (tainted_chunks offsets) -> s < e) /\
  StronglySorted (fun c d => snd c < fst d) (tainted_chunks offsets).
Proof. exact chunks_ok. Qed.
Print Assumptions C81_chunks.

(** This leaves no choice: two lists of chunks with these three properties are the same. *)
Theorem C81_unique : forall (offsets : list N) (cs : list (N * N)),
  (forall x, In x offsets <-> exists s e, In (s, e) cs /\ s <= x /\ x < e) ->
  (forall s e, In (s, e) cs -> s < e) ->
  StronglySorted (fun c d => snd c < fst d) cs ->
  cs = tainted_chunks offsets.
Proof.
  intros l cs H1 H2 H3. destruct (chunks_ok l) as (G1 & G2 & G3). apply chunks_unique; auto.
  intro x. unfold covers. rewrite <- H1. apply G1.
Qed.
Print Assumptions C81_unique.

(** For all sources of a function. *)
Theorem C81_sources : forall (d : list (N * list N)) (src x : N),
  (exists offsets, In (src, offsets) d /\ In x offsets) <->
  (exists s e, In (src, (s, e)) (source_chunks d) /\ s <= x /\ x < e).
Proof. exact source_chunks_ok. Qed.
Print Assumptions C81_sources.

Example C81_case : tainted_chunks [7; 3; 4; 4; 9; 2; 8] = [(2, 5); (7, 10)] /\ tainted_chunks [] = [] /\
  source_chunks [(1, [5]); (2, [0; 2])] = [(1, (5, 6)); (2, (0, 1)); (2, (2, 3))].
Proof. vm_compute. auto. Qed.
