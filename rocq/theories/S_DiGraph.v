(** Specification vocabulary for questions to graphs that are being built, and for basic
    blocks. *)
From Coq Require Import NArith ZArith List.
From Verif Require Import M_Base M_PyGraph M_PyDiGraph S_Graph S_Dominators.
Import ListNotations.

(** ** Building and asking *)
Inductive edit := AddNode (v : Z) | AddEdge (u v : Z).
Definition apply_edit (o : dgraph) (e : edit) : dgraph :=
  match e with AddNode v => dg_add_node o v | AddEdge u v => dg_add_edge o u v end.
Definition build (es : list edit) : dgraph := fold_left apply_edit es dg_new.

Inductive question := QLength (a b : Z) | QRoots | QDepth (n : Z).
(** An answer; a depth may also be refused ([None]). *)
Inductive answer := ALength (n : option nat) | ARoots (l : list Z) | ADepth (n : option (option nat)).
Definition ask (o : dgraph) (q : question) : answer * dgraph :=
  match q with
  | QLength a b => let (v, o') := path_length o a b in (ALength v, o')
  | QRoots => let (l, o') := roots o in (ARoots l, o')
  | QDepth n => match depth o n with Ok (v, o') => (ADepth (Some v), o') | _ => (ADepth None, o) end
  end.
Fixpoint asks (o : dgraph) (qs : list question) : list answer :=
  match qs with
  | [] => []
  | q :: r => let (a, o') := ask o q in a :: asks o' r
  end.

(** What was built: the nodes named and the pairs joined. *)
Definition joined (es : list edit) : list (Z * Z) :=
  flat_map (fun e => match e with AddEdge u v => [(u, v)] | AddNode _ => [] end) es.
Definition named (es : list edit) (v : Z) : Prop :=
  In (AddNode v) es \/ exists u, In (AddEdge u v) es \/ In (AddEdge v u) es.
Definition is_root (es : list edit) (v : Z) : Prop := named es v /\ no_incoming (joined es) v.

(** The right answers, about a graph given by edits. *)
Definition right (es : list edit) (q : question) (a : answer) : Prop :=
  match q, a with
  | QLength x y, ALength (Some n) => named es x /\ distance (joined es) x y n
  | QLength x y, ALength None => ~ (named es x /\ reaches (joined es) x y)
  | QRoots, ARoots l => lists (is_root es) l
  | QDepth n, ADepth (Some (Some k)) =>
      (exists r, is_root es r /\ distance (joined es) r n k) /\
      (forall r j, is_root es r -> distance (joined es) r n j -> (k <= j)%nat)
  | QDepth n, ADepth (Some None) => (exists r, is_root es r) /\ forall r, is_root es r -> ~ reaches (joined es) r n
  | QDepth n, ADepth None => forall r, ~ is_root es r
  | _, _ => False
  end.

(** ** Basic blocks *)
Definition jumps (bs : list bblock) : list (Z * Z) := flat_map (fun b => map (fun c => (bb_id b, c)) (bb_children b)) bs.
Definition in_function (bs : list bblock) (x f : Z) : Prop := exists b, In b bs /\ bb_id b = x /\ bb_func b = f.
(** Blocks are distinct, and the predecessors of a block are the blocks that can jump to it. *)
Definition consistent (bs : list bblock) : Prop :=
  NoDup (map bb_id bs) /\
  (forall x y, In (x, y) (jumps bs) -> In y (map bb_id bs)) /\
  (forall b p, In b bs -> (In p (bb_preds b) <-> In (p, bb_id b) (jumps bs))).
(** [r] is the only block nothing jumps to. *)
Definition only_root (bs : list bblock) (r : Z) : Prop :=
  forall x, In x (map bb_id bs) /\ no_incoming (jumps bs) x <-> x = r.
(** The block [p] of the same function can jump to [b]. *)
Definition local_pred (bs : list bblock) (b : bblock) (p : Z) : Prop := In (p, bb_id b) (jumps bs) /\ in_function bs p (bb_func b).
Definition local_child (bs : list bblock) (b : bblock) (c : Z) : Prop := In (bb_id b, c) (jumps bs) /\ in_function bs c (bb_func b).
