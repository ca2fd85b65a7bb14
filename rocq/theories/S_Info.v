(** What the lines printed by "polytracker info" should say about a run. *)
From Coq Require Import NArith ZArith List Bool.
From Verif Require Import M_Base M_Functions M_PyNode M_PySections M_PyFile M_PyInfo S_Api.
Import ListNotations.
Open Scope N_scope.

(** A node says of a label what it was made from, and only bytes that affected control flow are
    said to do so. *)
Definition describes (s : ast) (l : N) (n : py_node) : Prop :=
  match n with
  | PyUntainted => False
  | PySource i o cf => (forall b, In b (a_lab s l) <-> b = (i, o)) /\ (cf = true -> In (i, o) (a_cf s))
  | PyRange f la cf =>
      (forall b, In b (a_lab s l) <-> exists k, f <= k <= la /\ In b (a_lab s k)) /\
      (cf = true -> forall b, In b (a_lab s l) -> In b (a_cf s))
  | PyUnion x y cf =>
      (forall b, In b (a_lab s l) <-> In b (a_lab s x) \/ In b (a_lab s y)) /\
      (cf = true -> forall b, In b (a_lab s l) -> In b (a_cf s))
  end.

(** The elements of a list with their positions. *)
Definition with_positions {A} (l : list A) : list (N * A) := combine (map N.of_nat (seq 0 (length l))) l.
(** The lines for the parts of a run. *)
Definition file_line (p : N * list N) (x : info_line) : Prop := x = IFile (fst p) (py_path_of (snd p)).
Definition function_line (p : N * list N) (x : info_line) : Prop := x = IFunction (fst p) (snd p).
Definition sink_line (s : ast) (out : N * N * list byte_id) (x : info_line) : Prop :=
  let '(i, pos, bs) := out in
  exists l n, x = ISink (mkSink (Z.of_N pos) l i) n /\ describes s l n /\ forall b, In b (a_lab s l) <-> In b bs.
Definition node_line (s : ast) (l : N) (x : info_line) : Prop := exists n, x = INode l n /\ describes s l n.
Definition event_line (e : event_kind * N) (x : info_line) : Prop := x = IEvent (fst e) (snd e).
Definition if_asked (b : bool) (P : list info_line -> Prop) (l : list info_line) : Prop := if b then P l else l = [].
