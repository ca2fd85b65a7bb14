(** What a comparison of two logs shows. *)
From Coq Require Import NArith ZArith List Sorted.
From Verif Require Import M_Base M_PySections M_PyFile M_PyAnalysis M_PyCompare S_Provenance S_Api S_PyAnalysis.
Import ListNotations.
Open Scope N_scope.

(** The lines show two logs: both in order and in full, side by side only where the offsets are
    the same, with the stacks if they differ; a record stands alone only if the other log is at
    its end or at a record with other offsets. *)
Inductive shows : list entry -> list entry -> list row -> Prop :=
| shows_end : shows [] [] []
| shows_both o sd sr dbg rel x rows : (sd = sr -> x = Nothing) -> (sd <> sr -> x = Differ sd sr) ->
    shows dbg rel rows -> shows ((o, sd) :: dbg) ((o, sr) :: rel) ((Offsets o, Offsets o, x) :: rows)
| shows_dbg o s o' s' dbg rel rows : o <> o' -> shows dbg ((o', s') :: rel) rows ->
    shows ((o, s) :: dbg) ((o', s') :: rel) ((Offsets o, Blank, Stack s) :: rows)
| shows_rel o s o' s' dbg rel rows : o <> o' -> shows ((o, s) :: dbg) rel rows ->
    shows ((o, s) :: dbg) ((o', s') :: rel) ((Blank, Offsets o', Stack s') :: rows)
| shows_dbg_end e dbg rows : shows dbg [] rows -> shows (e :: dbg) [] ((Whole e, Blank, Nothing) :: rows)
| shows_rel_end e rel rows : shows [] rel rows -> shows [] (e :: rel) ((Blank, Whole e, Nothing) :: rows).

(** A log and the same log with further records put in. *)
Inductive item := Same (o : list N) (s s' : list (list N)) | New (o : list N) (s : list (list N)).
Definition put (e : entry) : item := New (fst e) (snd e).
Fixpoint old_log (l : list item) : list entry :=
  match l with [] => [] | Same o s _ :: r => (o, s) :: old_log r | New _ _ :: r => old_log r end.
Fixpoint new_log (l : list item) : list entry :=
  match l with [] => [] | Same o _ s :: r => (o, s) :: new_log r | New o s :: r => (o, s) :: new_log r end.
(** The new records have offsets the old log does not have. *)
Definition fresh (l : list item) : Prop := forall o s e, In (New o s) l -> In e (old_log l) -> fst e <> o.
(** Before a record of the old log with [k] records after it, at most [room k] are put in. *)
Definition sparse (room : N -> N) (l : list item) : Prop := forall pre new o s s' post,
  l = pre ++ map put new ++ Same o s s' :: post -> len new <= room (len (old_log post)).
Definition stacks_differ (s s' : list (list N)) : extra :=
  if list_eqb (list_eqb N.eqb) s s' then Nothing else Differ s s'.
(** The lines that show them, with the old log on the left or on the right. *)
Fixpoint rows_left (l : list item) : list row :=
  match l with
  | [] => []
  | Same o s s' :: r => (Offsets o, Offsets o, stacks_differ s s') :: rows_left r
  | New o s :: r => (match old_log r with [] => (Blank, Whole (o, s), Nothing) | _ => (Blank, Offsets o, Stack s) end) :: rows_left r
  end.
Fixpoint rows_right (l : list item) : list row :=
  match l with
  | [] => []
  | Same o s s' :: r => (Offsets o, Offsets o, stacks_differ s' s) :: rows_right r
  | New o s :: r => (match old_log r with [] => (Whole (o, s), Blank, Nothing) | _ => (Offsets o, Blank, Stack s) end) :: rows_right r
  end.

(** The tainted records among what a log reports: stack and label. *)
Fixpoint tainted_of {A} (evs : list (py_cf_event A)) : list (list A * N) :=
  match evs with
  | [] => []
  | PyTainted stack label :: r => (stack, label) :: tainted_of r
  | _ :: r => tainted_of r
  end.
(** [es] are these records with the offsets, in order, of the bytes each label stands for. *)
Definition records (s : ast) (tainted : list (list (list N) * N)) (es : list entry) : Prop :=
  Forall2 (fun e ev => snd e = fst ev /\ StronglySorted N.le (fst e) /\
                       forall o, In o (fst e) <-> exists i, In (i, o) (a_lab s (snd ev))) es tainted.

(** What a position of an output file depends on in a run, and where a byte of an input goes. *)
Definition inputs_of (s : ast) (paths : list (list N)) (k : file_offset_out) (v : file_offset_in) : Prop :=
  depends s paths (fst v) (snd v) (fst k) (snd k).
Definition outputs_of (s : ast) (paths : list (list N)) (k : file_offset_in) (v : file_offset_out) : Prop :=
  depends s paths (fst k) (snd k) (fst v) (snd v).
(** [report] tells, for two relations, which keys of the first have other values in the second,
    with the values in both. *)
Definition tells {K V} (R R' : K -> V -> Prop) (report : list (K * list V * list V)) : Prop :=
  NoDup (map (fun x => fst (fst x)) report) /\
  (forall k, (exists A B, In (k, A, B) report) <-> (exists v, R k v) /\ ~ (forall v, R k v <-> R' k v)) /\
  (forall k A B, In (k, A, B) report -> (forall v, In v A <-> R k v) /\ (forall v, In v B <-> R' k v)).
