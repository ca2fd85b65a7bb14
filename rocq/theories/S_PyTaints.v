(** Sets of input bytes, and regions of them, in plain terms. *)
From Coq Require Import NArith ZArith List Bool.
From Verif Require Import M_Base M_PyAnalysis M_PyTaints.
Import ListNotations.
Open Scope N_scope.

(** The same input: uid and path agree. *)
Definition same_input (x y : py_input) : Prop := in_uid x = in_uid y /\ in_path x = in_path y.

(** Inputs with the same uid have the same path ("uid: A unique ID for the input"). *)
Definition uids_differ (l : list pbyte) : Prop :=
  forall a b, In a l -> In b l -> in_uid (fst a) = in_uid (fst b) -> in_path (fst a) = in_path (fst b).

(** Byte [o] of input [x] is in the list. *)
Definition tainted (l : list pbyte) (x : py_input) (o : N) : Prop := exists y, In (y, o) l /\ same_input x y.

(** Byte [o] of input [x] is in the region, in one of the regions. *)
Definition within (r : region) (x : py_input) (o : N) : Prop :=
  same_input x (rg_source r) /\ rg_offset r <= o /\ o < rg_offset r + rg_length r.
Definition covered (rs : list region) (x : py_input) (o : N) : Prop := exists r, In r rs /\ within r x o.
Definition disjoint (r1 r2 : region) : Prop := forall x o, ~ (within r1 x o /\ within r2 x o).

(** There is a byte between the end of the first and the start of the second region. *)
Definition apart (r1 r2 : region) : Prop := rg_offset r1 + rg_length r1 < rg_offset r2.

(** The byte sequence [sub] is at offset [o] of [content]. *)
Definition occurs (sub content : list N) (o : N) : Prop := forall k b, get sub k = Some b -> get content (o + k) = Some b.
