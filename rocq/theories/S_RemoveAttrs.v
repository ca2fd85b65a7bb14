(** What attributes allow an optimiser to assume (LLVM language reference, function attributes). *)
From Coq Require Import NArith List Bool.
From Verif Require Import M_Base M_RemoveAttrs.
Import ListNotations.
Open Scope N_scope.

(** The attributes of a call: its own and those of the function called. *)
Definition callee_attr (m : list func) (name : list N) (a : attr) : Prop := exists f, In f m /\ f_name f = name /\ In a (f_attrs f).
Definition holds (m : list func) (i : instr) (a : attr) : Prop :=
  match i with
  | ICall _ c l => In a l \/ exists name, c = Some name /\ callee_attr m name a
  | IOther _ => False
  end.
(** The call writes nothing that its pointer arguments lead to, such as the label of the value
    that a wrapper returns. *)
Definition keeps_arguments (m : list func) (i : instr) : Prop :=
  holds m i ReadOnly \/ holds m i ReadNone \/ holds m i InaccessibleMemOnly.
(** The call writes no other memory of the program, such as the labels of memory and those passed
    between functions. *)
Definition keeps_globals (m : list func) (i : instr) : Prop :=
  keeps_arguments m i \/ holds m i ArgMemOnly \/ holds m i InaccessibleMemOrArgMemOnly.
(** The call has no effect: two calls with the same arguments may become one. *)
Definition no_effect (m : list func) (i : instr) : Prop := holds m i ReadNone.

Definition is_call_of (m : list func) (i : instr) (name : list N) : Prop :=
  exists f l, In f m /\ In i (f_body f) /\ i = ICall Plain (Some name) l.

(** The same program up to the marks that are removed. *)
Definition same_attrs (touched : Prop) (l l' : list attr) : Prop :=
  (~ touched -> l' = l) /\
  forall a, a <> ReadOnly -> a <> InaccessibleMemOnly -> a <> InaccessibleMemOrArgMemOnly -> (In a l' <-> In a l).
Definition touched_name (name : list N) : Prop := (exists n, name = s_dfsw ++ n) \/ (exists n, name = s_dfs ++ n).
Definition same_instr (i i' : instr) : Prop :=
  match i, i' with
  | IOther n, IOther n' => n' = n
  | ICall k c l, ICall k' c' l' => k' = k /\ c' = c /\ same_attrs (k = Plain /\ exists n, c = Some n /\ touched_name n) l l'
  | _, _ => False
  end.
Definition same_func (f f' : func) : Prop :=
  f_name f' = f_name f /\ f_void f' = f_void f /\ same_attrs (touched_name (f_name f)) (f_attrs f) (f_attrs f') /\ Forall2 same_instr (f_body f) (f_body f').
