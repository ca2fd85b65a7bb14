(** What users of the shadow memory see: which addresses are application memory, the
    label of every application byte, and C strings. *)
From Coq Require Import NArith List.
From Verif Require Import M_Base M_Memory M_Labels M_Dfsan S_Labels.
Open Scope N_scope.

(** The application region of the documented x86-64 memory map
    (dfsan.cpp:64-100: 0x700000008000 - 0x800000000000). *)
Definition app_byte (p : N) : Prop := 0x700000008000 <= p /\ p < 0x800000000000.
Definition app_range (p n : N) : Prop := 0x700000008000 <= p /\ p + n <= 0x800000000000.

(** Address [x] is one of the four bytes of the shadow cell of application byte [p]. *)
Definition in_cell (p x : N) : Prop := shadow_for p <= x /\ x < shadow_for p + 4.

Definition within (p n q : N) : Prop := p <= q /\ q < p + n.
Definition apart (p n q k : N) : Prop := p + n <= q \/ q + k <= p.

(** The bytes of application memory are the same in both memories. *)
Definition same_app (m m' : mem) : Prop := forall x, app_byte x -> m' x = m x.

(** A label that may be stored in shadow memory: untainted or handed out by the table. *)
Definition known (t : table) (l : N) : Prop := l = 0 \/ in_use t l.

(** [k] characters and a terminator at [p]. *)
Definition c_string (m : mem) (p k : N) : Prop :=
  m (p + k) = 0 /\ forall i, i < k -> m (p + i) <> 0.
