(** Specification: what mapping and unmapping mean for the labels of application memory. *)
From Coq Require Import NArith ZArith List Bool.
From Verif Require Import M_Base M_Memory M_Dfsan M_DfsanMap S_Dfsan.
Import ListNotations.
Open Scope N_scope.

(** Regions consist of whole pages. *)
Definition pages (n : N) : N := (n + 4095) / 4096 * 4096.
(** A labelling of application bytes, and one that differs on [n] bytes at [p]. *)
Definition labels := N -> N.
Definition relabel (f : labels) (l p n : N) : labels := fun q => if (p <=? q) && (q <? p + n) then l else f q.
(** Mapped memory and memory that is unmapped has no labels; calls that fail change nothing. *)
Definition meaning (f : labels) (o : op) : labels :=
  match o with
  | OMap n (Some a) => relabel f 0 a (pages n)
  | OMap n None => f
  | OUnmap a n res => if (res =? -1)%Z then f else relabel f 0 a (pages n)
  | OLabel l a n => relabel f l a n
  end.
(** The regions are in application memory (below its last byte, see C36). *)
Definition op_ok (o : op) : Prop :=
  match o with
  | OMap n (Some a) => app_range a (pages n) /\ a + pages n < 0x800000000000
  | OMap n None => True
  | OUnmap a n _ => app_range a (pages n) /\ a + pages n < 0x800000000000
  | OLabel l a n => l < 2 ^ 32 /\ app_range a n /\ a + n < 0x800000000000
  end.

(** ** Several threads *)
(** [l] is an interleaving of the action lists of threads: each action with its thread. *)
Definition of_thread (t : N) (l : list (N * act)) : list act := map snd (filter (fun x => fst x =? t) l).
(** The kernel hands out memory that is not mapped, and unmaps what the thread itself mapped:
    the owner of each byte. *)
Definition owners := N -> option N.
Definition set_owner (o : owners) (v : option N) (p n : N) : owners := fun q => if (p <=? q) && (q <? p + n) then v else o q.
Inductive kernel_ok : owners -> list (N * act) -> owners -> Prop :=
| ko_nil o : kernel_ok o [] o
| ko_map o t p n l o' : (forall q, within p (pages n) q -> o q = None) -> kernel_ok (set_owner o (Some t) p (pages n)) l o' ->
    kernel_ok o ((t, AMap p n) :: l) o'
| ko_unmap o t p n l o' : (forall q, within p (pages n) q -> o q = Some t) -> kernel_ok (set_owner o None p (pages n)) l o' ->
    kernel_ok o ((t, AUnmap p n) :: l) o'
| ko_label o t lb p n l o' : kernel_ok o l o' -> kernel_ok o ((t, ALabel lb p n) :: l) o'.
