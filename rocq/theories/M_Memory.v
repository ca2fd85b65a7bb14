(** Byte addressed memory: the mapped output file.  [mem] is total; addresses that
    were never written hold 0 (storage.h:25-35 truncates the file to zero length and
    extends it, which reads as zero bytes). *)
From Coq Require Import NArith List Bool.
From Verif Require Import M_Base.
Import ListNotations.
Open Scope N_scope.

Definition mem := N -> N.
Definition mem_zero : mem := fun _ => 0.

(** A store of consecutive bytes. *)
Definition store (m : mem) (a : N) (bs : list N) : mem :=
  fun x => if (a <=? x) && (x <? a + len bs) then nth (N.to_nat (x - a)) bs 0 else m x.

(** A load of [n] consecutive bytes. *)
Definition load (m : mem) (a n : N) : list N :=
  map m (nseq a (N.to_nat n)).

(** Little endian integers of [k] bytes in memory (x86-64). *)
Definition load_int (m : mem) (a : N) (k : nat) : N := le_val (load m a (N.of_nat k)).
Definition store_int (m : mem) (a : N) (k : nat) (v : N) : mem := store m a (le_bytes k v).
