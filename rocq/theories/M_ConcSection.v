(** SectionBase::write and its callers under concurrency,
    polytracker/include/taintdag/section.h:25-170.  The mutex is explicit; the section
    pointer, the memory and the lock are shared. *)
From Coq Require Import NArith List.
From Verif Require Import M_Base M_Memory M_Section M_Conc.
Import ListNotations.
Open Scope N_scope.

(** One finished call: the bytes to be stored and the answer (address, or refusal). *)
Definition answer : Type := list N * option N.

Record sshared := mkSs {
  ss_mem : mem;
  ss_sect : sect;
  ss_lock : option N;         (* m_: the thread that holds it *)
  ss_log : list answer
}.

(** Where a thread is inside a call.  [record] are the bytes the caller constructs in the
    granted memory (one object, or the sequence generated by construct_range). *)
Inductive sthread : Type :=
| SIdle (todo : list (list N))
| SLocked (record : list N) (todo : list (list N))                       (* section.h:56 done *)
| SWriting (record : list N) (p : N) (done : N) (todo : list (list N))   (* granted at p, [done] bytes stored *)
| SRefused (record : list N) (todo : list (list N)).                     (* section.h:61-63 *)

Definition sstep (i : N) (_ : unit) (t : sthread) (s : sshared) : option (sthread * sshared) :=
  match t with
  | SIdle [] => None
  | SIdle (r :: todo) =>
      (* std::unique_lock l{m_}, section.h:56: blocks while another thread holds it *)
      match ss_lock s with
      | None => Some (SLocked r todo, mkSs (ss_mem s) (ss_sect s) (Some i) (ss_log s))
      | Some _ => None
      end
  | SLocked r todo =>
      (* the bounds check and std::exchange(write_it_, ...), section.h:58-70 *)
      match sect_write (ss_sect s) (len r) with
      | Some (p, s') => Some (SWriting r p 0 todo, mkSs (ss_mem s) s' (ss_lock s) (ss_log s))
      | None => Some (SRefused r todo, s)
      end
  | SWriting r p k todo =>
      match get r k with
      | Some b =>
          (* placement new / generator, section.h:143, 161: one byte per step *)
          Some (SWriting r p (k + 1) todo,
                mkSs (store (ss_mem s) (p + k) [b]) (ss_sect s) (ss_lock s) (ss_log s))
      | None =>
          (* the write context is destroyed: the mutex is released *)
          Some (SIdle todo, mkSs (ss_mem s) (ss_sect s) None (ss_log s ++ [(r, Some p)]))
      end
  | SRefused r todo =>
      Some (SIdle todo, mkSs (ss_mem s) (ss_sect s) None (ss_log s ++ [(r, None)]))
  end.

Definition sstart (m : mem) (s : sect) (progs : list (list (list N))) : sshared * list sthread :=
  (mkSs m s None [], map SIdle progs).
