(** Labels that a traced program asks for itself through dfsan_interface.h:
    dfsan_create_label and dfsan_get_label_count
    (polytracker/src/compiler-rt/lib/dfsan/dfsan.cpp).  Not modelled: the description and the
    user data (dfsan.cpp:309-311 no longer stores them); dfsan_get_label_info, dfsan_has_label,
    dfsan_has_label_with_desc and dfsan_dump_labels, which are commented out (747-776,
    784-801). *)
From Coq Require Import NArith List Bool.
From Verif Require Import M_Base M_Conc.
Import ListNotations.
Open Scope N_scope.

(** kInitializingLabel, dfsan.cpp:40. *)
Definition initializing_label : N := two32 - 1.

(** atomic_fetch_add(&__dfsan_last_label, 1) + 1, dfsan.cpp:306-307: the new label and the
    new value of the counter, both 32 bits wide. *)
Definition next_label (last : N) : N := (last + 1) mod two32.

(** dfsan_check_label, dfsan.cpp:191-197. *)
Definition check_label (label : N) : Res unit :=
  if label =? initializing_label then Exit else Ok tt.

(** dfsan_create_label in a program of one thread, dfsan.cpp:304-313: the label and the
    counter after the call. *)
Definition create_label (last : N) : Res (N * N) :=
  let label := next_label last in
  do _ <- check_label label;
  Ok (label, label).

(** dfsan_get_label_count, dfsan.cpp:777-783. *)
Definition label_count (last : N) : N := last.

(** The same under concurrency: the atomic addition is one step, the check and the return
    another. *)
Inductive uthread : Type :=
| UIdle                     (* outside of dfsan_create_label *)
| UAdded (label : N).       (* after the addition, line 307 *)

(** What the threads share: the counter (line 44), the labels returned so far and whether
    the program was stopped by Die (line 195). *)
Record ushared := mkUs { us_last : N; us_log : list N; us_dead : bool }.

Definition ustep (i : N) (ch : unit) (t : uthread) (s : ushared) : option (uthread * ushared) :=
  if us_dead s then None
  else match t with
       | UIdle =>
           let label := next_label (us_last s) in
           Some (UAdded label, mkUs label (us_log s) false)
       | UAdded label =>
           match check_label label with
           | Ok _ => Some (UIdle, mkUs (us_last s) (us_log s ++ [label]) false)
           | _ => Some (UAdded label, mkUs (us_last s) (us_log s) true)
           end
       end.

(** [k] threads before the first call; the counter is zero (static storage, line 44). *)
Definition ustart (k : nat) : ushared * list uthread := (mkUs 0 [] false, repeat UIdle k).
