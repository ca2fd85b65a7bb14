(** Model of dfsan_print_origin_trace and dfsan_get_init_origin,
    polytracker/src/compiler-rt/lib/dfsan/dfsan.cpp (806-872).

    What is printed is a list of messages; colours, addresses and the description, which are
    only copied, are left out, and so is the text of a stack. *)
From Coq Require Import NArith List Bool.
From Verif Require Import M_Base M_DfsanChain.
Import ListNotations.
Open Scope N_scope.

Inductive message : Type :=
| NotEnabled                       (* 811-816 *)
| NoTaint                          (* 819-823 *)
| Header (label : N)               (* 827-828 *)
| Stored (origin stack : N)        (* 835-837, 841 *)
| Created (origin stack : N)       (* 838-841 *)
| Invalid (label : N).             (* 844-848 *)

(** A byte's label, and the origin of its group of four bytes (origin_for). *)
Record memory : Type := mkMemory { label_at : N -> N; origin_at : N -> N }.
Definition origin_for (m : memory) (addr : N) : N := origin_at m (addr / 4).

(** The loop, 831-843. *)
Fixpoint trace_loop (fuel : nat) (d : depot) (o : N) : Res (list message) :=
  match fuel with
  | O => Fuel
  | S k =>
      if o =? 0 then Ok []
      else match next_chained d o with
           | None => Exit
           | Some (stack, next) =>
               do r <- trace_loop k d next;
               Ok ((if next =? 0 then Created o stack else Stored o stack) :: r)
           end
  end.
(** dfsan_print_origin_trace, 806-849. *)
Definition print_origin_trace (fuel : nat) (track : bool) (d : depot) (m : memory) (addr : N) : Res (list message) :=
  if negb track then Ok [NotEnabled]
  else
    let label := label_at m addr in
    if label =? 0 then Ok [NoTaint]
    else
      do r <- trace_loop fuel d (origin_for m addr);
      Ok (Header label :: match r with [] => [Invalid label] | _ => r end).
(** dfsan_get_init_origin, 851-872. *)
Definition get_init_origin (fuel : nat) (track : bool) (d : depot) (m : memory) (addr : N) : Res N :=
  if negb track then Ok 0
  else if label_at m addr =? 0 then Ok 0
  else init_origin fuel d (origin_for m addr) (origin_for m addr).
