(** Model of polytracker/include/taintdag/control_flow_log.h. *)
From Coq Require Import NArith List Bool.
From Verif Require Import M_Base M_Memory M_Section.
Import ListNotations.
Open Scope N_scope.

(** detail::varint_encode, control_flow_log.h:23-31: the bytes written to the buffer.
    The loop shifts a uint32_t right by 7, so at most 4 iterations; [fuel] counts them. *)
Fixpoint varint_loop (fuel : nat) (val : N) : list N :=
  match fuel with
  | O => [N.land val 127]
  | S f => if 128 <=? val
           then N.lor 128 (N.land val 127) :: varint_loop f (N.shiftr val 7)
           else [N.land val 127]
  end.
Definition varint_encode (val : N) : list N := varint_loop 5 val.

(** control_flow_log.h:42-44. *)
Definition cf_tag : N := 8.
Definition cf_align_of : N := 1.
Definition cf_allocation_size : N := 1073741824.

(** control_flow_log.h:36-40. *)
Inductive cf_event : Type :=
| CfEnter (fid : N)
| CfLeave (fid : N)
| CfTainted (label fid : N).

(** The buffer assembled by function_event (50-53) and tainted_control_flow (72-77). *)
Definition cf_buffer (e : cf_event) : list N :=
  match e with
  | CfEnter fid => 0 :: varint_encode fid
  | CfLeave fid => 1 :: varint_encode fid
  | CfTainted label fid => 2 :: varint_encode fid ++ varint_encode label
  end.

(** The size of the stack buffer: 6 in function_event, 11 in tainted_control_flow. *)
Definition cf_buffer_size (e : cf_event) : N :=
  match e with CfTainted _ _ => 11 | _ => 6 end.

(** function_event and tainted_control_flow, control_flow_log.h:49-61, 70-85; writing
    past the stack buffer would be [UB]. *)
Definition cf_log (m : mem) (s : sect) (e : cf_event) : Res (mem * sect) :=
  let buf := cf_buffer e in
  if cf_buffer_size e <? len buf then UB
  else match sect_write s (len buf) with
       | Some (p, s') => Ok (store m p buf, s')
       | None => Exit
       end.
