(** The memory of applications, by the maps in dfsan.cpp:81-168. *)
From Coq Require Import NArith.
From Verif Require Import M_Base M_Memory M_DfsanLayout.
Open Scope N_scope.

Definition app_of (a : platform) (p : N) : Prop :=
  match a with
  | X86_64 => 0x700000008000 <= p < 0x800000000000
  | Mips64 => 0xF000008000 <= p < 0x10000000000
  | Aarch64_39 => 0x7000008000 <= p < 0x8000000000
  | Aarch64_42 => 0x3ff00008000 <= p < 0x40000000000
  | Aarch64_48 => 0xffff00008000 <= p < 0x1000000000000
  end.
(** No two bytes of the application share a byte of shadow memory, and shadow memory is not
    application memory. *)
Definition kept_apart (a : platform) : Prop := forall p q x, app_of a p -> app_of a q ->
  shadow_on a p <= x < shadow_on a p + 4 ->
  (p <> q -> ~ (shadow_on a q <= x < shadow_on a q + 4)) /\ ~ app_of a x.
