(** The address space on every platform the runtime supports:
    polytracker/src/compiler-rt/lib/dfsan/dfsan_platform.h, dfsan.h, dfsan_flush and dfsan_init in
    dfsan.cpp, and the addresses computed by instrumented code (DataFlowSanitizer.cpp).

    Simplifications: big- and little-endian variants are one; a mapping of fresh pages makes every
    byte zero (the kernel), and what was there is lost; page protection is not modelled. *)
From Coq Require Import NArith List Bool.
From Verif Require Import M_Base M_Memory M_Dfsan.
Import ListNotations.
Open Scope N_scope.

Inductive platform : Type := X86_64 | Mips64 | Aarch64_39 | Aarch64_42 | Aarch64_48.

(** kShadowAddr, dfsan_platform.h:21, 29, 36, 43, 50. *)
Definition k_shadow (a : platform) : N := 0x10000.
(** kUnionTableAddr, dfsan_platform.h:23, 30, 37, 44, 51; UnusedAddr, dfsan.cpp:180-183. *)
Definition k_union_table (a : platform) : N :=
  match a with
  | X86_64 => 0x400000000000
  | Mips64 => 0x2000000000
  | Aarch64_39 => 0x1000000000
  | Aarch64_42 | Aarch64_48 => 0x8000000000
  end.
(** kAppAddr, dfsan_platform.h:24, 31, 38, 45, 52. *)
Definition k_app (a : platform) : N :=
  match a with
  | X86_64 => 0x700000008000
  | Mips64 => 0xF000008000
  | Aarch64_39 => 0x7000008000
  | Aarch64_42 => 0x3ff00008000
  | Aarch64_48 => 0xffff00008000
  end.
(** The bits cleared by kShadowMask, dfsan_platform.h:25, 32, 39, 46, 53. *)
Definition k_cleared (a : platform) : N :=
  match a with
  | X86_64 => 0x700000000000
  | Mips64 => 0xF000000000
  | Aarch64_39 => 0x7800000000
  | Aarch64_42 => 0x3c000000000
  | Aarch64_48 => 0xfffff0000000
  end.
Definition k_mask (a : platform) : N := two64 - 1 - k_cleared a.
(** shadow_for, dfsan.h:69-72. *)
Definition shadow_on (a : platform) (p : N) : N := N.shiftl (N.land p (k_mask a)) 2 mod two64.

(** The mask used by instrumented code, DataFlowSanitizer.cpp:1056-1075 and 1801-1811: a constant,
    or the variable set by the runtime, dfsan.cpp:938-951. *)
Definition pass_mask (a : platform) : N :=
  match a with
  | X86_64 => two64 - 1 - 0x700000000000
  | Mips64 => two64 - 1 - 0xF000000000
  | Aarch64_39 | Aarch64_42 | Aarch64_48 => k_mask a
  end.
(** getShadowAddress, DataFlowSanitizer.cpp:1835-1850: a multiplication by ShadowWidthBytes = 32 / 8
    (782-783, 1052). *)
Definition pass_shadow (a : platform) (p : N) : N := (N.land p (pass_mask a) * (32 / 8)) mod two64.

(** dfsan_flush, dfsan.cpp:969-972. *)
Definition flush (a : platform) (m : mem) : mem := fill m (k_shadow a) (k_union_table a - k_shadow a) 0.
(** The label of a byte. *)
Definition label_on (a : platform) (m : mem) (p : N) : N := load_int m (shadow_on a p) 4.
