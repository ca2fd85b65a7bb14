(** C118: the layout of memory and forgetting of all labels. *)
From Coq Require Import NArith List Bool Lia.
From Verif Require Import M_Base M_Memory M_Dfsan M_DfsanLayout S_Dfsan S_DfsanLayout P_Base P_Memory P_Dfsan.
Import ListNotations.
Open Scope N_scope.

(** Instrumented code and the runtime use the same address for the label of every byte. *)
Theorem C118_agree : forall a p, pass_shadow a p = shadow_on a p.
Proof.
  intros a p. unfold pass_shadow, shadow_on. rewrite N.shiftl_mul_pow2. destruct a; reflexivity.
Qed.
Print Assumptions C118_agree.

Lemma low_bits p hi lo mask : p < 2 ^ hi -> N.land (N.ones hi) mask = N.ones lo -> N.land p mask = p mod 2 ^ lo.
Proof.
  intros H E. assert (P : p = N.land p (N.ones hi)) by (rewrite N.land_ones, N.mod_small; auto).
  rewrite P at 1. rewrite <- N.land_assoc, E. apply N.land_ones.
Qed.
Lemma shadow_x86 p : app_of X86_64 p -> shadow_on X86_64 p = 4 * (p - 0x700000000000).
Proof.
  cbn [app_of]. intros H. unfold shadow_on. rewrite (low_bits p 47 44) by (try reflexivity; change (2 ^ 47) with 0x800000000000; lia).
  replace (p mod 2 ^ 44) with (p - 0x700000000000).
  - rewrite N.shiftl_mul_pow2. change (2 ^ 2) with 4. rewrite N.mod_small by (unfold two64; lia). lia.
  - change (2 ^ 44) with 17592186044416. apply N.mod_unique with 7; lia.
Qed.
Lemma shadow_mips p : app_of Mips64 p -> shadow_on Mips64 p = 4 * (p - 0xF000000000).
Proof.
  cbn [app_of]. intros H. unfold shadow_on. rewrite (low_bits p 40 36) by (try reflexivity; change (2 ^ 40) with 0x10000000000; lia).
  replace (p mod 2 ^ 36) with (p - 0xF000000000).
  - rewrite N.shiftl_mul_pow2. change (2 ^ 2) with 4. rewrite N.mod_small by (unfold two64; lia). lia.
  - change (2 ^ 36) with 0x1000000000. apply N.mod_unique with 15; lia.
Qed.
Lemma shadow_aarch42 p : app_of Aarch64_42 p -> shadow_on Aarch64_42 p = 4 * (p - 0x3c000000000).
Proof.
  cbn [app_of]. intros H. unfold shadow_on. rewrite (low_bits p 42 38) by (try reflexivity; change (2 ^ 42) with 0x40000000000; lia).
  replace (p mod 2 ^ 38) with (p - 0x3c000000000).
  - rewrite N.shiftl_mul_pow2. change (2 ^ 2) with 4. rewrite N.mod_small by (unfold two64; lia). lia.
  - change (2 ^ 38) with 0x4000000000. apply N.mod_unique with 15; lia.
Qed.

(** Labels of different bytes are kept apart on three of the five. *)
Theorem C118_apart_partial : kept_apart X86_64 /\ kept_apart Mips64 /\ kept_apart Aarch64_42.
Proof.
  split; [|split]; intros p q x P Q C.
  - rewrite (shadow_x86 p P) in C. rewrite (shadow_x86 q Q). cbn [app_of] in *. lia.
  - rewrite (shadow_mips p P) in C. rewrite (shadow_mips q Q). cbn [app_of] in *. lia.
  - rewrite (shadow_aarch42 p P) in C. rewrite (shadow_aarch42 q Q). cbn [app_of] in *. lia.
Qed.
Print Assumptions C118_apart_partial.
(** On the other two, bytes that are 32 GB, and 256 MB, apart have one label. *)
Theorem C118_apart_refuted :
  (forall p, p + 0x800000000 < 0x8000000000 -> app_of Aarch64_39 p -> app_of Aarch64_39 (p + 0x800000000) /\ shadow_on Aarch64_39 (p + 0x800000000) = shadow_on Aarch64_39 p) /\
  (forall p, p + 0x10000000 < 0x1000000000000 -> app_of Aarch64_48 p -> app_of Aarch64_48 (p + 0x10000000) /\ shadow_on Aarch64_48 (p + 0x10000000) = shadow_on Aarch64_48 p).
Proof.
  split; intros p H A; (split; [cbn [app_of] in *; lia|]); unfold shadow_on; do 2 f_equal.
  - rewrite !(low_bits _ 39 35) by (try reflexivity; cbn [app_of] in A; change (2 ^ 39) with 0x8000000000; lia).
    change 0x800000000 with (1 * 2 ^ 35) at 1. apply N.mod_add. discriminate.
  - rewrite !(low_bits _ 48 28) by (try reflexivity; cbn [app_of] in A; change (2 ^ 48) with 0x1000000000000; lia).
    change 0x10000000 with (1 * 2 ^ 28) at 1. apply N.mod_add. discriminate.
Qed.
Print Assumptions C118_apart_refuted.

(** On x86-64, after dfsan_flush no byte of the application has a label; its memory is untouched. *)
Theorem C118_flush_partial : forall m, 
  (forall p, app_of X86_64 p -> label_on X86_64 (flush X86_64 m) p = 0 /\ flush X86_64 m p = m p) /\
  (forall x, 0x400000000000 <= x -> flush X86_64 m x = m x).
Proof.
  intros m. split.
  - intros p P. split.
    + unfold label_on, flush. apply load_int_zero. intros x X1 X2. rewrite (shadow_x86 p P) in *. cbn [app_of] in P.
      apply fill_same; unfold k_shadow, k_union_table; lia.
    + unfold flush. apply fill_other. cbn [app_of] in P. unfold k_shadow, k_union_table. lia.
  - intros x X. unfold flush. apply fill_other. unfold k_shadow, k_union_table. lia.
Qed.
Print Assumptions C118_flush_partial.
(** Elsewhere it leaves labels: those of the upper half of memory on MIPS, those of every byte on
    AArch64 with 42 bits.  (The labels of those bytes are not mapped at the start either.) *)
Theorem C118_flush_refuted : forall m,
  (forall p, app_of Mips64 p -> 0xF800000000 <= p -> label_on Mips64 (flush Mips64 m) p = label_on Mips64 m p) /\
  (forall p, app_of Aarch64_42 p -> label_on Aarch64_42 (flush Aarch64_42 m) p = label_on Aarch64_42 m p).
Proof.
  intros m. split.
  - intros p P H. unfold label_on. apply load_int_ext. intros x X1 X2. rewrite (shadow_mips p P) in *. cbn [app_of] in P.
    unfold flush. apply fill_other. unfold k_shadow, k_union_table. lia.
  - intros p P. unfold label_on. apply load_int_ext. intros x X1 X2. rewrite (shadow_aarch42 p P) in *. cbn [app_of] in P.
    unfold flush. apply fill_other. unfold k_shadow, k_union_table. lia.
Qed.
Print Assumptions C118_flush_refuted.
(** And on x86-64 it destroys what is below 0x400000000000: a program linked to a fixed address,
    such as 0x401000, loses its code and data at the start. *)
Theorem C118_fixed_address_refuted : forall m x, 0x10000 <= x < 0x400000000000 -> flush X86_64 m x = 0.
Proof. intros m x H. unfold flush. apply fill_same; unfold k_shadow, k_union_table; lia. Qed.
Print Assumptions C118_fixed_address_refuted.

Example C118_case : let p := 0x7fffdeadbeef in let m := set_label mem_zero 7 p 3 in
  app_of X86_64 p /\ pass_shadow X86_64 p = 0x3fff7ab6fbbc /\ label_on X86_64 m (p + 2) = 7 /\ label_on X86_64 (flush X86_64 m) (p + 2) = 0.
Proof. cbv zeta. split; [cbn; lia|]. repeat split; vm_compute; reflexivity. Qed.
