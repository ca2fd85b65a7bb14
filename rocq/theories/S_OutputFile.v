(** Specification vocabulary for the output file. *)
From Coq Require Import NArith List.
From Verif Require Import M_Base M_Memory M_OutputFile M_PyFile.
Import ListNotations.
Open Scope N_scope.

(** A list of section types that can be described by the header. *)
Definition spec_ok (s : secspec) : Prop :=
  1 <= ss_tag s <= 8 /\ 1 <= ss_align s /\ ss_align s < 2 ^ 32.
Definition specs_ok (specs : list secspec) : Prop := Forall spec_ok specs /\ len specs < 2 ^ 16.

(** The whole mapping is inside the 64-bit address space and page aligned. *)
Definition mapped (base : N) (specs : list secspec) : Prop :=
  base mod 4096 = 0 /\ base + required_allocation_size specs < 2 ^ 64.

(** [m] differs from [m0] at most inside the given ranges. *)
Definition only_inside (ranges : list (N * N)) (m0 m : mem) : Prop :=
  forall a, (forall b e, In (b, e) ranges -> a < b \/ e <= a) -> m a = m0 a.

(** The file as the reader sees it: the bytes from [base] on. *)
Definition file_of (base : N) (specs : list secspec) (m : mem) : file :=
  mkFile (fun a => m (base + a)) (required_allocation_size specs).

(** One section as the reader should find it: its tag and [size] bytes from its start. *)
Fixpoint sections_found (m : mem) (specs : list secspec) (ranges : list (N * N)) (sizes : list N)
  : list (N * list N) :=
  match specs, ranges, sizes with
  | s :: specs', (b, _) :: ranges', n :: sizes' =>
      (ss_tag s, load m b n) :: sections_found m specs' ranges' sizes'
  | _, _, _ => []
  end.

(** The used sizes fit the sections; the bitmap section uses whole buckets. *)
Inductive sizes_ok : list secspec -> list N -> Prop :=
| so_nil : sizes_ok [] []
| so_cons s n specs sizes :
    n <= ss_alloc s -> (ss_tag s = 5 -> n mod 8 = 0) -> sizes_ok specs sizes ->
    sizes_ok (s :: specs) (n :: sizes).
