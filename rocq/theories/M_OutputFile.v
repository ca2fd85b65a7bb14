(** Model of polytracker/include/taintdag/outputfile.h (OutputFile) and storage.h
    (FixedSizeFile, MMapFile). *)
From Coq Require Import NArith List Bool.
From Verif Require Import M_Base M_Memory M_Section M_StringTable M_Sources M_Functions M_CfLog M_Bitmap M_Labels.
Import ListNotations.
Open Scope N_scope.

(** The static members of a Section type, outputfile.h:23-35. *)
Record secspec := mkSpec { ss_tag : N; ss_align : N; ss_alloc : N }.

(** sizeof(FileMeta) = 8, sizeof(SectionMeta) = 24, alignof(FileHeader) = 8,
    outputfile.h:58-99. *)
Definition meta_size : N := 8.
Definition smeta_size : N := 24.
Definition header_size (specs : list secspec) : N := meta_size + smeta_size * len specs.

(** required_allocation_size, outputfile.h:152-163. *)
Definition sum_alloc (specs : list secspec) : N := fold_right (fun s n => ss_alloc s + n) 0 specs.
Definition sum_align (specs : list secspec) : N := fold_right (fun s n => ss_align s + n) 0 specs.
Definition required_allocation_size (specs : list secspec) : N :=
  header_size specs + sum_alloc specs + (sum_align specs - len specs).

(** do_allocation, outputfile.h:140-147: the range [begin, end) of a section and the new
    alloc_ptr_ (= end). *)
Definition do_allocation (alloc_ptr : N) (s : secspec) : N * N :=
  let b := alloc_ptr + alloc_ptr mod ss_align s in (b, b + ss_alloc s).

(** The ranges of all sections: the arguments of the tuple constructor are evaluated in
    order, outputfile.h:105-106. *)
Fixpoint allocate_all (alloc_ptr : N) (specs : list secspec) : list (N * N) :=
  match specs with
  | [] => []
  | s :: rest => let r := do_allocation alloc_ptr s in r :: allocate_all (snd r) rest
  end.
Definition layout (base : N) (specs : list secspec) : list (N * N) :=
  allocate_all (base + header_size specs) specs.

(** FileMeta, outputfile.h:73-85: "TDAG", magic = (sum of tags) xor count, truncated to
    16 bits, section_count. *)
Definition magic (specs : list secspec) : N :=
  N.lxor (fold_right (fun s n => ss_tag s + n) 0 specs) (len specs) mod two16.
Definition filemeta_bytes (specs : list secspec) : list N :=
  [84; 68; 65; 71] ++ le_bytes 2 (magic specs) ++ le_bytes 2 (len specs).

(** SectionMeta, outputfile.h:58-70. *)
Definition smeta_bytes (s : secspec) (offset size : N) : list N :=
  le_bytes 4 (ss_tag s) ++ le_bytes 4 (ss_align s) ++ le_bytes 8 offset ++ le_bytes 8 size.

(** FileHeader as first constructed, outputfile.h:92-99, 103. *)
Definition header_bytes (specs : list secspec) : list N :=
  filemeta_bytes specs ++ concat (map (fun s => smeta_bytes s 0 0) specs).

(** Address of the offset and size fields of the [i]-th SectionMeta. *)
Definition smeta_addr (base i : N) : N := base + meta_size + smeta_size * i.
Definition offset_field (base i : N) : N := smeta_addr base i + 8.
Definition size_field (base i : N) : N := smeta_addr base i + 16.

(** The offsets written by the do_allocation calls, outputfile.h:145. *)
Fixpoint write_offsets (m : mem) (base i : N) (ranges : list (N * N)) : mem :=
  match ranges with
  | [] => m
  | (b, _) :: rest => write_offsets (store_int m (offset_field base i) 8 (b - base)) base (i + 1) rest
  end.

(** OutputFile::OutputFile up to the section constructors, outputfile.h:101-115: the
    mapping is zero filled; the header is constructed; each section gets its range and its
    offset is recorded.  Simplification: the order of the offset writes relative to the
    section constructors does not matter, they touch different memory. *)
Definition output_init (base : N) (specs : list secspec) : mem :=
  write_offsets (store mem_zero base (header_bytes specs)) base 0 (layout base specs).

(** ~OutputFile, outputfile.h:117-129: store the used sizes. *)
Fixpoint write_sizes (m : mem) (base i : N) (sizes : list N) : mem :=
  match sizes with
  | [] => m
  | n :: rest => write_sizes (store_int m (size_field base i) 8 n) base (i + 1) rest
  end.
Definition output_close (base : N) (m : mem) (sizes : list N) : mem := write_sizes m base 0 sizes.

(** The stores of the constructor in order (header fields in member order, then one offset
    per section); used to describe crashes during start-up.  Simplification: each field is
    one store. *)
Definition init_stores (base : N) (specs : list secspec) : list (N * list N) :=
  [(base, [84; 68; 65; 71]); (base + 4, le_bytes 2 (magic specs)); (base + 6, le_bytes 2 (len specs))]
  ++ concat (map (fun p => let a := smeta_addr base (fst p) in
                 [(a, le_bytes 4 (ss_tag (snd p))); (a + 4, le_bytes 4 (ss_align (snd p)));
                  (a + 8, le_bytes 8 0); (a + 16, le_bytes 8 0)])
            (combine (nseq 0 (length specs)) specs))
  ++ map (fun p => (offset_field base (fst p), le_bytes 8 (fst (snd p) - base)))
         (combine (nseq 0 (length specs)) (layout base specs)).
Fixpoint do_stores (m : mem) (l : list (N * list N)) : mem :=
  match l with
  | [] => m
  | (a, bs) :: rest => do_stores (store m a bs) rest
  end.

(** ConcreteOutputFile, taintdag/polytracker.h:87-97: the shipped list of sections. *)
Definition labels_tag : N := 2.                       (* labels.h:21 *)
Definition labels_align_of : N := 8.
Definition labels_allocation_size : N := 8 * label_capacity.
Definition index_capacity : N := label_capacity.      (* BitCount{max_label} + 1 *)
Definition shipped : list secspec :=
  [mkSpec src_tag src_align_of src_allocation_size;
   mkSpec labels_tag labels_align_of labels_allocation_size;
   mkSpec st_tag st_align_of st_allocation_size;
   mkSpec sink_tag sink_align_of sink_allocation_size;
   mkSpec bm_tag bm_align_of (bm_allocation_size index_capacity);
   mkSpec fn_tag fn_align_of fn_allocation_size;
   mkSpec ev_tag ev_align_of ev_allocation_size;
   mkSpec cf_tag cf_align_of cf_allocation_size].
