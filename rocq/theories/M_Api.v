(** Model of polytracker/src/taintdag/polytracker.cpp and
    polytracker/include/taintdag/polytracker.h: class PolyTracker. *)
From Coq Require Import NArith ZArith List Bool.
From Verif Require Import M_Base M_Memory M_Section M_StringTable M_Sources M_Functions M_CfLog M_Bitmap M_Labels M_OutputFile.
Import ListNotations.
Open Scope N_scope.

(** The members output_file_ (the sections over one mapped memory), stream_read_offsets_
    and stream_write_offsets_, polytracker.h:87-104, and the DFSan shadow memory: the
    label of every application byte (M_Dfsan has its layout).
    Simplification: the Labels section is kept as the list of its words ([r_tab]); its
    bytes are put into the file by [image]. *)
Record rt := mkRt {
  r_base : N;
  r_mem : mem;
  r_src : sect; r_st : sect; r_sink : sect; r_fn : sect; r_ev : sect; r_cf : sect;
  r_bm : bitmap;
  r_tab : table;
  r_map : fn_map;
  r_rd : N -> N; r_wr : N -> N;
  r_shadow : N -> N
}.

Definition set_files (r : rt) (m : mem) (src st : sect) : rt :=
  mkRt (r_base r) m src st (r_sink r) (r_fn r) (r_ev r) (r_cf r) (r_bm r) (r_tab r) (r_map r) (r_rd r) (r_wr r) (r_shadow r).
Definition set_sink (r : rt) (m : mem) (sink : sect) : rt :=
  mkRt (r_base r) m (r_src r) (r_st r) sink (r_fn r) (r_ev r) (r_cf r) (r_bm r) (r_tab r) (r_map r) (r_rd r) (r_wr r) (r_shadow r).
Definition set_fns (r : rt) (m : mem) (st fs : sect) (f : fn_map) : rt :=
  mkRt (r_base r) m (r_src r) st (r_sink r) fs (r_ev r) (r_cf r) (r_bm r) (r_tab r) f (r_rd r) (r_wr r) (r_shadow r).
Definition set_ev (r : rt) (m : mem) (ev : sect) : rt :=
  mkRt (r_base r) m (r_src r) (r_st r) (r_sink r) (r_fn r) ev (r_cf r) (r_bm r) (r_tab r) (r_map r) (r_rd r) (r_wr r) (r_shadow r).
Definition set_cf (r : rt) (m : mem) (cf : sect) : rt :=
  mkRt (r_base r) m (r_src r) (r_st r) (r_sink r) (r_fn r) (r_ev r) cf (r_bm r) (r_tab r) (r_map r) (r_rd r) (r_wr r) (r_shadow r).
Definition set_bm (r : rt) (m : mem) (bm : bitmap) : rt :=
  mkRt (r_base r) m (r_src r) (r_st r) (r_sink r) (r_fn r) (r_ev r) (r_cf r) bm (r_tab r) (r_map r) (r_rd r) (r_wr r) (r_shadow r).
Definition set_tab (r : rt) (t : table) : rt :=
  mkRt (r_base r) (r_mem r) (r_src r) (r_st r) (r_sink r) (r_fn r) (r_ev r) (r_cf r) (r_bm r) t (r_map r) (r_rd r) (r_wr r) (r_shadow r).
Definition set_rd (r : rt) (o : N -> N) : rt :=
  mkRt (r_base r) (r_mem r) (r_src r) (r_st r) (r_sink r) (r_fn r) (r_ev r) (r_cf r) (r_bm r) (r_tab r) (r_map r) o (r_wr r) (r_shadow r).
Definition set_wr (r : rt) (o : N -> N) : rt :=
  mkRt (r_base r) (r_mem r) (r_src r) (r_st r) (r_sink r) (r_fn r) (r_ev r) (r_cf r) (r_bm r) (r_tab r) (r_map r) (r_rd r) o (r_shadow r).
Definition set_shadow (r : rt) (sh : N -> N) : rt :=
  mkRt (r_base r) (r_mem r) (r_src r) (r_st r) (r_sink r) (r_fn r) (r_ev r) (r_cf r) (r_bm r) (r_tab r) (r_map r) (r_rd r) (r_wr r) sh.

(** PolyTracker::PolyTracker, polytracker.cpp:22-23, with the section constructors run by
    OutputFile::OutputFile (outputfile.h:101-115) in order; [base] is where the file got
    mapped.  All application memory starts out untainted. *)
Definition rt_new (base : N) : Res rt :=
  match layout base shipped with
  | [(b1, e1); (b2, e2); (b3, e3); (b4, e4); (b5, e5); (b6, e6); (b7, e7); (b8, e8)] =>
      do src <- src_new b1 e1;
      do tab <- fixed_new labels_align_of 8 b2 e2;
      do st <- st_new b3 e3;
      do sink <- fixed_new sink_align_of sink_entry_size b4 e4;
      do bm <- bm_new index_capacity b5 e5;
      do fn <- fixed_new fn_align_of fn_entry_size b6 e6;
      do ev <- fixed_new ev_align_of ev_entry_size b7 e7;
      let cf := sect_new b8 e8 in
      Ok (mkRt base (output_init base shipped) src st sink fn ev cf bm labels_new [] (fun _ => 0) (fun _ => 0) (fun _ => 0))
  | _ => UB
  end.

(** union_labels, polytracker.cpp:25-27. *)
Definition rt_union (r : rt) (l1 l2 : N) : Res (N * rt) :=
  do p <- union_taint (r_tab r) l1 l2; Ok (fst p, set_tab r (snd p)).

(** open_file, polytracker.cpp:29-42.  [size] is the result of file_size, [None] on error.
    The answer of add_source is ignored. *)
Definition rt_open (r : rt) (fd : Z) (path : list N) (size : option N) : Res rt :=
  let size' := match size with Some n => n | None => invalid_size end in
  do q <- add_source (r_mem r) (r_st r) (r_src r) path fd size';
  let '(_, m, st, src) := q in Ok (set_files r m src st).

(** close_file, polytracker.cpp:44-47. *)
Definition rt_close (r : rt) (fd : Z) : rt := r.

(** The loop of create_source_taint, polytracker.cpp:61-66: consecutive labels for
    consecutive bytes. *)
Fixpoint label_bytes (sh : N -> N) (addr lbl : N) (n : nat) : N -> N :=
  match n with
  | O => sh
  | S k => label_bytes (fun a => if a =? addr then lbl else sh a) (addr + 1) (lbl + 1) k
  end.

(** Allocation of the labels and registration in the index; common to the two callers,
    polytracker.cpp:52-57 and 102-105. *)
Definition new_source_labels (r : rt) (src offset n : N) : Res (N * N * rt) :=
  do q <- create_source_labels (r_tab r) src offset n;
  let '(f, la, t) := q in
  do b <- bm_set_range (r_mem r) (r_bm r) f n;
  Ok (f, la, set_bm (set_tab r t) (fst b) (snd b)).

(** create_source_taint, polytracker.cpp:49-68. *)
Definition create_source_taint (r : rt) (src addr n offset : N) : Res (N * N * rt) :=
  do q <- new_source_labels r src offset n;
  let '(f, la, r1) := q in
  Ok (f, la, set_shadow r1 (label_bytes (r_shadow r1) addr f (N.to_nat n))).

(** "offset.valid() ? *offset.value() : stream_read_offsets_.increase(idx, length)",
    polytracker.cpp:80-83, 99-101. *)
Definition read_offset (r : rt) (idx : N) (off : option N) (n : N) : Res (N * rt) :=
  match off with
  | Some o => Ok (o, r)
  | None => do q <- stream_increase (r_rd r) idx n; Ok (fst q, set_rd r (snd q))
  end.

(** source_taint with memory, polytracker.cpp:77-90. *)
Definition rt_source_mem (r : rt) (fd : Z) (addr : N) (off : option N) (n : N) : Res (option (N * N) * rt) :=
  do i <- mapping_idx (r_mem r) (r_src r) fd;
  match i with
  | None => Ok (None, r)
  | Some idx =>
      do q <- read_offset r idx off n;
      do c <- create_source_taint (snd q) idx addr n (fst q);
      let '(f, la, r') := c in Ok (Some (f, la), r')
  end.

(** source_taint without memory, polytracker.cpp:97-109. *)
Definition rt_source_range (r : rt) (fd : Z) (off : option N) (n : N) : Res (option (N * N) * rt) :=
  do i <- mapping_idx (r_mem r) (r_src r) fd;
  match i with
  | None => Ok (None, r)
  | Some idx =>
      do q <- read_offset r idx off n;
      do c <- new_source_labels (snd q) idx (fst q) n;
      let '(f, la, r') := c in Ok (Some (f, la), r')
  end.

(** create_taint_source, polytracker.cpp:115-124; the defaults of add_source are the
    invalid fd and size (taint_source.h:71-73). *)
Definition rt_named (r : rt) (name : list N) (addr n : N) : Res (option (N * N) * rt) :=
  do q <- add_source (r_mem r) (r_st r) (r_src r) name invalid_fd invalid_size;
  let '(o, m, st, src) := q in
  let r1 := set_files r m src st in
  match o with
  | None => Ok (None, r1)
  | Some idx => do c <- create_source_taint r1 idx addr n 0;
                let '(f, la, r') := c in Ok (Some (f, la), r')
  end.

(** The choice of the output offset, polytracker.cpp:144-146, 160-162. *)
Definition write_offset (r : rt) (idx : N) (off : option N) (n : N) : Res (N * rt) :=
  match off with
  | Some o => Ok (o, r)
  | None => do q <- stream_increase (r_wr r) idx n; Ok (fst q, set_wr r (snd q))
  end.

(** The loop of taint_sink over memory, polytracker.cpp:147-152.  [pad i] is the
    unspecified padding of the record for the i-th byte.  The offset is an int64_t. *)
Fixpoint sink_bytes_loop (pad : N -> list N) (r : rt) (idx addr offset : N) (i : N) (n : nat) : rt :=
  match n with
  | O => r
  | S k =>
      let lbl := r_shadow r addr in
      let r1 := if 0 <? lbl
                then let (m, s) := log_single (pad i) (r_mem r) (r_sink r) offset lbl idx in set_sink r m s
                else r in
      sink_bytes_loop pad r1 idx (addr + 1) (add64 offset 1) (i + 1) k
  end.

(** taint_sink with memory, polytracker.cpp:126-154. *)
Definition rt_sink_mem (pad : N -> list N) (r : rt) (fd : Z) (off : option N) (addr n : N) : Res rt :=
  do i <- mapping_idx (r_mem r) (r_src r) fd;
  match i with
  | None => Ok r
  | Some idx => do q <- write_offset r idx off n;
                Ok (sink_bytes_loop pad (snd q) idx addr (fst q) 0 (N.to_nat n))
  end.

(** The loop of taint_sink with one label, polytracker.cpp:167-170. *)
Fixpoint sink_label_loop (pad : N -> list N) (r : rt) (idx label offset : N) (i : N) (n : nat) : rt :=
  match n with
  | O => r
  | S k => let (m, s) := log_single (pad i) (r_mem r) (r_sink r) (add64 offset i) label idx in
           sink_label_loop pad (set_sink r m s) idx label offset (i + 1) k
  end.

(** taint_sink with one label, polytracker.cpp:156-172. *)
Definition rt_sink_label (pad : N -> list N) (r : rt) (fd : Z) (off : option N) (label n : N) : Res rt :=
  do i <- mapping_idx (r_mem r) (r_src r) fd;
  match i with
  | None => Ok r
  | Some idx => do q <- write_offset r idx off n;
                if label =? 0 then Ok (snd q)
                else Ok (sink_label_loop pad (snd q) idx label (fst q) 0 (N.to_nat n))
  end.

(** affects_control_flow, polytracker.cpp:174-176. *)
Definition rt_affects (fuel : nat) (junk : N) (r : rt) (l : N) : Res rt :=
  do t <- affects_control_flow fuel junk (r_tab r) l; Ok (set_tab r t).

(** log_tainted_control_flow, enter_function, leave_function, polytracker.cpp:178-188. *)
Definition rt_cf (r : rt) (e : cf_event) : Res rt :=
  do q <- cf_log (r_mem r) (r_cf r) e; Ok (set_cf r (fst q) (snd q)).

(** function_entry, polytracker.cpp:190-199. *)
Definition rt_fn_entry (pad : N) (r : rt) (name : list N) : Res (N * rt) :=
  do q <- add_mapping (r_mem r) (r_st r) (r_fn r) (r_map r) name;
  let '(o, m, st, fs, f) := q in
  let r1 := set_fns r m st fs f in
  match o with
  | None => Exit
  | Some i => do e <- log_fn_event pad (r_mem r1) (r_ev r1) EvEntry i;
              Ok (i, set_ev r1 (fst e) (snd e))
  end.

(** function_exit, polytracker.cpp:201-204. *)
Definition rt_fn_exit (pad : N) (r : rt) (i : N) : Res rt :=
  do e <- log_fn_event pad (r_mem r) (r_ev r) EvExit i; Ok (set_ev r (fst e) (snd e)).

(** dfsan_set_label on one byte, done by the instrumented program itself when it moves or
    computes data. *)
Definition rt_set_label (r : rt) (addr l : N) : rt :=
  set_shadow r (fun a => if a =? addr then l else r_shadow r a).

(** ~PolyTracker = ~OutputFile (outputfile.h:117-129): the used sizes in section order. *)
Definition rt_sizes (r : rt) : list N :=
  [sect_size (r_src r); 8 * len (r_tab r); sect_size (r_st r); sect_size (r_sink r); bm_size (r_bm r);
   sect_size (r_fn r); sect_size (r_ev r); sect_size (r_cf r)].

(** The bytes of the mapping: the Labels section holds the words of the table. *)
Definition labels_start (base : N) : N := fst (nth 1 (layout base shipped) (0, 0)).
Definition image (r : rt) : mem := store (r_mem r) (labels_start (r_base r)) (concat (map (le_bytes 8) (r_tab r))).

(** The file as left behind by an orderly shutdown. *)
Definition rt_shutdown (r : rt) : mem := output_close (r_base r) (image r) (rt_sizes r).
