(** Model of polytracker/include/taintdag/labels.h: Labels.
    The section is a list of stored words, position = label (that the k-th
    construct is at byte 8*k of the section is the subject of M_Section). *)
From Coq Require Import NArith List Bool.
From Verif Require Import M_Base M_Encoding M_Union M_LabelDeq.
Import ListNotations.
Open Scope N_scope.

Definition table := list N.

(** allocation_size / sizeof(storage_t), labels.h:22-23. *)
Definition label_capacity : N := max_label + 1.

(** redundant_label_range, labels.h:27. *)
Definition redundant_label_range : N := 100.

(** Labels::Labels, labels.h:29-32. *)
Definition labels_new : table := [0].

(** *std::next(begin(), lbl): entries at or beyond count() but inside the
    allocation are zero (fresh sparse file), beyond it the access is [UB]. *)
Definition read_word (t : table) (l : N) : Res N :=
  match get t l with
  | Some w => Ok w
  | None => if l <? label_capacity then Ok 0 else UB
  end.

(** Labels::read_label, labels.h:50-52. *)
Definition read_label (t : table) (l : N) : Res taint :=
  do w <- read_word t l; decode w.

(** FixedSizeAlloc::construct for storage_t entries (section.h:139-150): [None] when
    the section is full. *)
Definition construct (t : table) (w : N) : option (N * table) :=
  if len t <? label_capacity then Some (len t, t ++ [w]) else None.

(** The encoded entries written by the lambda of create_source_labels,
    labels.h:40-43: offset, offset+1, ... *)
Definition source_words (src offset : N) (n : nat) : list N :=
  map (fun o => encode (TSource false src o)) (nseq offset n).

(** Labels::create_source_labels, labels.h:38-48, with construct_range
    (section.h:151-170) and index (section.h:173-176) inlined.
    - mem_size = entry_size*n is computed modulo 2^64 and decides how many entries
      are generated;
    - a request that does not fit yields an empty optional which is dereferenced
      without a check: [UB];
    - index() of an entry outside of the section (only possible for an empty
      request on a full section) exits;
    - last = first + length - 1 is computed in size_t and truncated to label_t.
    Returns (first, last) and the new table. *)
Definition create_source_labels (t : table) (src offset length : N)
  : Res (N * N * table) :=
  let mem_size := mul64 8 length in
  if 8 * len t + mem_size <=? 8 * label_capacity then
    let first := len t in
    if first <? label_capacity then
      Ok (first, (first + length - 1) mod two32,
          t ++ source_words src offset (N.to_nat (mem_size / 8)))
    else Exit
  else UB.

(** The scan of duplicate_check: [entries] are the candidates in the order in
    which they are visited, [l] is the label of the first of them. *)
Fixpoint scan_back (entries : list N) (l : N) (encoded : N) : option N :=
  match entries with
  | [] => None
  | w :: rest => if equal_ignore_cf w encoded then Some l
                 else scan_back rest (l - 1) encoded
  end.

(** Labels::duplicate_check, labels.h:92-111.  The reverse range goes from the
    last entry down to (and including) label [hilbl], at most
    redundant_label_range entries. *)
Definition duplicate_check (t : table) (hilbl encoded : N) : option N :=
  let avail := len t - hilbl in
  let n := if redundant_label_range <=? avail then redundant_label_range else avail in
  scan_back (firstn (N.to_nat n) (rev t)) (len t - 1) encoded.

(** Labels::union_taint, labels.h:55-81. *)
Definition union_taint (t : table) (l r : N) : Res (N * table) :=
  if l =? r then Ok (l, t)
  else
    do lval <- read_label t l;
    do rval <- read_label t r;
    do result <- compute l lval r rval;
    match result with
    | RLabel lbl => Ok (lbl, t)
    | RTaint tn =>
        let encoded := encode tn in
        match duplicate_check t (N.max l r) encoded with
        | Some dup => Ok (dup, t)
        | None =>
            match construct t encoded with
            | Some (lbl, t') => Ok (lbl, t')
            | None => Exit
            end
        end
    end.

(** set_affects_control_flow, labels.h:187-190.  Writing to an entry beyond the
    ones constructed would set a bit in unused memory; the model makes it [UB]
    (never reached for labels in use). *)
Definition set_affects_control_flow (t : table) (l : N) : Res table :=
  match get t l with
  | Some w => Ok (upd t l (add_affects_control_flow w))
  | None => UB
  end.

(** The lambda add_to_q, labels.h:124-136. *)
Definition add_to_q (t : table) (l : N) : Res (bool * table) :=
  do encoded <- read_word t l;
  if check_affects_control_flow encoded then Ok (false, t)
  else if is_source_taint encoded then
    do t' <- set_affects_control_flow t l; Ok (false, t')
  else Ok (true, t).

(** Capacity of the label queue, labels.h:119. *)
Definition cf_queue_cap : N := 32.

(** "if (add_to_q(x)) q.push_back(x)", labels.h:150-151, 156-159. *)
Definition visit_label (t : table) (q : labeldeq) (l : N) : Res (table * labeldeq) :=
  do p <- add_to_q t l;
  if fst p then do q' <- deq_push cf_queue_cap q l; Ok (snd p, q')
  else Ok (snd p, q).

Fixpoint visit_labels (t : table) (q : labeldeq) (ls : list N) : Res (table * labeldeq) :=
  match ls with
  | [] => Ok (t, q)
  | l :: rest => do p <- visit_label t q l; visit_labels (fst p) (snd p) rest
  end.

(** The labels visited by Visitor::operator(), labels.h:145-160, in order.  The
    loop [curr <= r.last] terminates because last <= max_label < 2^32-1. *)
Definition visit_order (tn : taint) : list N :=
  match tn with
  | TSource _ _ _ => []
  | TRange _ f l => nseq f (N.to_nat (l + 1 - f))
  | TUnion _ lo hi => [lo; hi]
  end.

(** The main loop, labels.h:170-176. *)
Fixpoint cf_loop (fuel : nat) (t : table) (q : labeldeq) : Res table :=
  if deq_empty q then Ok t
  else match fuel with
       | O => Fuel
       | S f =>
           do p <- deq_pop cf_queue_cap q;
           let (l, q1) := p in
           do encoded <- read_word t l;
           do t1 <- set_affects_control_flow t l;
           do tn <- decode encoded;
           do p2 <- visit_labels t1 q1 (visit_order tn);
           cf_loop f (fst p2) (snd p2)
       end.

(** Labels::affects_control_flow, labels.h:118-177.  [junk] is the content of the
    uninitialised inline array of the queue. *)
Definition affects_control_flow (fuel : nat) (junk : N) (t : table) (l : N) : Res table :=
  do p <- add_to_q t l;
  if fst p then
    do q <- deq_push cf_queue_cap (deq_new cf_queue_cap junk) l;
    cf_loop fuel (snd p) q
  else Ok (snd p).
