(** Model of polytracker/tracing.py, lines 74-368: TaintedRegion, ByteOffset, TaintDiff and
    Taints, the collections in which the Python API hands out tainted bytes. *)
From Coq Require Import NArith ZArith List Bool.
From Verif Require Import M_Base M_PyAnalysis.
Import ListNotations.
Open Scope N_scope.

(** ** TaintedRegion *)
(** Input.__eq__, inputs.py:82-87: uid and path; Input.__hash__ is the uid. *)
Definition input_eqb (x y : py_input) : bool := (in_uid x =? in_uid y)%Z && path_eqb (in_path x) (in_path y).

(** A ByteOffset (tracing.py:150-154) is a region of length 1: source and offset. *)
Definition pbyte := (py_input * N)%type.
(** TaintedRegion.__eq__, tracing.py:130-136, for lengths 1; __hash__ agrees with it. *)
Definition byte_eqb (a b : pbyte) : bool := input_eqb (fst a) (fst b) && (snd a =? snd b).
(** TaintedRegion.__lt__, tracing.py:138-147, for lengths 1: by uid, then offset; paths are not
    compared. *)
Definition byte_ltb (a b : pbyte) : bool :=
  (in_uid (fst a) <? in_uid (fst b))%Z || ((in_uid (fst a) =? in_uid (fst b))%Z && (snd a <? snd b)).
(** TaintedRegion.__init__, tracing.py:77-88. *)
Record region := mkRegion { rg_source : py_input; rg_offset : N; rg_length : N }.

(** TaintedRegion.value, tracing.py:90-100: a slice of the content of the source, cut off
    at its end.  [content] is the content of the files (Input.content, inputs.py:57-77). *)
Definition region_value (content : py_input -> list N) (r : region) : list N :=
  firstn (N.to_nat (rg_length r)) (skipn (N.to_nat (rg_offset r)) (content (rg_source r))).

(** TaintedRegion.__getitem__ for slices with both bounds given, tracing.py:104-116. *)
Definition region_slice (r : region) (start stop : Z) : region :=
  let start := if (start <? 0)%Z then Z.max (Z.of_N (rg_length r) + start) 0 else start in
  let stop := if (stop <? 0)%Z then (Z.of_N (rg_length r) + stop)%Z else stop in
  if (stop <=? start)%Z || (Z.of_N (rg_length r) <=? start)%Z || (stop <=? 0)%Z then mkRegion (rg_source r) (rg_offset r) 0
  else mkRegion (rg_source r) (rg_offset r + Z.to_N start) (Z.to_N (stop - start)).
(** ... and for an index, tracing.py:117-120. *)
Definition region_index (r : region) (i : Z) : Res pbyte :=
  if (i <? 0)%Z || (Z.of_N (rg_length r) <=? i)%Z then Exit else Ok (rg_source r, rg_offset r + Z.to_N i).

(** ** Sets and sorting *)
(** set.add: nothing happens if an equal element is there. *)
Definition set_add (s : list pbyte) (b : pbyte) : list pbyte := if existsb (byte_eqb b) s then s else s ++ [b].
(** Python's set(iterable).  The iteration order of a set is not specified; here it is the order
    of insertion (see [taints_new] and [taint_diff] for where this could matter). *)
Definition set_of (l : list pbyte) : list pbyte := fold_left set_add l [].
(** sorted(): stable, compares with __lt__ only. *)
Fixpoint insert_byte (b : pbyte) (l : list pbyte) : list pbyte :=
  match l with
  | [] => [b]
  | c :: r => if byte_ltb b c then b :: l else c :: insert_byte b r
  end.
Definition sort_bytes (l : list pbyte) : list pbyte := fold_left (fun acc b => insert_byte b acc) l [].

(** ** Taints *)
(** Taints._offsets_by_source: a dict in order of insertion. *)
Definition taints := list (py_input * list pbyte).
(** The loop of Taints.__init__, tracing.py:225-227: a defaultdict(set). *)
Definition group_add (d : taints) (b : pbyte) : taints :=
  dict_set input_eqb d (fst b) (set_add (match dict_get input_eqb d (fst b) with Some s => s | None => [] end) b).
(** Taints.__init__, tracing.py:218-230.  Bytes of one source differ in their offsets, so that
    sorting them leaves one possible order. *)
Definition taints_new (l : list pbyte) : taints := map (fun p => (fst p, sort_bytes (snd p))) (fold_left group_add l []).
(** Taints.sources, tracing.py:232-234. *)
Definition taints_sources (t : taints) : list py_input := map fst t.
(** Taints.from_source, tracing.py:236-238. *)
Definition taints_from (t : taints) (x : py_input) : taints :=
  taints_new (match dict_get input_eqb t x with Some s => s | None => [] end).
(** Taints.__len__, tracing.py:344-346. *)
Definition taints_len (t : taints) : N := fold_right N.add 0 (map (fun p => len (snd p)) t).
(** Taints.__iter__, tracing.py:348-358. *)
Definition taints_iter (t : taints) : list pbyte := concat (map snd t).
(** Taints.__bool__, tracing.py:360-368. *)
Definition taints_bool (t : taints) : bool := negb (taints_len t =? 0).

(** ** Regions *)
(** The loop of Taints.to_regions, tracing.py:267-284: [li] is last_input, [lo] last_offset.
    last_input is set once and not updated. *)
Fixpoint regions_loop (li : option py_input) (lo : option N) (reg : option region) (l : list pbyte) : list region :=
  match l with
  | [] => match reg with Some r => [r] | None => [] end
  | (x, o) :: rest =>
      let cut := match li with
                 | None => false
                 | Some y => negb (input_eqb y x) || match lo with Some p => negb (Z.of_N p =? Z.of_N o - 1)%Z | None => false end
                 end in
      let li' := match li with None => Some x | Some y => Some y end in
      let out := if cut then match reg with Some r => [r] | None => [] end else [] in
      let reg1 := if cut then None else reg in
      let reg' := match reg1 with
                  | None => mkRegion x o 1
                  | Some r => mkRegion (rg_source r) (rg_offset r) (rg_length r + 1)
                  end in
      out ++ regions_loop li' (Some o) (Some reg') rest
  end.
(** Taints.to_regions, tracing.py:257-284. *)
Definition to_regions (l : list pbyte) (is_sorted : bool) : list region :=
  regions_loop None None None (if is_sorted then l else sort_bytes l).
(** Taints.regions, tracing.py:240-255. *)
Definition taints_regions (t : taints) : list region := to_regions (taints_iter t) true.

(** ** Search *)
(** [bytes_at content sub]: sub is a prefix of content. *)
Fixpoint is_prefix (sub content : list N) : bool :=
  match sub, content with
  | [], _ => true
  | _, [] => false
  | a :: s, b :: c => (a =? b) && is_prefix s c
  end.
(** bytes.find(sub, start): the first index from [start] on at which sub occurs, None for -1. *)
Fixpoint find_from (sub content : list N) (i : N) : option N :=
  if is_prefix sub content then Some i
  else match content with [] => None | _ :: c => find_from sub c (i + 1) end.
Definition py_find (sub content : list N) (start : N) : option N :=
  if len content <? start then None else find_from sub (skipn (N.to_nat start) content) start.

(** The while loop of Taints.find on one region, tracing.py:302-308.  The next search starts
    at the match found. *)
Fixpoint find_loop (fuel : nat) (content : py_input -> list N) (sub : list N) (r : region) (offset : N) : Res (list region) :=
  match fuel with
  | O => Fuel
  | S f =>
      match py_find sub (region_value content r) offset with
      | Some i => do more <- find_loop f content sub r i; Ok (region_slice r (Z.of_N i) (Z.of_N i + Z.of_N (len sub)) :: more)
      | None => Ok []
      end
  end.
(** Taints.find run to the end, tracing.py:286-308; [sub] is the byte sequence. *)
Fixpoint find_regions (fuel : nat) (content : py_input -> list N) (sub : list N) (rs : list region) : Res (list region) :=
  match rs with
  | [] => Ok []
  | r :: rest => do a <- find_loop fuel content sub r 0; do b <- find_regions fuel content sub rest; Ok (a ++ b)
  end.
Definition taints_find (fuel : nat) (content : py_input -> list N) (t : taints) (sub : list N) : Res (list region) :=
  find_regions fuel content sub (taints_regions t).
(** The first region the generator yields, tracing.py:300-306. *)
Fixpoint find_first (content : py_input -> list N) (sub : list N) (rs : list region) : option region :=
  match rs with
  | [] => None
  | r :: rest =>
      match py_find sub (region_value content r) 0 with
      | Some i => Some (region_slice r (Z.of_N i) (Z.of_N i + Z.of_N (len sub)))
      | None => find_first content sub rest
      end
  end.
(** Taints.__contains__, tracing.py:326-342. *)
Definition taints_contains (content : py_input -> list N) (t : taints) (sub : list N) : bool :=
  match find_first content sub (taints_regions t) with Some _ => true | None => false end.

(** ** Differences *)
(** TaintDiff._diff, tracing.py:173-179.  Bytes of different sources with the same uid compare
    equal, so their order in the result depends on the iteration order of the set. *)
Definition set_minus (a b : list pbyte) : list pbyte := filter (fun x => negb (existsb (byte_eqb x) b)) a.
Definition taint_diff (t1 t2 : taints) : list pbyte * list pbyte :=
  let a := set_of (taints_iter t1) in
  let b := set_of (taints_iter t2) in
  (sort_bytes (set_minus a b), sort_bytes (set_minus b a)).
(** TaintDiff.regions_only_in_first, tracing.py:187-190. *)
Definition diff_regions (t1 t2 : taints) : list region * list region :=
  let d := taint_diff t1 t2 in (to_regions (fst d) true, to_regions (snd d) true).
(** TaintDiff.__bool__, tracing.py:203-205. *)
Definition diff_bool (t1 t2 : taints) : bool :=
  let d := taint_diff t1 t2 in
  match fst d, snd d with [], [] => false | _, _ => true end.
