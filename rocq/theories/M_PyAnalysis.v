(** Model of the analyses polytracker/mapping.py and of TDProgramTrace and TDTaintForest in
    polytracker/taint_dag.py:587-814.  Progress bars are left out. *)
From Coq Require Import NArith ZArith List Bool.
From Verif Require Import M_Base M_Sources M_PyNode M_PySections M_PyFile.
Import ListNotations.
Open Scope N_scope.

(** Python sets of labels and dictionaries, as lists. *)
Definition set_mem (x : N) (s : list N) : bool := existsb (N.eqb x) s.
Fixpoint dict_get {A B} (eqb : A -> A -> bool) (d : list (A * B)) (k : A) : option B :=
  match d with
  | [] => None
  | (k', v) :: r => if eqb k' k then Some v else dict_get eqb r k
  end.
(** d[k] = v: an existing key keeps its place, a new one is appended. *)
Fixpoint dict_set {A B} (eqb : A -> A -> bool) (d : list (A * B)) (k : A) (v : B) : list (A * B) :=
  match d with
  | [] => [(k, v)]
  | (k', v') :: r => if eqb k' k then (k', v) :: r else (k', v') :: dict_set eqb r k v
  end.

(** range(a, b) *)
Definition py_range (a b : N) : list N := nseq a (N.to_nat (b - a)).

(** InputOutputMapping.dfs_walk, mapping.py:24-51, as a loop together with the body of the
    "for" statement that consumes it: [visit acc seen lbl n] runs at the yield, may raise
    and may add to [seen] (mapping.py:133-141 does).  [stack] has its top at the head. *)
Section Dfs.
  Context {A : Type} (d : tdfile) (visit : A -> list N -> N -> py_node -> Res (A * list N)).
  Fixpoint dfs_loop (fuel : nat) (stack seen : list N) (acc : A) : Res (A * list N) :=
    match stack with
    | [] => Ok (acc, seen)
    | lbl :: rest =>
        match fuel with
        | O => Fuel
        | S f =>
            if set_mem lbl seen then dfs_loop f rest seen acc
            else
              do n <- td_decode_node d lbl;
              do p <- visit acc (lbl :: seen) lbl n;
              let '(acc', seen') := p in
              match n with
              | PySource _ _ _ => dfs_loop f rest seen' acc'
              | PyUnion lt rt _ => dfs_loop f (rt :: lt :: rest) seen' acc'
              | PyRange first last _ => dfs_loop f (rev (py_range first (last + 1)) ++ rest) seen' acc'
              | PyUntainted => dfs_loop f rest seen' acc'
              end
        end
    end.
  Definition dfs_walk (fuel : nat) (label : N) (seen : list N) (acc : A) : Res (A * list N) :=
    dfs_loop fuel [label] seen acc.
End Dfs.

(** InputOutputMapping.mapping, mapping.py:53-62.  The dictionary of sets is kept as the
    list of its (key, element) pairs. *)
Definition file_offset_in : Type := py_path * N.     (* n.offset *)
Definition file_offset_out : Type := py_path * Z.    (* s.offset *)
Definition io_map : Type := list (file_offset_in * file_offset_out).

Definition mapping_visit (d : tdfile) (s : py_sink) (acc : io_map) (seen : list N) (lbl : N) (n : py_node)
  : Res (io_map * list N) :=
  match n with
  | PySource idx offset _ =>
      do sp <- td_fd_header d (sk_fdidx s);
      do np <- td_fd_header d idx;
      Ok (acc ++ [((fst np, offset), (fst sp, sk_offset s))], seen)
  | _ => Ok (acc, seen)
  end.
Fixpoint mapping_loop (fuel : nat) (d : tdfile) (sinks : list py_sink) (acc : io_map) : Res io_map :=
  match sinks with
  | [] => Ok acc
  | s :: rest => do p <- dfs_walk d (mapping_visit d s) fuel (sk_label s) [] acc;
                 mapping_loop fuel d rest (fst p)
  end.
Definition py_mapping (fuel : nat) (d : tdfile) : Res io_map :=
  do sinks <- td_sinks d; mapping_loop fuel d sinks [].

(** InputOutputMapping.marker_to_ranges, mapping.py:64-77. *)
Fixpoint ranges_loop (m : list N) (i : N) (start : option N) : list (N * N) :=
  match m with
  | [] => match start with Some s => [(s, i)] | None => [] end
  | v :: r =>
      if v =? 0 then ranges_loop r (i + 1) (match start with None => Some i | Some _ => start end)
      else match start with
           | Some s => (s, i) :: ranges_loop r (i + 1) None
           | None => ranges_loop r (i + 1) None
           end
  end.
Definition marker_to_ranges (m : list N) : list (N * N) := ranges_loop m 0 None.

(** bytearray operations: bytearray(n), ljust(n, b"\0") and m[i] = v (IndexError). *)
Definition ba_new (n : N) : list N := repeat 0 (N.to_nat n).
Definition ba_ljust (m : list N) (n : N) : list N := m ++ repeat 0 (N.to_nat (n - len m)).
Definition ba_set (m : list N) (i v : N) : Res (list N) :=
  if i <? len m then Ok (upd m i v) else Exit.

(** markers: Dict[int, bytearray]. *)
Definition markers_t : Type := list (N * list N).
(** "markers[idx][offset] = 1" (KeyError, IndexError). *)
Definition mark (ms : markers_t) (idx offset : N) : Res markers_t :=
  match dict_get N.eqb ms idx with
  | None => Exit
  | Some m => do m' <- ba_set m offset 1; Ok (dict_set N.eqb ms idx m')
  end.

(** The body of the first loop of file_cavities, mapping.py:93-117; invalid_size is
    taint_dag.py:347-348. *)
Definition fd_invalid_size (h : py_fdhdr) : bool := fd_size h =? 18446744073709551615.
Definition cavity_source (d : tdfile) (ms : markers_t) (label : N) : Res markers_t :=
  do n <- td_decode_node d label;
  match n with
  | PySource idx offset cf =>
      do ms1 <- match dict_get N.eqb ms idx with
                | Some _ => Ok ms
                | None =>
                    do h <- td_fd_header d idx;
                    let size := if fd_invalid_size (snd h) then offset + 1 else fd_size (snd h) in
                    Ok (dict_set N.eqb ms idx (ba_new size))
                end;
      match dict_get N.eqb ms1 idx with
      | None => Exit
      | Some marker =>
          let ms2 := if len marker <=? offset then dict_set N.eqb ms1 idx (ba_ljust marker (offset + 1)) else ms1 in
          if cf then mark ms2 idx offset else Ok ms2
      end
  | _ => Exit
  end.
Fixpoint cavity_sources (d : tdfile) (labels : list N) (ms : markers_t) : Res markers_t :=
  match labels with
  | [] => Ok ms
  | l :: r => do ms' <- cavity_source d ms l; cavity_sources d r ms'
  end.

(** The body of the walk, mapping.py:132-140. *)
Definition cavity_visit (ms : markers_t) (seen : list N) (lbl : N) (n : py_node) : Res (markers_t * list N) :=
  match n with
  | PySource idx offset _ => do ms' <- mark ms idx offset; Ok (ms', seen)
  | PyUnion lt rt cf => Ok (ms, if cf then rt :: lt :: seen else seen)
  | PyRange first last cf => Ok (ms, if cf then py_range first (last + 1) ++ seen else seen)
  | PyUntainted => Ok (ms, seen)
  end.

Definition node_cf (n : py_node) : bool :=
  match n with
  | PyUntainted => false
  | PySource _ _ cf => cf
  | PyRange _ _ cf => cf
  | PyUnion _ _ cf => cf
  end.

(** The second loop, mapping.py:119-140. *)
Fixpoint cavity_sinks (fuel : nat) (d : tdfile) (sinks : list py_sink) (ms : markers_t) (seen : list N)
  : Res markers_t :=
  match sinks with
  | [] => Ok ms
  | s :: rest =>
      do sn <- td_decode_node d (sk_label s);
      if node_cf sn then cavity_sinks fuel d rest ms seen
      else
        match sn with
        | PySource idx offset _ => do ms' <- mark ms idx offset; cavity_sinks fuel d rest ms' seen
        | _ => do p <- dfs_walk d cavity_visit fuel (sk_label s) seen ms;
               cavity_sinks fuel d rest (fst p) (snd p)
        end
  end.

(** Equality of Paths. *)
Fixpoint list_eqb {A} (eqb : A -> A -> bool) (a b : list A) : bool :=
  match a, b with
  | [], [] => true
  | x :: a', y :: b' => eqb x y && list_eqb eqb a' b'
  | _, _ => false
  end.
Definition path_eqb (p q : py_path) : bool :=
  list_eqb N.eqb (fst p) (fst q) && list_eqb (list_eqb N.eqb) (snd p) (snd q).

(** "bytes(a | b for (a, b) in zip(x, y))", mapping.py:148. *)
Definition zip_or (x y : list N) : list N := map (fun p => N.lor (fst p) (snd p)) (combine x y).

(** The merge by file name, mapping.py:142-151. *)
Fixpoint merge_markers (d : tdfile) (ms : markers_t) (merged : list (py_path * list N))
  : Res (list (py_path * list N)) :=
  match ms with
  | [] => Ok merged
  | (k, v) :: r =>
      do h <- td_fd_header d k;
      let merged' := match dict_get path_eqb merged (fst h) with
                     | Some old => dict_set path_eqb merged (fst h) (zip_or old v)
                     | None => dict_set path_eqb merged (fst h) v
                     end in
      merge_markers d r merged'
  end.

(** file_cavities, mapping.py:79-151. *)
Definition file_cavities (fuel : nat) (d : tdfile) : Res (list (py_path * list (N * N))) :=
  do labels <- td_input_labels d;
  do ms <- cavity_sources d labels [];
  do sinks <- td_sinks d;
  do ms' <- cavity_sinks fuel d sinks ms [];
  do merged <- merge_markers d ms' [];
  Ok (map (fun kv => (fst kv, marker_to_ranges (snd kv))) merged).

(** ** TDProgramTrace *)
(** Input(uid, path, size) with __eq__ on uid and path (inputs.py:26-90); [str(path)]
    determines the Path and vice versa. *)
Record py_input := mkInput { in_uid : Z; in_path : py_path; in_size : N }.
Definition input_of (h : py_path * py_fdhdr) : py_input := mkInput (fd_fd (snd h)) (fst h) (fd_size (snd h)).

(** TDProgramTrace.inputs, taint_dag.py:651-663. *)
Fixpoint inputs_loop (d : tdfile) (labels : list N) (seen : list N) : Res (list py_input) :=
  match labels with
  | [] => Ok []
  | l :: r =>
      do n <- td_decode_node d l;
      match n with
      | PySource idx _ _ =>
          if set_mem idx seen then inputs_loop d r seen
          else do h <- td_fd_header d idx;
               do rest <- inputs_loop d r (idx :: seen);
               Ok (input_of h :: rest)
      | _ => Exit
      end
  end.
Definition py_inputs (d : tdfile) : Res (list py_input) :=
  do labels <- td_input_labels d; inputs_loop d labels [].

(** TDProgramTrace.output_taints, taint_dag.py:665-675. *)
Definition py_output_taints (d : tdfile) : Res (list (py_input * Z * N)) :=
  do sinks <- td_sinks d;
  py_map (fun s => do h <- td_fd_header d (sk_fdidx s); Ok (input_of h, sk_offset s, sk_label s)) sinks.

(** ** TDTaintForest *)
(** TDTaintForestNode, taint_dag.py:693-731. *)
Record fnode := mkFnode {
  fn_label : Z; fn_source : option py_input; fn_cf : bool; fn_parents : option (Z * Z) }.

(** TDTaintForest: node_cache and synth_label_cnt, taint_dag.py:734-743. *)
Record forest := mkForest { fo_cache : list (Z * option fnode); fo_synth : Z }.
Definition forest_new (d : tdfile) : Res forest :=
  do n <- td_label_count d;
  Ok (mkForest ((0%Z, Some (mkFnode 0 None false None))
                :: map (fun i => (Z.of_N i, None)) (py_range 1 n)) (-1)).

(** The loop of create_node over a range, taint_dag.py:775-786. *)
Fixpoint unfold_range (fo : forest) (cf : bool) (curr : Z) (ns : list N) : Z * forest :=
  match ns with
  | [] => (curr, fo)
  | n :: r =>
      let s := fo_synth fo in
      let node := mkFnode s None cf (Some (curr, Z.of_N n)) in
      unfold_range (mkForest (dict_set Z.eqb (fo_cache fo) s (Some node)) (s - 1)) cf s r
  end.

(** create_node, taint_dag.py:754-796.  [decode_node] of a negative label raises
    (from_buffer_copy: "offset cannot be negative"); it is never called with one, synthetic
    labels being cached. *)
Definition create_node (d : tdfile) (fo : forest) (label : Z) : Res (fnode * forest) :=
  if (label <? 0)%Z then Exit
  else
    do node <- td_decode_node d (Z.to_N label);
    match node with
    | PySource idx _ cf =>
        do h <- td_fd_header d idx;
        Ok (mkFnode label (Some (input_of h)) cf None, fo)
    | PyUnion lt rt cf => Ok (mkFnode label None cf (Some (Z.of_N lt, Z.of_N rt)), fo)
    | PyRange first last cf =>
        let (curr, fo') := unfold_range fo cf (Z.of_N first) (py_range (first + 1) last) in
        Ok (mkFnode label None cf (Some (curr, Z.of_N last)), fo')
    | PyUntainted => Exit
    end.

(** get_node, taint_dag.py:798-808: KeyError for a label that is not in the cache. *)
Definition get_node (d : tdfile) (fo : forest) (label : Z) : Res (fnode * forest) :=
  match dict_get Z.eqb (fo_cache fo) label with
  | None => Exit
  | Some (Some n) => Ok (n, fo)
  | Some None =>
      do p <- create_node d fo label;
      let (n, fo') := p in
      Ok (n, mkForest (dict_set Z.eqb (fo_cache fo') label (Some n)) (fo_synth fo'))
  end.

(** nodes, taint_dag.py:810-814, run to the end. *)
Definition max_key (c : list (Z * option fnode)) : Z := fold_right (fun p m => Z.max (fst p) m) 0%Z c.
Fixpoint nodes_loop (fuel : nat) (d : tdfile) (fo : forest) (label : Z) : Res (list fnode * forest) :=
  match dict_get Z.eqb (fo_cache fo) label with
  | None => Ok ([], fo)
  | Some _ =>
      match fuel with
      | O => Fuel
      | S f => do p <- get_node d fo label;
               let (n, fo1) := p in
               do q <- nodes_loop f d fo1 (label - 1)%Z;
               Ok (n :: fst q, snd q)
      end
  end.
Definition forest_nodes (fuel : nat) (d : tdfile) (fo : forest) : Res (list fnode * forest) :=
  nodes_loop fuel d fo (max_key (fo_cache fo)).

(** TDProgramTrace.file_offset, taint_dag.py:616-620, and inputs_affecting_control_flow,
    taint_dag.py:681-690: the set of ByteOffsets as a list of (source, offset). *)
Definition py_file_offset (d : tdfile) (n : fnode) : Res (py_input * N) :=
  match fn_source n with
  | None => Exit
  | Some src =>
      do v <- td_decode_node d (Z.to_N (fn_label n));
      match v with
      | PySource _ offset _ => Ok (src, offset)
      | _ => Exit
      end
  end.
Fixpoint affecting_loop (d : tdfile) (fo : forest) (labels : list N) : Res (list (py_input * N) * forest) :=
  match labels with
  | [] => Ok ([], fo)
  | l :: r =>
      do n <- td_decode_node d l;
      if node_cf n then
        do p <- get_node d fo (Z.of_N l);
        let (tn, fo1) := p in
        do b <- py_file_offset d tn;
        do q <- affecting_loop d fo1 r;
        Ok (b :: fst q, snd q)
      else affecting_loop d fo r
  end.
Definition inputs_affecting_control_flow (d : tdfile) (fo : forest) : Res (list (py_input * N) * forest) :=
  do labels <- td_input_labels d; affecting_loop d fo labels.
