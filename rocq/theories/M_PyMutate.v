(** Model of the tools that check cavities: build_in_docker/mutate_cavities.py, the parts of
    build_in_docker/file_cavity_detection.py and build_in_docker/verify_cavities.py that do not
    start processes, and the output of "polytracker cavities" (polytracker/mapping.py:190-214).

    Simplifications: a csv file is the list of its rows, with the numbers parsed (names hold no
    comma, quote or line break); Docker and the tool that is checked are functions; files do not
    change while they are processed. *)
From Coq Require Import NArith ZArith List Bool.
From Verif Require Import M_Base.
Import ListNotations.
Open Scope Z_scope.

Definition name := list N.
Definition name_eqb (a b : name) : bool := if list_eq_dec N.eq_dec a b then true else false.
Definition row : Type := name * Z * Z.

(** Python slices of a bytearray: data[a:b] and data[a:b] = v.  Negative bounds count from the end,
    bounds are cut to the length, and a slice that ends before it starts is empty. *)
Definition zlen {A} (l : list A) : Z := Z.of_nat (length l).
Definition bound (n i : Z) : Z := Z.max 0 (Z.min (if i <? 0 then i + n else i) n).
Definition slice_lo {A} (l : list A) (a : Z) : nat := Z.to_nat (bound (zlen l) a).
Definition slice_hi {A} (l : list A) (a b : Z) : nat := Nat.max (slice_lo l a) (Z.to_nat (bound (zlen l) b)).
Definition slice_get {A} (l : list A) (a b : Z) : list A := firstn (slice_hi l a b - slice_lo l a) (skipn (slice_lo l a) l).
Definition slice_set {A} (l : list A) (a b : Z) (v : list A) : list A := firstn (slice_lo l a) l ++ v ++ skipn (slice_hi l a b) l.

(** ~x & 0xFF *)
Definition flip (x : N) : N := Z.to_N (Z.land (Z.lnot (Z.of_N x)) 255).

(** method_zero, method_random, method_reverse, method_flip, mutate_cavities.py:18-46.  [rnd i j] is
    the number randint(0, 255) returns for byte [j] of the [i]th cavity mutated. *)
Inductive method : Type := MZero | MRandom (rnd : Z -> nat -> N) | MReverse | MFlip.
Definition apply_method (m : method) (i : Z) (cavity : list N) : list N :=
  match m with
  | MZero => map (fun _ => 0%N) cavity
  | MRandom rnd => map (rnd i) (seq 0 (length cavity))
  | MReverse => rev cavity
  | MFlip => map flip cavity
  end.

(** iter_cavities, 49-57. *)
Definition iter_cavities (nm : name) (csv : list row) : list (Z * Z) :=
  map (fun r : row => (snd (fst r), snd r)) (filter (fun r : row => name_eqb (fst (fst r)) nm) csv).

(** mutate_cavities, 133-166: the new contents, or None if nothing is written. *)
Fixpoint mutate_loop (m : method) (limit skip : Z) (cavities : list (Z * Z)) (i changes : Z) (data : list N) : list N * Z :=
  match cavities with
  | [] => (data, changes)
  | (ofirst, olast) :: rest =>
      if i <? skip then mutate_loop m limit skip rest (i + 1) changes data
      else if (limit =? -1) || (changes <? limit) then
        mutate_loop m limit skip rest (i + 1) (changes + 1)
          (slice_set data ofirst (olast + 1) (apply_method m changes (slice_get data ofirst (olast + 1))))
      else (data, changes)
  end.
Definition mutate_cavities (data : list N) (nm : name) (csv : list row) (m : method) (limit skip : Z) : option (list N) :=
  let '(d, changes) := mutate_loop m limit skip (iter_cavities nm csv) 0 0 data in
  if changes =? 0 then None else Some d.

(** ** Where the rows come from *)
(** FileCavities.run, mapping.py:203-214: one line per cavity, with the path as recorded. *)
Definition printed (cavities : list (name * list (N * N))) : list row :=
  flat_map (fun pc => map (fun c : N * N => (fst pc, Z.of_N (fst c), Z.of_N (snd c))) (snd pc)) cavities.
(** file_cavity_detection, file_cavity_detection.py:320-387: what it returns, by what happened. *)
Inductive detection : Type :=
| DTimeout | DFailed | DCavitiesTimeout | DCavitiesFailed
| DDone (out : list row).
Definition detection_rows (nm : name) (d : detection) : list row :=
  match d with
  | DTimeout => [(nm, -1, -1)]
  | DFailed => [(nm, -3, -3)]
  | DCavitiesTimeout => [(nm, -2, -2)]
  | DCavitiesFailed => [(nm, -4, -4)]
  | DDone out => out
  end.
(** Tool.container_input_path, 86-90: the traced program opens /inputs/NAME. *)
Definition inputs_dir : name := [47; 105; 110; 112; 117; 116; 115; 47]%N.
Definition container_path (nm : name) : name := inputs_dir ++ nm.

(** ** One byte at a time *)
(** iter_cavity_offsets and FileMutatorInfo, mutate_cavities.py:60-78. *)
Definition zrange (a b : Z) : list Z := map (fun k => a + Z.of_nat k) (seq 0 (Z.to_nat (b - a))).
Definition cavity_offsets (nm : name) (csv : list row) : list Z :=
  flat_map (fun c => zrange (fst c) (snd c + 1)) (iter_cavities nm csv).
Definition is_cavity (size : Z) (offsets : list Z) (o : Z) : Res bool :=
  if (o <? 0) || (size <=? o) then Exit else Ok (existsb (Z.eqb o) offsets).
(** sample_non_cavity_bytes, 80-93, with the number to sample computed; [rnd k] is the [k]th number
    numpy.random.randint(0, file_size) returns. *)
Fixpoint sample (fuel : nat) (size : Z) (offsets : list Z) (rnd : nat -> Z) (k : nat) (left_ : nat) : Res (list Z) :=
  match left_ with
  | O => Ok []
  | S left' =>
      match fuel with
      | O => Fuel
      | S f =>
          do c <- is_cavity size offsets (rnd k);
          if c then sample f size offsets rnd (S k) left_
          else do r <- sample f size offsets rnd (S k) left'; Ok (rnd k :: r)
      end
  end.

(** FileMutator.write_mutated with flip_restore, 102-127.  [ok]: the write does not raise.  The
    buffer afterwards, and what was written (None: an exception). *)
Definition write_mutated (buf : list N) (o : Z) (ok : bool) : list N * option (list N) :=
  if (o <? 0) || (zlen buf <=? o) then (buf, None)
  else
    let i := Z.to_N o in
    match get buf i with
    | None => (buf, None)
    | Some orig =>
        let mutated := upd buf i (flip orig) in
        if ok then (upd mutated i orig, Some mutated) else (mutated, None)
    end.

(** do_mutation in verify_in_container, verify_cavities.py:149-187.  [tool]: what the tool makes of a
    file; None: no output.  The unlink of a missing output raises. *)
Record stats := mkStats { st_count : N; st_no_output : N; st_eq : N; st_diff : N }.
Fixpoint do_mutation (tool : list N -> option N) (orig_sum : N) (offsets : list Z) (buf : list N) (c : stats) : Res (list N * stats) :=
  match offsets with
  | [] => Ok (buf, c)
  | o :: rest =>
      match write_mutated buf o true with
      | (_, None) => Exit
      | (buf', Some file) =>
          let c1 := mkStats (st_count c + 1) (st_no_output c) (st_eq c) (st_diff c) in
          match tool file with
          | None => Exit
          | Some s =>
              let c2 := if N.eqb s orig_sum then mkStats (st_count c1) (st_no_output c1) (st_eq c1 + 1) (st_diff c1)
                        else mkStats (st_count c1) (st_no_output c1) (st_eq c1) (st_diff c1 + 1) in
              do_mutation tool orig_sum rest buf' c2
          end
      end
  end.
(** verify_in_container, 101-199: the cavity bytes, then a sample of the others.  The result is what
    stats.json holds; Exit: it is not written. *)
Record report := mkReport { rp_size : Z; rp_cavity : stats; rp_other : stats }.
Definition stats0 := mkStats 0 0 0 0.
Definition verify_bytes (tool : list N -> option N) (data : list N) (nm : name) (csv : list row) (set_order : list Z -> list Z)
    (sampled : list Z) : Res (option report) :=
  match tool data with
  | None => Ok None
  | Some orig =>
      let offs := set_order (cavity_offsets nm csv) in
      do x <- do_mutation tool orig (if existsb (fun o => 0 <=? o) offs then offs else []) data stats0;
      do y <- do_mutation tool orig sampled (fst x) stats0;
      Ok (Some (mkReport (zlen data) (snd x) (snd y)))
  end.

(** ** Many files *)
(** path_iterator, file_cavity_detection.py:390-396: "-" stands for the lines of the standard
    input, of which nothing is left for a second "-". *)
Fixpoint path_iterator (paths : list name) (stdin : list name) : list name :=
  match paths with
  | [] => []
  | p :: r => if name_eqb p [45%N] then stdin ++ path_iterator r [] else p :: path_iterator r stdin
  end.

Section Batch.
  Variable task : name -> Res (option N).   (* the result of func(file); Exit: it raised *)
  Variable qlen : nat.                      (* target_qlen, 404-407 *)
  Variable pick : nat -> nat.               (* which task of those left completes next *)

  Record batch := mkBatch { b_left : list name; b_futures : list name; b_enqueue : bool; b_out : list N; b_done : list name }.
  (** The inner while loop, 416-423. *)
  Fixpoint enqueue_loop (left_ futures : list name) : list name * list name * bool :=
    if (length futures <? qlen)%nat then
      match left_ with
      | [] => ([], futures, false)
      | p :: r => enqueue_loop r (futures ++ [p])
      end
    else (left_, futures, true).
  (** One turn of the loop over as_completed, 425-430. *)
  Definition complete (b : batch) : Res batch :=
    let k := Nat.modulo (pick (length (b_done b))) (length (b_futures b)) in
    match nth_error (b_futures b) k with
    | None => UB
    | Some f =>
        do r <- task f;
        Ok (mkBatch (b_left b) (firstn k (b_futures b) ++ skipn (S k) (b_futures b)) (b_enqueue b)
                    (match r with Some t => b_out b ++ [t] | None => b_out b end) (b_done b ++ [f]))
    end.
  (** 425-435: one task if there are more inputs, else all that are left. *)
  Fixpoint drain (n : nat) (b : batch) : Res batch :=
    match n with O => Ok b | S m => do b' <- complete b; drain m b' end.
  Definition turn (b : batch) : Res batch :=
    let '(l, f, e) := if b_enqueue b then enqueue_loop (b_left b) (b_futures b) else (b_left b, b_futures b, false) in
    let b1 := mkBatch l f e (b_out b) (b_done b) in
    if e then (match f with [] => Ok b1 | _ => complete b1 end) else drain (length f) b1.
  (** process_paths, 399-436: what is written, and the number of files. *)
  Fixpoint batch_loop (fuel : nat) (b : batch) : Res batch :=
    match fuel with
    | O => Fuel
    | S f =>
        do b' <- turn b;
        if b_enqueue b' || negb (Nat.eqb (length (b_futures b')) 0) then batch_loop f b' else Ok b'
    end.
  Definition process_paths (fuel : nat) (paths : list name) : Res batch := batch_loop fuel (mkBatch paths [] true [] []).
End Batch.
