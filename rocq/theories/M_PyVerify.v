(** Model of build_in_docker/verify_cavities.py: verify_cavities (all cavities of a file mutated
    at once), and of build_in_docker/cavity_results.py: the summary of many verifications.

    Simplifications: the results directory is a function from names to contents and nothing else
    writes to it during a call; the input file lies elsewhere; Docker and the tool are a function
    from the contents of the mutated file to the return code and the output written; sha256 is a
    function; a json file is a record.  The numbers printed are exact fractions (the program
    prints two decimals of a float). *)
From Coq Require Import NArith ZArith QArith List Bool.
From Verif Require Import M_Base M_PyMutate.
Import ListNotations.
Local Open Scope Z_scope.

(** pathlib's PurePath.stem and suffix of a file name (Python's library): split at the last dot,
    unless nothing comes before or after it. *)
Fixpoint rsplit_dot (s : name) : option (name * name) :=
  match s with
  | [] => None
  | c :: r =>
      match rsplit_dot r with
      | Some (a, b) => Some (c :: a, b)
      | None => if (c =? 46)%N then Some ([], c :: r) else None
      end
  end.
Definition stem_suffix (s : name) : name * name :=
  match rsplit_dot s with
  | Some ((_ :: _) as a, (_ :: _ :: _) as b) => (a, b)
  | _ => (s, [])
  end.
Definition stem (s : name) : name := fst (stem_suffix s).
Definition suffix (s : name) : name := snd (stem_suffix s).

(** method_mapping's names, mutate_cavities.py:41-46: zero, rand, reverse, flip. *)
Definition method_name (m : method) : name :=
  (match m with
   | MZero => [122; 101; 114; 111]
   | MRandom _ => [114; 97; 110; 100]
   | MReverse => [114; 101; 118; 101; 114; 115; 101]
   | MFlip => [102; 108; 105; 112]
   end)%N.
(** target_path, mutate_cavities.py:129-130: the stem, ".mut-", the method and the suffix. *)
Definition mut_tag : name := [46; 109; 117; 116; 45]%N.
Definition target_path (nm : name) (m : method) : name := stem nm ++ mut_tag ++ method_name m ++ suffix nm.

(** result_file, verify_cavities.py:29-30. *)
Definition result_file (nm : name) (output_ext : name) : name := stem nm ++ output_ext.

(** The results directory. *)
Definition dir := name -> option (list N).
Definition put (d : dir) (nm : name) (data : list N) : dir := fun x => if name_eqb x nm then Some data else d x.

(** The lines of the returned text. *)
Inductive line : Type :=
| LNoOriginal       (* 45 *)
| LZeroBytes        (* 48 *)
| LNoCavities       (* 53 *)
| LNoMutation       (* 59 *)
| LTimeout          (* 66 *)
| LFailure          (* 68 *)
| LNoOutput         (* 71-78 *)
| LDiffer           (* 84 *)
| LOk.              (* 86 *)

(** What a run of the tool gives: the return code and what it wrote to the output path.
    file_cavity_detection.py:110-164 (_run, run_non_instrumented). *)
Record ran := mkRan { ran_code : Z; ran_output : option (list N) }.
Definition is_timeout (r : ran) : bool := ran_code r =? 124.
Definition is_failure (r : ran) : bool := negb (is_timeout r) && existsb (Z.eqb (ran_code r)) [125; 126; 127].

(** verify_cavities, verify_cavities.py:33-87, for the input file [nm] with contents [data]. *)
Definition verify_cavities (checksum : list N -> N) (tool : list N -> ran) (ext : name) (d : dir)
    (nm : name) (data : list N) (csv : list row) (m : method) (limit skip : Z) : list line * dir :=
  let orig_output := result_file nm ext in
  match d orig_output with
  | None => ([LNoOriginal], d)
  | Some [] => ([LZeroBytes], d)
  | Some _ =>
      match mutate_cavities data nm csv m limit skip with
      | None => ([LNoCavities], d)
      | Some mutated =>
          let mutated_file := target_path nm m in
          let d1 := put d mutated_file mutated in
          if (checksum data =? checksum mutated)%N then ([LNoMutation], d1)
          else
            let mutfile := result_file mutated_file ext in
            let r := tool mutated in
            let d2 := match ran_output r with Some o => put d1 mutfile o | None => d1 end in
            let warnings := (if is_timeout r then [LTimeout] else []) ++ (if is_failure r then [LFailure] else []) in
            match d2 mutfile with
            | None => (warnings ++ [LNoOutput], d2)
            | Some mo =>
                match d2 orig_output with
                | None => (warnings, d2)     (* not reached: the file existed above *)
                | Some oo => if (checksum oo =? checksum mo)%N then (warnings ++ [LOk], d2)
                             else (warnings ++ [LDiffer], d2)
                end
            end
      end
  end.

(** ** The summary *)
(** A *-verification.json file: an error, which may be "No cavities detected", or the statistics
    of verify_in_container. *)
Inductive result : Type :=
| RError (no_cavities : bool)
| RStats (filesize : N) (cavity non_cavity : stats).

(** The variables of main, cavity_results.py:33-46. *)
Record totals := mkTotals {
  t_no_cavity_files : N; t_error_files : N; t_files : N; t_bytes : N;
  t_cavity : stats; t_other : stats; t_fraction : Q }.
Definition totals0 : totals := mkTotals 0 0 0 0 stats0 stats0 0.
Definition add_stats (a b : stats) : stats :=
  mkStats (st_count a + st_count b) (st_no_output a + st_no_output b) (st_eq a + st_eq b) (st_diff a + st_diff b).
Definition NQ (n : N) : Q := inject_Z (Z.of_N n).
(** Python's division: ZeroDivisionError is [Exit]. *)
Definition div (a b : Q) : Res Q := if Qeq_bool b 0 then Exit else Ok (a / b)%Q.

(** One turn of the loop, cavity_results.py:52-78. *)
Definition add_result (t : totals) (r : result) : Res totals :=
  let files := (t_files t + 1)%N in
  match r with
  | RError true => Ok (mkTotals (t_no_cavity_files t + 1) (t_error_files t) files (t_bytes t) (t_cavity t) (t_other t) (t_fraction t))
  | RError false => Ok (mkTotals (t_no_cavity_files t) (t_error_files t + 1) files (t_bytes t) (t_cavity t) (t_other t) (t_fraction t))
  | RStats size cav noncav =>
      do f <- div (NQ (st_count cav) * 100) (NQ size);
      Ok (mkTotals (t_no_cavity_files t) (t_error_files t) files (t_bytes t + size)
            (add_stats (t_cavity t) cav) (add_stats (t_other t) noncav) (t_fraction t + f))
  end.
Fixpoint add_results (t : totals) (rs : list result) : Res totals :=
  match rs with
  | [] => Ok t
  | r :: rest => do t' <- add_result t r; add_results t' rest
  end.

(** The lines printed, cavity_results.py:80-106, each with its numbers. *)
Inductive printed_line : Type :=
| PFiles (n : N) | PNoCavities (n : N) | PErrors (n : N) | PSize (n : N) | PAvgSize (q : Q)
| PCavityBytes (n : N) | POtherBytes (n : N) | PAvgCavity (q : Q) | PAvgFraction (q : Q)
| PCavityEq (q : Q) (eq count : N) | PCavityNoOutput (q : Q) | POtherEq (q : Q) | POtherAffected (q : Q).
(** What appears before the first exception, and whether there is one. *)
Fixpoint print_all (ls : list (Res printed_line)) : list printed_line * bool :=
  match ls with
  | [] => ([], true)
  | Ok p :: rest => let '(ps, ok) := print_all rest in (p :: ps, ok)
  | _ :: _ => ([], false)
  end.
Definition print_totals (t : totals) : list printed_line * bool :=
  let files := NQ (t_files t) in
  let cav := t_cavity t in
  let oth := t_other t in
  print_all
    [ Ok (PFiles (t_files t)); Ok (PNoCavities (t_no_cavity_files t)); Ok (PErrors (t_error_files t)); Ok (PSize (t_bytes t));
      (do q <- div (NQ (t_bytes t)) files; Ok (PAvgSize q));
      Ok (PCavityBytes (st_count cav)); Ok (POtherBytes (st_count oth));
      (do q <- div (NQ (st_count cav)) files; Ok (PAvgCavity q));
      (do q <- div (t_fraction t) files; Ok (PAvgFraction q));
      (do q <- div (100 * NQ (st_eq cav)) (NQ (st_count cav)); Ok (PCavityEq q (st_eq cav) (st_count cav)));
      (do q <- div (100 * NQ (st_no_output cav)) (NQ (st_count cav)); Ok (PCavityNoOutput q));
      (do q <- div (100 * NQ (st_eq oth)) (NQ (st_count oth)); Ok (POtherEq q));
      (do q <- div (100 * (NQ (st_diff oth) + NQ (st_no_output oth))) (NQ (st_count oth)); Ok (POtherAffected q)) ].

(** main, cavity_results.py:48-106: an exception in the loop prints nothing. *)
Definition summary (rs : list result) : list printed_line * bool :=
  match add_results totals0 rs with
  | Ok t => print_totals t
  | _ => ([], false)
  end.
