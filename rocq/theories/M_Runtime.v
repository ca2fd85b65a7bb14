(** Model of the process-level runtime: polytracker/src/polytracker/{polytracker,main}.cpp,
    polytracker/src/taint_sources/{taint_sources,write_taints,argv}.cpp and
    polytracker/src/taintdag/util.cpp.

    The wrapped libc functions are not modelled: what they return (and the file position
    reported before the call) are arguments of the wrappers. *)
From Coq Require Import NArith ZArith List Bool.
From Verif Require Import M_Base M_Memory M_StringTable M_Functions M_CfLog M_OutputFile M_Api.
From Verif Require M_Dfsan.
Import ListNotations.
Open Scope N_scope.

(** ** util.cpp: Length and Offset; [None] is an invalid one. *)
(** Length::from_returned_size, util.cpp:19-25. *)
Definition from_returned_size (retval : Z) : option N :=
  if (0 <? retval)%Z then Some (Z.to_N retval) else None.

(** Length::from_returned_size_count, util.cpp:27-46; __builtin_umull_overflow stores the
    product modulo 2^64 and tells whether it was cut. *)
Definition umull_overflow (a b : N) : bool * N := (two64 <=? a * b, mul64 a b).
Definition from_returned_size_count (size nitems : N) : Res (option N) :=
  let (overflow, byte_size) := umull_overflow size nitems in
  if overflow then Exit
  else if byte_size =? 0 then Ok None
  else Ok (Some byte_size).

(** string_view::length / strlen over application memory [app]. *)
Fixpoint c_strlen (fuel : nat) (app : N -> N) (p : N) : Res N :=
  match fuel with
  | O => Fuel
  | S f => if app p =? 0 then Ok 0 else do k <- c_strlen f app (p + 1); Ok (1 + k)
  end.

(** Length::from_returned_string, util.cpp:48-54; [None] is the null pointer. *)
Definition from_returned_string (fuel : nat) (app : N -> N) (str : option N) : Res (option N) :=
  match str with
  | Some p => do k <- c_strlen fuel app p; Ok (Some k)
  | None => Ok None
  end.

(** max_source_offset, taint.h:57-58, and Offset::from_off_t, util.cpp:70-82;
    from_fd and from_file (util.cpp:62-68) pass on what lseek and ftello return. *)
Definition max_source_offset : N := 2 ^ 54 - 1.
Definition from_off_t (offset_value : Z) : Res (option N) :=
  if (offset_value <? 0)%Z then Ok None
  else if (Z.of_N max_source_offset <? offset_value)%Z then Exit
  else Ok (Some (Z.to_N offset_value)).

(** ** The process *)
(** The storage of the PolyTracker instance (early_construct.h): not constructed yet, in
    use, or destroyed; then [file] is what the destructor left in the output file. *)
Inductive tdag : Type :=
| Raw
| Live (r : rt)
| Dead (file : mem).

(** polytracker_init_flag (polytracker.cpp:14), polytracker_taint_argv (main.cpp:31). *)
Record proc := mkProc { p_flag : bool; p_argv : bool; p_tdag : tdag }.
Definition proc_start : proc := mkProc false false Raw.

(** get_polytracker_tdag(), early_construct.h:17-21, 44-48: a reference to the storage; using it
    when no object lives there is undefined. *)
Definition get_tdag (p : proc) : Res rt :=
  match p_tdag p with Live r => Ok r | _ => UB end.
Definition set_rt (p : proc) (r : rt) : proc := mkProc (p_flag p) (p_argv p) (Live r).

(** ** Instrumentation callbacks, polytracker.cpp *)
(** __polytracker_log_func_entry, polytracker.cpp:24-30. *)
Definition cb_func_entry (pad : N) (p : proc) (name : list N) : Res (N * proc) :=
  if negb (p_flag p) then Ok (0, p)
  else do r <- get_tdag p; do q <- rt_fn_entry pad r name; Ok (fst q, set_rt p (snd q)).

(** __polytracker_log_func_exit, polytracker.cpp:32-38. *)
Definition cb_func_exit (pad : N) (p : proc) (i : N) : Res proc :=
  if negb (p_flag p) then Ok p
  else do r <- get_tdag p; do r' <- rt_fn_exit pad r i; Ok (set_rt p r').

(** __polytracker_union_table, polytracker.cpp:40-46. *)
Definition cb_union (p : proc) (l1 l2 : N) : Res (N * proc) :=
  if negb (p_flag p) then Ok (0, p)
  else do r <- get_tdag p; do q <- rt_union r l1 l2; Ok (fst q, set_rt p (snd q)).

(** __polytracker_log_conditional_branch, polytracker.cpp:48-56. *)
Definition cb_cond_branch (fuel : nat) (junk : N) (p : proc) (label : N) : Res proc :=
  if negb (p_flag p) then Ok p
  else if 0 <? label then do r <- get_tdag p; do r' <- rt_affects fuel junk r label; Ok (set_rt p r')
  else Ok p.

(** __dfsw___polytracker_log_conditional_branch, polytracker.cpp:58-65. *)
Definition cb_dfsw_cond_branch (fuel : nat) (junk : N) (p : proc) (conditional label : N) : Res proc :=
  if negb (p_flag p) then Ok p else cb_cond_branch fuel junk p label.

(** __dfsw___polytracker_log_tainted_control_flow, polytracker.cpp:76-88.  Returns the
    value and the label stored to *ret_label; [old] is what that held before. *)
Definition cb_tainted_cf (p : proc) (conditional function_id label old : N) : Res (N * N * proc) :=
  if negb (p_flag p) then Ok (0, old, p)
  else
    do p' <- (if 0 <? label
              then do r <- get_tdag p; do r' <- rt_cf r (CfTainted label function_id); Ok (set_rt p r')
              else Ok p);
    Ok (conditional, label, p').

(** __polytracker_enter_function, __polytracker_leave_function, polytracker.cpp:90-102. *)
Definition cb_enter (p : proc) (function_id : N) : Res proc :=
  if negb (p_flag p) then Ok p
  else do r <- get_tdag p; do r' <- rt_cf r (CfEnter function_id); Ok (set_rt p r').
Definition cb_leave (p : proc) (function_id : N) : Res proc :=
  if negb (p_flag p) then Ok p
  else do r <- get_tdag p; do r' <- rt_cf r (CfLeave function_id); Ok (set_rt p r').

(** ** Start and end, main.cpp *)
(** The environment variables POLYTRACKER_STDOUT_SINK, _STDERR_SINK, _STDIN_SOURCE and
    _TAINT_ARGV (main.cpp:59-79), [None] when unset.  POLYDB only names the file; its
    creation and mapping are taken to succeed. *)
Record env := mkEnv { e_stdout : option (list N); e_stderr : option (list N);
                      e_stdin : option (list N); e_argv : option (list N) }.

(** get_polytracker_..() == "1"; the strings are empty when unset. *)
Definition is_one (v : option (list N)) : bool :=
  match v with Some s => bytes_eqb s [49] | None => false end.
(** argv[0] == '1' on the value of POLYTRACKER_TAINT_ARGV, main.cpp:76-78. *)
Definition starts_with_one (v : option (list N)) : option bool :=
  match v with Some s => Some (hd 0 s =? 49) | None => None end.

(** One of the three openings of sink_streams and stdin_source, main.cpp:132-148; [fd] is
    fileno of the stream and [size] what file_size says about the path. *)
Definition start_stream (r : rt) (fd : Z) (on : option (list N)) (path : list N) (size : option N) : Res rt :=
  if (0 <=? fd)%Z && is_one on then rt_open r fd path size else Ok r.

(** "/dev/stdout", "/dev/stderr", "/dev/stdin". *)
Definition dev_stdout : list N := [47; 100; 101; 118; 47; 115; 116; 100; 111; 117; 116].
Definition dev_stderr : list N := [47; 100; 101; 118; 47; 115; 116; 100; 101; 114; 114].
Definition dev_stdin : list N := [47; 100; 101; 118; 47; 115; 116; 100; 105; 110].

(** taint_start, main.cpp:150-159; [fd] and [size] per stream (stdout, stderr, stdin).
    What is printed about the settings is in M_Settings. *)
Definition taint_start (p : proc) (e : env) (base : N) (fo fe fi : Z) (so se si : option N) : Res proc :=
  let argv := match starts_with_one (e_argv e) with Some b => b | None => p_argv p end in
  do r <- rt_new base;
  do r <- start_stream r fo (e_stdout e) dev_stdout so;
  do r <- start_stream r fe (e_stderr e) dev_stderr se;
  do r <- start_stream r fi (e_stdin e) dev_stdin si;
  Ok (mkProc (p_flag p) argv (Live r)).

(** __taint_start, polytracker.cpp:67-70. *)
Definition cb_start (p : proc) (e : env) (base : N) (fo fe fi : Z) (so se si : option N) : Res proc :=
  do p' <- taint_start p e base fo fe fi so se si; Ok (mkProc true (p_argv p') (p_tdag p')).

(** polytracker_end, main.cpp:98-107; run at exit, and by __dfsw___assert_fail
    (taint_sources.cpp:402-410).  The initialised flag is left alone. *)
Definition polytracker_end (p : proc) (fo fe : Z) : Res proc :=
  do r <- get_tdag p;
  let r1 := if (0 <=? fo)%Z then rt_close r fo else r in
  let r2 := if (0 <=? fe)%Z then rt_close r1 fe else r1 in
  Ok (mkProc (p_flag p) (p_argv p) (Dead (rt_shutdown r2))).

(** ** argv.cpp *)
(** std::to_string of an int that is not negative (ten digits at most). *)
Fixpoint digits (fuel : nat) (n : N) (acc : list N) : list N :=
  match fuel with
  | O => acc
  | S f => let acc := (48 + n mod 10) :: acc in if n <? 10 then acc else digits f (n / 10) acc
  end.
Definition to_string (n : N) : list N := digits 20 n [].
(** "argv[" + std::to_string(i) + "]", argv.cpp:26. *)
Definition argv_name (i : N) : list N := [97; 114; 103; 118; 91] ++ to_string i ++ [93].

(** The loop of taint_argv, argv.cpp:25-30. *)
Fixpoint taint_argv_loop (fuel : nat) (app : N -> N) (r : rt) (i : N) (argv : list N) : Res rt :=
  match argv with
  | [] => Ok r
  | a :: rest =>
      do n <- c_strlen fuel app a;
      do q <- rt_named r (argv_name i) a n;
      taint_argv_loop fuel app (snd q) (i + 1) rest
  end.

(** taint_argv, argv.cpp:11-31, and __polytracker_taint_argv, polytracker.cpp:72-74; argc is
    the number of pointers (never negative here).  Not guarded by the initialised flag. *)
Definition taint_argv (fuel : nat) (app : N -> N) (p : proc) (argv : list N) : Res proc :=
  if negb (p_argv p) then Ok p
  else match argv with
       | [] => Ok p
       | _ => do r <- get_tdag p; do r' <- taint_argv_loop fuel app r 0 argv; Ok (set_rt p r')
       end.

(** ** libc wrappers, taint_sources.cpp: (return value, its label, process) *)
(** taint_source_buffer, taint_sources.cpp:80-87. *)
Definition taint_source_buffer (p : proc) (fd : Z) (buff : N) (offset length : option N) : Res proc :=
  match length with
  | Some n => do r <- get_tdag p; do q <- rt_source_mem r fd buff offset n; Ok (set_rt p (snd q))
  | None => Ok p
  end.

(** impl_open, taint_sources.cpp:50-64, __dfsw_open(64), __dfsw_openat (159-187); [fd] is what open
    returned.  That the wrappers hand a va_list instead of the mode to open is not visible
    here. *)
Definition w_open (p : proc) (path : list N) (fd : Z) (size : option N) : Res (Z * N * proc) :=
  do p' <- (if (0 <=? fd)%Z then do r <- get_tdag p; do r' <- rt_open r fd path size; Ok (set_rt p r') else Ok p);
  Ok (fd, 0, p').

(** impl_fopen, taint_sources.cpp:66-76; [file] is fileno of the stream, [None] for the null
    pointer. *)
Definition w_fopen (p : proc) (path : list N) (file : option Z) (size : option N) : Res (option Z * N * proc) :=
  do p' <- (match file with
            | Some fd => do r <- get_tdag p; do r' <- rt_open r fd path size; Ok (set_rt p r')
            | None => Ok p
            end);
  Ok (file, 0, p').

(** __dfsw_close, __dfsw_fclose, taint_sources.cpp:201-221; [fd] is fileno of the stream. *)
Definition w_close (p : proc) (fd : Z) (ret : Z) : Res (Z * N * proc) :=
  do p' <- (if (ret =? 0)%Z then do r <- get_tdag p; Ok (set_rt p (rt_close r fd)) else Ok p);
  Ok (ret, 0, p').

(** __dfsw_read, __dfsw_recv, __dfsw_recvfrom through impl_read_recv_functions and
    impl_offset_read_functions, taint_sources.cpp:119-140, 223-227, 503-520; [pos] is what lseek(fd, 0,
    SEEK_CUR) said before the call. *)
Definition w_read (p : proc) (fd : Z) (buff : N) (pos ret : Z) : Res (Z * N * proc) :=
  do offset <- from_off_t pos;
  do p' <- taint_source_buffer p fd buff offset (from_returned_size ret);
  Ok (ret, 0, p').

(** __dfsw_pread(64), taint_sources.cpp:229-245. *)
Definition w_pread (p : proc) (fd : Z) (buff : N) (offset ret : Z) : Res (Z * N * proc) :=
  do o <- from_off_t offset;
  do p' <- taint_source_buffer p fd buff o (from_returned_size ret);
  Ok (ret, 0, p').

(** impl_fread, taint_sources.cpp:147-155; [fd] is fileno, [pos] is what ftello said before. *)
Definition w_fread (p : proc) (fd : Z) (buff size : N) (pos : Z) (ret : N) : Res (N * N * proc) :=
  do offset <- from_off_t pos;
  do length <- from_returned_size_count size ret;
  do p' <- taint_source_buffer p fd buff offset length;
  Ok (ret, 0, p').

(** impl_getc_style_functions, taint_sources.cpp:94-111; EOF is -1. *)
Definition w_getc (p : proc) (fd : Z) (pos c : Z) : Res (Z * N * proc) :=
  do offset <- from_off_t pos;
  if (c =? -1)%Z then Ok (c, 0, p)
  else do r <- get_tdag p;
       do q <- rt_source_range r fd offset 1;
       Ok (c, match fst q with Some (f, _) => f | None => 0 end, set_rt p (snd q)).

(** __dfsw_fgets, taint_sources.cpp:296-307, and __dfsw_gets, 312-326 (fgets of at most 8 bytes
    from stdin); [app] is memory after the call, [ok] tells that fgets did not return null. *)
Definition w_fgets (fuel : nat) (app : N -> N) (p : proc) (fd : Z) (str : N) (pos : Z) (ok : bool) (str_label : N)
  : Res (bool * N * proc) :=
  do offset <- from_off_t pos;
  do length <- from_returned_string fuel app (if ok then Some str else None);
  do p' <- taint_source_buffer p fd str offset length;
  Ok (ok, match length with Some _ => str_label | None => 0 end, p').

(** __dfsw_getdelim, __dfsw___getdelim, taint_sources.cpp:328-352; [line] is *lineptr after the call. *)
Definition w_getdelim (p : proc) (fd : Z) (line : N) (pos ret : Z) : Res (Z * N * proc) :=
  do offset <- from_off_t pos;
  do p' <- taint_source_buffer p fd line offset (from_returned_size ret);
  Ok (ret, 0, p').

(** dfsan_set_label(0, addr, n).  Labels live in the runtime state here, so the model has nothing
    to clear unless the runtime is up. *)
Fixpoint clear_bytes (r : rt) (addr : N) (n : nat) : rt :=
  match n with O => r | S k => clear_bytes (rt_set_label r addr 0) (addr + 1) k end.
Definition clear (p : proc) (addr n : N) : proc :=
  match p_tdag p with Live r => set_rt p (clear_bytes r addr (N.to_nat n)) | _ => p end.

(** __dfsw_mmap, taint_sources.cpp:354-367; [ret] is the address, [None] MAP_FAILED.  The mmap
    it calls is the interceptor's, dfsan_interceptors.cpp:30-45, which clears whole pages. *)
Definition w_mmap (p : proc) (length : N) (fd : Z) (offset : Z) (ret : option N) : Res (option N * N * proc) :=
  do offs <- from_off_t offset;
  do p' <- (match ret with
            | Some a => let p1 := clear p a (M_Dfsan.round_up length) in
                        do r <- get_tdag p1; do q <- rt_source_mem r fd a offs length; Ok (set_rt p1 (snd q))
            | None => Ok p
            end);
  Ok (ret, 0, p').

(** __dfsw_munmap, taint_sources.cpp:369-378; munmap is the interceptor's,
    dfsan_interceptors.cpp:55-60, which clears whole pages unless the call failed. *)
Definition w_munmap (p : proc) (addr length : N) (ret : Z) : Res (Z * N * proc) :=
  let p1 := if (ret =? -1)%Z then p else clear p addr (M_Dfsan.round_up length) in
  Ok (ret, 0, clear p1 addr length).

(** __dfsw_accept(4), __dfsw_connect, taint_sources.cpp:453-501; [name] is what connect_name
    made of the addresses: nothing for other address families, an exit when the libc calls
    fail.  [ok] tells that the wrapped call succeeded. *)
Definition w_socket (p : proc) (fd : Z) (ok : bool) (name : Res (option (list N))) (size : option N) (ret : Z)
  : Res (Z * N * proc) :=
  do p' <- (if ok then
              do n <- name;
              match n with
              | Some path => do r <- get_tdag p; do r' <- rt_open r fd path size; Ok (set_rt p r')
              | None => Ok p
              end
            else Ok p);
  Ok (ret, 0, p').

(** ** write_taints.cpp *)
(** impl_taint_sink, write_taints.cpp:35-40. *)
Definition impl_taint_sink (pad : N -> list N) (p : proc) (fd : Z) (offset length : option N) (buffer : N) : Res proc :=
  match length with
  | Some n => do r <- get_tdag p; do r' <- rt_sink_mem pad r fd offset buffer n; Ok (set_rt p r')
  | None => Ok p
  end.

(** __dfsw_write and __dfsw_send through impl_write_send, write_taints.cpp:49-65, 98-107. *)
Definition w_write (pad : N -> list N) (p : proc) (fd : Z) (buf : N) (pos ret : Z) : Res (Z * N * proc) :=
  do offset <- from_off_t pos;
  do p' <- impl_taint_sink pad p fd offset (from_returned_size ret) buf;
  Ok (ret, 0, p').

(** __dfsw_fwrite, write_taints.cpp:67-78. *)
Definition w_fwrite (pad : N -> list N) (p : proc) (fd : Z) (buf size : N) (pos : Z) (ret : N) : Res (N * N * proc) :=
  do offset <- from_off_t pos;
  do length <- from_returned_size_count size ret;
  do p' <- impl_taint_sink pad p fd offset length buf;
  Ok (ret, 0, p').

(** __dfsw_putc, __dfsw_fputc, write_taints.cpp:80-95. *)
Definition w_putc (pad : N -> list N) (p : proc) (ch : Z) (fd : Z) (pos ret : Z) (ch_label : N) : Res (Z * N * proc) :=
  do offset <- from_off_t pos;
  do p' <- (if (ret =? ch)%Z
            then do r <- get_tdag p; do r' <- rt_sink_label pad r fd offset ch_label 1; Ok (set_rt p r')
            else Ok p);
  Ok (ret, 0, p').

(** __dfsw__putc, taint_sources.cpp:380-384. *)
Definition w_underscore_putc (p : proc) (ret : Z) : Res (Z * N * proc) := Ok (ret, 0, p).
