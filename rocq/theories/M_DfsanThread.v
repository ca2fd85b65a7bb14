(** Records of threads in the DFSan runtime
    (polytracker/src/compiler-rt/lib/dfsan/dfsan_thread.cpp, dfsan_thread.h and
    dfsan_custom.cpp:772-826, 1587-1598).

    Every thread has a record in memory of its own.  Simplified: the bounds of the stack
    are left out (they are for stack traces only), and so are origins; function pointers
    and arguments are numbers; threads are numbered and numbers are not used again. *)
From Coq Require Import NArith ZArith List Bool.
From Verif Require Import M_Base.
Import ListNotations.
Open Scope N_scope.

(** GetPthreadDestructorIterations, sanitizer_common.h:915-925. *)
Definition ITERATIONS : N := 4.

(** DFsanThread, dfsan_thread.h:21-62. *)
Record record := mkRec { destructor_iterations : N; start_routine : N; arg : N; in_signal_handler : N }.

(** Memory that holds records; for each thread dfsan_current_thread (dfsan_thread.cpp:99)
    and its value of tsd_key (90); the calls of start routines: thread, routine, argument,
    label of the argument. *)
Record state := mkState { mem_ : N -> option record; current : N -> option N; tsd : N -> option N; calls : list (N * N * N * N) }.
Definition put {A} (f : N -> A) (i : N) (x : A) : N -> A := fun k => if k =? i then x else f k.

(** An access through a pointer to a record: undefined if it is not mapped. *)
Definition deref (st : state) (t : N) : Res record := match mem_ st t with Some r => Ok r | None => UB end.
Definition store (st : state) (t : N) (r : record) : state := mkState (put (mem_ st) t (Some r)) (current st) (tsd st) (calls st).

(** DFsanThread::Create, dfsan_thread.cpp:9-22; [t] is where MmapOrDie puts it; mapped
    memory is zero. *)
Definition create (st : state) (t routine a : N) : state := store st t (mkRec ITERATIONS routine a 0).

(** dfsan_pthread_create and __dfsw_pthread_create, dfsan_custom.cpp:778-812: what libc's
    pthread_create answers is the result, with label 0; the record of the thread is made
    before.  The labels of the arguments are not used. *)
Definition dfsw_pthread_create (st : state) (t routine a : N) (routine_label arg_label : N) (res : Z) : Z * N * state :=
  (res, 0, create st t routine a).

(** SetCurrentThread, dfsan_thread.cpp:103-110, of thread [j]. *)
Definition set_current (st : state) (j t : N) : Res state :=
  match current st j with
  | Some _ => Exit
  | None => Ok (mkState (mem_ st) (put (current st) j (Some t)) (put (tsd st) j (Some t)) (calls st))
  end.

(** ThreadStart, dfsan_thread.cpp:48-75, without origins: the start routine is called with
    the argument, whose label is 0, unless it is null. *)
Definition thread_start (st : state) (j t : N) : Res state :=
  do r <- deref st t;
  if start_routine r =? 0 then Ok st
  else Ok (mkState (mem_ st) (current st) (tsd st) (calls st ++ [(j, start_routine r, arg r, 0)])).

(** DFsanThreadStartFunc, dfsan_custom.cpp:772-776. *)
Definition start_func (st : state) (j t : N) : Res state := do st' <- set_current st j t; thread_start st' j t.

(** Destroy, dfsan_thread.cpp:43-46: UnmapOrDie ends the process if nothing is mapped. *)
Definition destroy (st : state) (t : N) : Res state :=
  match mem_ st t with
  | Some _ => Ok (mkState (put (mem_ st) t None) (current st) (tsd st) (calls st))
  | None => Exit
  end.

(** DFsanTSDDtor, dfsan_thread.cpp:112-123, in thread [j]; libc has set the value of the
    key to null before. *)
Definition tsd_dtor (st : state) (j t : N) : Res state :=
  do r <- deref st t;
  if 1 <? destructor_iterations r then
    let st1 := store st t (mkRec (destructor_iterations r - 1) (start_routine r) (arg r) (in_signal_handler r)) in
    Ok (mkState (mem_ st1) (current st1) (put (tsd st1) j (Some t)) (calls st1))
  else
    destroy (mkState (mem_ st) (put (current st) j None) (tsd st) (calls st)) t.

(** What libc does with the key of the runtime when it goes through the thread specific
    data of thread [j] once (nptl_deallocate_tsd). *)
Definition libc_round (st : state) (j : N) : Res state :=
  match tsd st j with
  | Some t => tsd_dtor (mkState (mem_ st) (current st) (put (tsd st) j None) (calls st)) j t
  | None => Ok st
  end.

(** SignalHandlerScope, dfsan_custom.cpp:1587-1598, and EnterSignalHandler,
    LeaveSignalHandler, InSignalHandler (dfsan_thread.h:39-41; the counter is unsigned). *)
Definition enter_signal (st : state) (j : N) : Res state :=
  match current st j with
  | Some t => do r <- deref st t; Ok (store st t (mkRec (destructor_iterations r) (start_routine r) (arg r) (add32 (in_signal_handler r) 1)))
  | None => Ok st
  end.
Definition leave_signal (st : state) (j : N) : Res state :=
  match current st j with
  | Some t => do r <- deref st t; Ok (store st t (mkRec (destructor_iterations r) (start_routine r) (arg r) (add32 (in_signal_handler r) (two32 - 1))))
  | None => Ok st
  end.
(** dfsan.cpp:354-356: whether the runtime thinks a handler is running. *)
Definition in_signal (st : state) (j : N) : Res bool :=
  match current st j with
  | Some t => do r <- deref st t; Ok (negb (in_signal_handler r =? 0))
  | None => Ok false
  end.

(** AdjustStackSize, sanitizer_posix_libcdep.cpp:398-421, on an attribute object with
    stack address [addr] (glibc answers minus the size if none is set) and size; the
    result is the size afterwards. [min] is GetTlsSize() + 128 * 1024. *)
Definition adjust_stack_size (min addr size : N) : N :=
  let stack_set := negb (addr =? 0) && negb (add64 addr size =? 0) in
  if size <? min then (if stack_set then size else if size =? 0 then size else min) else size.
