(** Specification: the life of threads, as the threads library and the program lead it. *)
From Coq Require Import NArith ZArith List Bool.
From Verif Require Import M_Base M_DfsanThread.
Import ListNotations.
Open Scope N_scope.

(** Events of thread [j]: someone creates it, with a record at [t] and an argument with a
    label, or tries to (pthread_create answers EAGAIN, 11); it begins; a
    signal handler begins and ends in it; it returns or calls pthread_exit; libc goes once
    more through its thread specific data; libc is done with it. *)
Inductive event :=
| ECreate (j t routine a label : N)
| EFail (t routine a label : N)
| EStart (j : N)
| EEnter (j : N)
| ELeave (j : N)
| EExit (j : N)
| ERound (j : N)
| EEnd (j : N).

(** libc goes four times through the data at most: PTHREAD_DESTRUCTOR_ITERATIONS in limits.h. *)
Definition libc_passes : N := 4.
(** Where a thread is in its life.  [Leaving n]: libc has gone through its data [n] times. *)
Inductive phase := Unborn | Created (t : N) | Alive (t : N) | Leaving (t n : N) | Gone.
(** The phases, and how many signal handlers are active in each thread. *)
Record world := mkWorld { phase_of : N -> phase; depth : N -> N }.
Definition nobody : world := mkWorld (fun _ => Unborn) (fun _ => 0).

(** What can happen.  Records are put where nothing is mapped.  A thread begins and ends
    outside of signal handlers; fewer than 2^32 of them are active at once.  libc goes through
    the data at most [libc_passes] times; it stops before that only if no data is left
    (if the runtime's is left, it goes on). *)
Definition possible (st : state) (w : world) (e : event) : Prop :=
  match e with
  | ECreate j t _ _ _ => phase_of w j = Unborn /\ mem_ st t = None
  | EFail t _ _ _ => mem_ st t = None
  | EStart j => (exists t, phase_of w j = Created t) /\ depth w j = 0
  | EEnter j => phase_of w j <> Unborn /\ phase_of w j <> Gone /\ depth w j + 1 < 2 ^ 32
  | ELeave j => 0 < depth w j
  | EExit j => (exists t, phase_of w j = Alive t) /\ depth w j = 0
  | ERound j => (exists t n, phase_of w j = Leaving t n /\ n < libc_passes) /\ depth w j = 0
  | EEnd j => (exists t n, phase_of w j = Leaving t n /\ (n = libc_passes \/ tsd st j = None)) /\ depth w j = 0
  end.

(** What happens in the world, and what the runtime does. *)
Definition happens (w : world) (e : event) : world :=
  let set j p := mkWorld (put (phase_of w) j p) (depth w) in
  match e with
  | ECreate j t _ _ _ => set j (Created t)
  | EFail _ _ _ _ => w
  | EStart j => match phase_of w j with Created t => set j (Alive t) | _ => w end
  | EEnter j => mkWorld (phase_of w) (put (depth w) j (depth w j + 1))
  | ELeave j => mkWorld (phase_of w) (put (depth w) j (depth w j - 1))
  | EExit j => match phase_of w j with Alive t => set j (Leaving t 0) | _ => w end
  | ERound j => match phase_of w j with Leaving t n => set j (Leaving t (n + 1)) | _ => w end
  | EEnd j => set j Gone
  end.
Definition perform (st : state) (w : world) (e : event) : Res state :=
  match e with
  | ECreate _ t r a l => Ok (snd (dfsw_pthread_create st t r a 0 l 0))
  | EFail t r a l => Ok (snd (dfsw_pthread_create st t r a 0 l 11))
  | EStart j => match phase_of w j with Created t => start_func st j t | _ => Ok st end
  | EEnter j => enter_signal st j
  | ELeave j => leave_signal st j
  | EExit _ => Ok st
  | ERound j => libc_round st j
  | EEnd _ => Ok st
  end.

(** A process in which all that happened, in any order. *)
Definition start : state := mkState (fun _ => None) (fun _ => None) (fun _ => None) [].
Inductive history : list event -> state -> world -> Prop :=
| h_start : history [] start nobody
| h_event es st w e st' : history es st w -> possible st w e -> perform st w e = Ok st' -> history (es ++ [e]) st' (happens w e).

(** The record of a thread, from its creation until libc goes through its data the last
    time. *)
Definition record_of (w : world) (j : N) : option N :=
  match phase_of w j with Created t | Alive t => Some t | Leaving t n => if n <? libc_passes then Some t else None | _ => None end.
(** The records of attempts that failed. *)
Definition failed_at (es : list event) (t : N) : Prop := exists r a l, In (EFail t r a l) es.
(** The thread has been created with this routine and argument. *)
Definition created_with (es : list event) (j r a : N) : Prop := exists t l, In (ECreate j t r a l) es.
(** The calls of start routines made by a thread. *)
Definition called (st : state) (j : N) : list (N * N * N * N) := filter (fun c => fst (fst (fst c)) =? j) (calls st).
(** The thread has begun. *)
Definition begun (w : world) (j : N) : Prop :=
  match phase_of w j with Unborn | Created _ => False | _ => True end.
