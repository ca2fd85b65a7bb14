(** The DFSan versions of system functions that fill in objects of the program
    (polytracker/src/compiler-rt/lib/dfsan/dfsan_custom.cpp).
    A wrapper calls the function of libc and then sets labels.  What libc did is given by
    the memories before ([m0]) and after ([m1]) the call and by its result [ret] (a pointer
    is its address); all of them write 0 to *ret_label, except getcwd, which writes the
    label of the buffer.  Sizes are those of x86-64 Linux.  Left out: origins, and the
    functions for which PolyTracker has a version of its own (read, pread, fgets). *)
From Coq Require Import NArith ZArith List Bool.
From Verif Require Import M_Base M_Memory M_Labels M_Dfsan M_DfsanStr.
Import ListNotations.
Open Scope N_scope.

(** sizeof struct stat, timespec, timeval, timezone, rlimit, rusage, sigset_t, stack_t,
    fd_set, passwd, epoll_event (packed), pollfd, msghdr, mmsghdr, iovec. *)
Definition size_stat := 144.
Definition size_timespec := 16.
Definition size_timeval := 16.
Definition size_timezone := 8.
Definition size_rlimit := 16.
Definition size_rusage := 144.
Definition size_sigset := 128.
Definition size_stack := 24.
Definition size_fd_set := 128.
Definition size_passwd := 48.
Definition size_epoll_event := 12.
Definition size_pollfd := 8.
Definition size_msghdr := 56.
Definition size_mmsghdr := 64.
Definition size_iovec := 16.

(** The calls, with the arguments that matter. *)
Inductive sys_call : Type :=
| Stat (buf : N)
| Fstat (buf : N)
| Clock_gettime (tp : N)
| Getrlimit (rlim : N)
| Getrusage (usage : N)
| Socketpair (sv : N)
| Sched_getaffinity (cpusetsize mask : N)
| Time (t : N)
| Pthread_join (retval : N)
| Sigemptyset (set : N)
| Sigaltstack (old_ss : N)
| Gettimeofday (tv tz : N)
| Get_tls_static_info (sizep alignp : N)
| Getcwd
| Get_current_dir_name
| Gethostname (name : N)
| Epoll_wait (events : N)
| Poll (fds nfds : N)
| Select (readfds writefds exceptfds timeout : N)
| Nanosleep (rem : N)
| Getpwuid_r (pwd buf result : N)
| Getsockopt (optval optlen : N)
| Getsockname (addr addrlen : N)
| Getpeername (addr addrlen : N)
| Recvmsg (msg : N)
| Recvmmsg (msgvec : N).

Definition clear (m : mem) (p n : N) : Res mem := set_label_any m 0 p n.

(** The loop of clear_msghdr_labels, 1933-1940, with [k] more entries in msg_iov: assert
    fails when they do not suffice. *)
Fixpoint iov_loop (k : nat) (m : mem) (iov bytes_written : N) : Res mem :=
  if bytes_written =? 0 then Ok m
  else
    match k with
    | O => Exit
    | S k' =>
        let iov_len := load_int m (iov + 8) 8 in
        let iov_written := if bytes_written <? iov_len then bytes_written else iov_len in
        do m1 <- clear m (load_int m iov 8) iov_written;
        iov_loop k' m1 (iov + size_iovec) (bytes_written - iov_written)
    end.

(** clear_msghdr_labels, 1928-1940. *)
Definition clear_msghdr_labels (m : mem) (bytes_written msg : N) : Res mem :=
  do m1 <- clear m msg size_msghdr;
  do m2 <- clear m1 (load_int m1 msg 8) (load_int m1 (msg + 8) 4);
  do m3 <- clear m2 (load_int m2 (msg + 32) 8) (load_int m2 (msg + 40) 8);
  iov_loop (N.to_nat (load_int m3 (msg + 24) 8)) m3 (load_int m3 (msg + 16) 8) bytes_written.

(** The loop of __dfsw_recvmmsg, 1948-1951, with [k] messages left. *)
Fixpoint mmsg_loop (k : nat) (m : mem) (msgvec : N) : Res mem :=
  match k with
  | O => Ok m
  | S k' =>
      do m1 <- clear m (msgvec + 56) 4;
      do m2 <- clear_msghdr_labels m1 (load_int m1 (msgvec + 56) 4) msgvec;
      mmsg_loop k' m2 (msgvec + size_mmsghdr)
  end.

(** The loop of __dfsw_poll, 1490-1492: &fds[nfds - 1].revents. *)
Fixpoint poll_loop (nfds : nat) (m : mem) (fds : N) : Res mem :=
  match nfds with
  | O => Ok m
  | S k => do m1 <- clear m (fds + size_pollfd * N.of_nat k + 6) 2; poll_loop k m1 fds
  end.

(** "if (p) dfsan_set_label(0, p, n)". *)
Definition clear_nonnull (m : mem) (p n : N) : Res mem := if p =? 0 then Ok m else clear m p n.

Definition clear_string (fuel : nat) (m : mem) (p : N) : Res mem := do k <- strlen fuel m p; clear m p (k + 1).

(** __dfsw_getsockname, 2038-2051, and __dfsw_getpeername, 2063-2076. *)
Definition clear_sockaddr (m0 m1 : mem) (addr addrlen : N) (ret : Z) : Res mem :=
  let origlen := if addrlen =? 0 then 0 else load_int m0 addrlen 4 in
  if negb (ret =? -1)%Z && negb (addr =? 0) && negb (addrlen =? 0) then
    let newlen := load_int m1 addrlen 4 in
    let written_bytes := if origlen <? newlen then origlen else newlen in
    do m2 <- clear m1 addrlen 4;
    clear m2 addr written_bytes
  else Ok m1.

(** The wrappers, each after the call of libc. *)
Definition dfsw_sys (fuel : nat) (c : sys_call) (m0 m1 : mem) (ret : Z) : Res mem :=
  match c with
  (* 83-90 and 100-109 *)
  | Stat buf | Fstat buf => if (ret =? 0)%Z then clear m1 buf size_stat else Ok m1
  (* 727-737 *)
  | Clock_gettime tp => if (ret =? 0)%Z then clear m1 tp size_timespec else Ok m1
  (* 1066-1075 *)
  | Getrlimit rlim => if (ret =? 0)%Z then clear m1 rlim size_rlimit else Ok m1
  (* 1087-1095 *)
  | Getrusage usage => if (ret =? 0)%Z then clear m1 usage size_rusage else Ok m1
  (* 1989-1999 *)
  | Socketpair sv => if (ret =? 0)%Z then clear m1 sv 8 else Ok m1
  (* 1546-1556 *)
  | Sched_getaffinity n mask => if (ret =? 0)%Z then clear m1 mask n else Ok m1
  (* 1347-1354 *)
  | Time t => if (ret =? -1)%Z then Ok m1 else clear_nonnull m1 t 8
  (* 828-838 *)
  | Pthread_join retval => if (ret =? 0)%Z then clear_nonnull m1 retval 8 else Ok m1
  (* 1572-1578 *)
  | Sigemptyset set => clear m1 set size_sigset
  (* 1753-1760 *)
  | Sigaltstack old_ss => if (ret =? -1)%Z then Ok m1 else clear_nonnull m1 old_ss size_stack
  (* 1771-1783 *)
  | Gettimeofday tv tz => do m2 <- clear_nonnull m1 tv size_timeval; clear_nonnull m2 tz size_timezone
  (* 931-938 *)
  | Get_tls_static_info sizep alignp => do m2 <- clear m1 sizep 8; clear m2 alignp 8
  (* 1008-1018 and 1032-1038; [ret] is the string returned *)
  | Getcwd | Get_current_dir_name => if (ret =? 0)%Z then Ok m1 else clear_string fuel m1 (Z.to_N ret)
  (* 1047-1055 *)
  | Gethostname name => if (ret =? 0)%Z then clear_string fuel m1 name else Ok m1
  (* 1460-1469 *)
  | Epoll_wait events => if (0 <? ret)%Z then clear m1 events (mul64 (Z.to_N ret) size_epoll_event) else Ok m1
  (* 1485-1496 *)
  | Poll fds nfds => if (0 <=? ret)%Z then poll_loop (N.to_nat nfds) m1 fds else Ok m1
  (* 1509-1529 *)
  | Select readfds writefds exceptfds timeout =>
      do m2 <- clear_nonnull m1 readfds size_fd_set;
      do m3 <- clear_nonnull m2 writefds size_fd_set;
      do m4 <- clear_nonnull m3 exceptfds size_fd_set;
      clear m4 timeout size_timeval
  (* 1907-1919 *)
  | Nanosleep rem => if (ret =? -1)%Z then clear m1 rem size_timespec else Ok m1
  (* 1429-1444 *)
  | Getpwuid_r pwd buf result =>
      do m3 <- (if (ret =? 0)%Z then do m2 <- clear m1 pwd size_passwd; clear_string fuel m2 buf else Ok m1);
      clear m3 result 8
  (* 2011-2023 *)
  | Getsockopt optval optlen =>
      if negb (ret =? -1)%Z && negb (optval =? 0) && negb (optlen =? 0) then
        do m2 <- clear m1 optlen 4;
        clear m2 optval (load_int m2 optlen 4)
      else Ok m1
  | Getsockname addr addrlen | Getpeername addr addrlen => clear_sockaddr m0 m1 addr addrlen ret
  (* 1969-1977 *)
  | Recvmsg msg => if (0 <=? ret)%Z then clear_msghdr_labels m1 (Z.to_N ret) msg else Ok m1
  (* 1942-1954; the loop does nothing if ret is negative *)
  | Recvmmsg msgvec => mmsg_loop (Z.to_nat ret) m1 msgvec
  end.

(** The functions whose output is computed from bytes of the program: __dfsw_ctime_r
    (948-959), __dfsw_localtime_r (1394-1406) and __dfsw_inet_pton (1363-1373): the
    memory, *ret_label and the table. *)
Inductive conversion : Type :=
| Ctime_r (timep buf buf_label : N)
| Localtime_r (timep result result_label : N)
| Inet_pton (inet : bool) (src dst : N).
Definition size_tm := 56.
Definition dfsw_convert (init : bool) (fuel : nat) (c : conversion) (m1 : mem) (t : table) (ret : Z) : Res (mem * N * table) :=
  match c with
  | Ctime_r timep buf buf_label =>
      if (ret =? 0)%Z then Ok (m1, 0, t)
      else
        do (l, t1) <- read_labels init m1 t timep 8;
        do k <- strlen fuel m1 buf;
        do m2 <- set_label_any m1 l buf (k + 1);
        Ok (m2, buf_label, t1)
  | Localtime_r timep result result_label =>
      if (ret =? 0)%Z then Ok (m1, 0, t)
      else
        do (l, t1) <- read_labels init m1 t timep 8;
        do m2 <- set_label_any m1 l result size_tm;
        Ok (m2, result_label, t1)
  | Inet_pton inet src dst =>
      if (ret =? 1)%Z then
        do k <- strlen fuel m1 src;
        do (l, t1) <- read_labels init m1 t src (k + 1);
        do m2 <- set_label_any m1 l dst (if inet then 4 else 16);
        Ok (m2, 0, t1)
      else Ok (m1, 0, t)
  end.
