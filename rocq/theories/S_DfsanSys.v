(** What the manual pages say system functions store into objects of the program. *)
From Coq Require Import NArith ZArith List.
From Verif Require Import M_Base M_Memory M_Labels M_Dfsan M_DfsanSys S_Dfsan.
Import ListNotations.
Open Scope N_scope.

(** Ranges of memory: address and number of bytes. *)
Definition covered (rs : list (N * N)) (q : N) : Prop := exists p n, In (p, n) rs /\ within p n q.
(** In the memory of the program, or empty. *)
Definition object (r : N * N) : Prop := snd r = 0 \/ (0x700000008000 <= fst r /\ fst r + snd r < 0x800000000000).
(** An output argument that may be null. *)
Definition optional (p n : N) : list (N * N) := if p =? 0 then [] else [(p, n)].

(** The entries of an array of struct iovec, and the parts of their buffers that hold the
    first [bytes] bytes of a message. *)
Fixpoint iovecs (m : mem) (iov : N) (n : nat) : list (N * N) :=
  match n with
  | O => []
  | S k => (load_int m iov 8, load_int m (iov + 8) 8) :: iovecs m (iov + 16) k
  end.
Fixpoint filled (bytes : N) (v : list (N * N)) : list (N * N) :=
  match v with
  | [] => []
  | (p, n) :: r => (p, N.min n bytes) :: filled (bytes - n) r
  end.
Definition capacity (v : list (N * N)) : N := fold_right (fun r a => snd r + a) 0 v.

(** Receiving [bytes] bytes with the struct msghdr at [msg]: [ws] is written (msg_namelen,
    msg_controllen, msg_flags, the address, the control data and the message); [os] is the
    header and the buffers.  The address is not truncated: msg_namelen does not grow. *)
Inductive message (m0 m1 : mem) (msg bytes : N) : list (N * N) -> list (N * N) -> Prop :=
| a_message name namelen control controllen iov iovlen :
    load_int m1 msg 8 = name -> load_int m1 (msg + 8) 4 = namelen -> namelen <= load_int m0 (msg + 8) 4 ->
    load_int m1 (msg + 32) 8 = control -> load_int m1 (msg + 40) 8 = controllen ->
    load_int m1 (msg + 16) 8 = iov -> load_int m1 (msg + 24) 8 = iovlen ->
    app_range iov (16 * iovlen) -> bytes <= capacity (iovecs m1 iov (N.to_nat iovlen)) ->
    let data := (name, namelen) :: (control, controllen) :: filled bytes (iovecs m1 iov (N.to_nat iovlen)) in
    message m0 m1 msg bytes ((msg + 8, 4) :: (msg + 40, 8) :: (msg + 48, 4) :: data) ((msg, 56) :: data).

(** [k] messages of an array of struct mmsghdr, 64 bytes each, with the length at 56. *)
Inductive messages (m0 m1 : mem) : nat -> N -> list (N * N) -> list (N * N) -> Prop :=
| no_messages msgvec : messages m0 m1 0 msgvec [] []
| more_messages k msgvec ws os ws' os' :
    message m0 m1 msgvec (load_int m1 (msgvec + 56) 4) ws os -> messages m0 m1 k (msgvec + 64) ws' os' ->
    messages m0 m1 (S k) msgvec ((msgvec + 56, 4) :: ws ++ ws') ((msgvec + 56, 4) :: os ++ os').

(** A call that returned [ret] and changed memory from [m0] to [m1] wrote the bytes of [ws]
    (the last but one argument).  [os] are the objects whose labels the claims below
    allow to change: the same, except for messages. *)
Inductive stores (m0 m1 : mem) : sys_call -> Z -> list (N * N) -> list (N * N) -> Prop :=
| st_stat p : stores m0 m1 (Stat p) 0 [(p, 144)] [(p, 144)]
| st_fstat p : stores m0 m1 (Fstat p) 0 [(p, 144)] [(p, 144)]
| st_clock_gettime p : stores m0 m1 (Clock_gettime p) 0 [(p, 16)] [(p, 16)]
| st_getrlimit p : stores m0 m1 (Getrlimit p) 0 [(p, 16)] [(p, 16)]
| st_getrusage p : stores m0 m1 (Getrusage p) 0 [(p, 144)] [(p, 144)]
| st_socketpair p : stores m0 m1 (Socketpair p) 0 [(p, 8)] [(p, 8)]
| st_sched_getaffinity n p : stores m0 m1 (Sched_getaffinity n p) 0 [(p, n)] [(p, n)]
| st_time p ret : ret <> (-1)%Z -> stores m0 m1 (Time p) ret (optional p 8) (optional p 8)
| st_pthread_join p : stores m0 m1 (Pthread_join p) 0 (optional p 8) (optional p 8)
| st_sigemptyset p ret : stores m0 m1 (Sigemptyset p) ret [(p, 128)] [(p, 128)]
| st_sigaltstack p : stores m0 m1 (Sigaltstack p) 0 (optional p 24) (optional p 24)
| st_gettimeofday p q : stores m0 m1 (Gettimeofday p q) 0 (optional p 16 ++ optional q 8) (optional p 16 ++ optional q 8)
| st_tls_info p q ret : stores m0 m1 (Get_tls_static_info p q) ret [(p, 8); (q, 8)] [(p, 8); (q, 8)]
| st_getcwd p k : p <> 0 -> c_string m1 p k -> stores m0 m1 Getcwd (Z.of_N p) [(p, k + 1)] [(p, k + 1)]
| st_current_dir p k : p <> 0 -> c_string m1 p k -> stores m0 m1 Get_current_dir_name (Z.of_N p) [(p, k + 1)] [(p, k + 1)]
| st_gethostname p k : c_string m1 p k -> stores m0 m1 (Gethostname p) 0 [(p, k + 1)] [(p, k + 1)]
| st_epoll_wait p ret : (0 <= ret)%Z -> stores m0 m1 (Epoll_wait p) ret [(p, 12 * Z.to_N ret)] [(p, 12 * Z.to_N ret)]
| st_poll p n ret : (0 <= ret)%Z ->
    let rs := map (fun i => (p + 8 * i + 6, 2)) (nseq 0 (N.to_nat n)) in stores m0 m1 (Poll p n) ret rs rs
| st_select r w e t ret : (0 <= ret)%Z -> t <> 0 ->
    let rs := optional r 128 ++ optional w 128 ++ optional e 128 ++ [(t, 16)] in stores m0 m1 (Select r w e t) ret rs rs
| st_nanosleep_done p : stores m0 m1 (Nanosleep p) 0 [] []
| st_nanosleep_interrupted p : p <> 0 -> stores m0 m1 (Nanosleep p) (-1) [(p, 16)] [(p, 16)]
(* with the strings of the entry up to the first terminator only *)
| st_getpwuid_r pwd buf result k : c_string m1 buf k ->
    let rs := [(pwd, 48); (buf, k + 1); (result, 8)] in stores m0 m1 (Getpwuid_r pwd buf result) 0 rs rs
| st_getpwuid_r_failed pwd buf result ret : ret <> 0%Z -> stores m0 m1 (Getpwuid_r pwd buf result) ret [(result, 8)] [(result, 8)]
| st_getsockopt p l : p <> 0 -> l <> 0 ->
    let rs := [(l, 4); (p, load_int m1 l 4)] in stores m0 m1 (Getsockopt p l) 0 rs rs
| st_getsockname p l : p <> 0 -> l <> 0 ->
    let rs := [(l, 4); (p, N.min (load_int m0 l 4) (load_int m1 l 4))] in stores m0 m1 (Getsockname p l) 0 rs rs
| st_getpeername p l : p <> 0 -> l <> 0 ->
    let rs := [(l, 4); (p, N.min (load_int m0 l 4) (load_int m1 l 4))] in stores m0 m1 (Getpeername p l) 0 rs rs
| st_recvmsg msg ret ws os : (0 <= ret)%Z -> message m0 m1 msg (Z.to_N ret) ws os -> stores m0 m1 (Recvmsg msg) ret ws os
| st_recvmmsg msgvec ret ws os : (0 <= ret)%Z -> messages m0 m1 (Z.to_nat ret) msgvec ws os -> stores m0 m1 (Recvmmsg msgvec) ret ws os
| st_failed c : (* the others write nothing when they fail *)
    match c with
    | Sigemptyset _ | Gettimeofday _ _ | Get_tls_static_info _ _ | Getcwd | Get_current_dir_name
    | Select _ _ _ _ | Nanosleep _ | Getpwuid_r _ _ _ => False
    | _ => True
    end -> stores m0 m1 c (-1) [] []
| st_failed_null c : c = Getcwd \/ c = Get_current_dir_name -> stores m0 m1 c 0 [] [].

(** [fuel] suffices for the strings among [rs]. *)
Definition enough (fuel : nat) (rs : list (N * N)) : Prop := Forall (fun r => (N.to_nat (snd r) <= fuel)%nat) rs.

(** Conversions: [k] bytes at [dst] are computed from [n] bytes at [src]. *)
Inductive computes (m1 : mem) : conversion -> Z -> N -> N -> N -> N -> Prop :=
| co_ctime_r timep buf l k ret : ret <> 0%Z -> c_string m1 buf k -> computes m1 (Ctime_r timep buf l) ret timep 8 buf (k + 1)
| co_localtime_r timep result l ret : ret <> 0%Z -> computes m1 (Localtime_r timep result l) ret timep 8 result 56
| co_inet_pton4 src dst k : c_string m1 src k -> computes m1 (Inet_pton true src dst) 1 src (k + 1) dst 4
| co_inet_pton6 src dst k : c_string m1 src k -> computes m1 (Inet_pton false src dst) 1 src (k + 1) dst 16.
