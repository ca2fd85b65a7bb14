(** Model of how connections are named: connect_name in
    polytracker/src/taint_sources/taint_sources.cpp and the wrappers of accept, accept4 and
    connect which use it.

    An address is the bytes of a sockaddr as the kernel writes them.  What the kernel
    answers is an argument: the bytes it returns, or [None] when the call fails. *)
From Coq Require Import NArith ZArith List Bool.
From Verif Require Import M_Base M_Api M_Runtime.
Import ListNotations.
Open Scope N_scope.

(** getsockname and getpeername, taint_sources.cpp:419-420 and 429-430: the bytes of the
    address are copied into the variable of type sockaddr_in, 16 bytes at most (416); the
    rest of the variable keeps the bytes [old] it had. *)
Definition sockaddr_size : nat := 16.
Definition copy_address (old addr : list N) : list N :=
  firstn sockaddr_size addr ++ skipn (length (firstn sockaddr_size addr)) old.

(** The fields of sockaddr_in: sin_family and sin_port are loaded as little endian numbers
    of two bytes, sin_addr are four bytes (netinet/in.h). *)
Definition sin_family (a : list N) : N := le_val (firstn 2 a).
Definition sin_port (a : list N) : N := le_val (firstn 2 (skipn 2 a)).
Definition sin_addr (a : list N) : list N := firstn 4 (skipn 4 a).
Definition AF_INET : N := 2.

(** ntohs on a little endian machine: swaps the two bytes. *)
Definition ntohs (v : N) : N := (v mod 256) * 256 + v / 256.

(** inet_ntop with AF_INET, taint_sources.cpp:435-443: the four bytes in decimal with dots;
    it fails only if the buffer is too short, and 64 bytes suffice (16 are needed). *)
Fixpoint inet_ntop (bs : list N) : list N :=
  match bs with
  | [] => []
  | [b] => to_string b
  | b :: r => to_string b ++ [46] ++ inet_ntop r
  end.

(** connect_name, taint_sources.cpp:414-450; [g1] and [g2] are the bytes of the variables
    local_addr and remote_addr before the calls, which are not initialised. *)
Definition connect_name (g1 g2 : list N) (sockname peername : option (list N)) : Res (option (list N)) :=
  match sockname with
  | None => Exit
  | Some s =>
      let local := copy_address g1 s in
      if negb (sin_family local =? AF_INET) then Ok None
      else match peername with
           | None => Exit
           | Some p =>
               let remote := copy_address g2 p in
               Ok (Some ([115; 111; 99; 107; 101; 116; 58] ++ inet_ntop (sin_addr local) ++ [58]
                         ++ to_string (ntohs (sin_port local)) ++ [45] ++ inet_ntop (sin_addr remote) ++ [58]
                         ++ to_string (ntohs (sin_port remote))))
           end
  end.

(** __dfsw_accept and __dfsw_accept4, taint_sources.cpp:453-487: [ret] is what accept
    returned, the addresses are those of the new socket. *)
Definition w_accept (p : proc) (g1 g2 : list N) (ret : Z) (sockname peername : option (list N)) (size : option N)
  : Res (Z * N * proc) :=
  w_socket p ret (0 <=? ret)%Z (connect_name g1 g2 sockname peername) size ret.

(** __dfsw_connect, taint_sources.cpp:489-502. *)
Definition w_connect (p : proc) (g1 g2 : list N) (socket ret : Z) (sockname peername : option (list N)) (size : option N)
  : Res (Z * N * proc) :=
  w_socket p socket (ret =? 0)%Z (connect_name g1 g2 sockname peername) size ret.
