(** Specification: end points of connections and how they are written. *)
From Coq Require Import NArith ZArith List Bool.
From Verif Require Import S_Runtime.
Import ListNotations.
Open Scope N_scope.

(** An end point of IPv4: an address of four bytes and a port. *)
Record endpoint := mkEnd { e_a : N; e_b : N; e_c : N; e_d : N; e_port : N }.
Definition endpoint_ok (e : endpoint) : Prop := e_a e < 256 /\ e_b e < 256 /\ e_c e < 256 /\ e_d e < 256 /\ e_port e < 65536.

(** What the kernel writes for it: the family (2, in the byte order of the machine), the
    port with its high byte first, the address, and eight bytes of padding. *)
Definition sockaddr (e : endpoint) (pad : list N) : list N :=
  [2; 0; e_port e / 256; e_port e mod 256; e_a e; e_b e; e_c e; e_d e] ++ pad.

(** The text a.b.c.d:port. *)
Definition endpoint_text (e : endpoint) (t : list N) : Prop := exists a b c d p,
  decimal a (e_a e) /\ decimal b (e_b e) /\ decimal c (e_c e) /\ decimal d (e_d e) /\ decimal p (e_port e) /\
  t = a ++ [46] ++ b ++ [46] ++ c ++ [46] ++ d ++ [58] ++ p.

(** "socket:" local "-" remote. *)
Definition connection_text (local remote : endpoint) (t : list N) : Prop := exists l r,
  endpoint_text local l /\ endpoint_text remote r /\ t = [115; 111; 99; 107; 101; 116; 58] ++ l ++ [45] ++ r.

(** The address family a sockaddr says it has. *)
Definition has_family (a : list N) (f : N) : Prop := exists lo hi rest, a = lo :: hi :: rest /\ lo + 256 * hi = f.
