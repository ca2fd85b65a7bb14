(** Specification vocabulary for the function name table and the function trace. *)
From Coq Require Import NArith List.
From Verif Require Import M_Base M_Memory M_Section M_StringTable M_Functions.
Import ListNotations.
Open Scope N_scope.

(** The answers to a sequence of add_mapping calls. *)
Fixpoint map_names (m : mem) (st fs : sect) (map : fn_map) (names : list (list N))
  : Res (list (option N) * mem * sect * sect) :=
  match names with
  | [] => Ok ([], m, st, fs)
  | x :: rest =>
      do r <- add_mapping m st fs map x;
      let '(o, m1, st1, fs1, map1) := r in
      do q <- map_names m1 st1 fs1 map1 rest;
      let '(l, m2, st2, fs2) := q in Ok (o :: l, m2, st2, fs2)
  end.

(** Position of the first occurrence of [x] in [l]. *)
Definition first_at (l : list (list N)) (x : list N) (i : N) : Prop :=
  get l i = Some x /\ forall j, j < i -> get l j <> Some x.

(** The names in order of first appearance. *)
Inductive distinct_names : list (list N) -> list (list N) -> Prop :=
| dn_nil : distinct_names [] []
| dn_old calls ds x : distinct_names calls ds -> In x ds -> distinct_names (calls ++ [x]) ds
| dn_new calls ds x : distinct_names calls ds -> ~ In x ds -> distinct_names (calls ++ [x]) (ds ++ [x]).

(** A sequence of function trace calls; [pad] is the unspecified padding byte. *)
Fixpoint log_events (m : mem) (s : sect) (evs : list (N * event_kind * N)) : Res (mem * sect) :=
  match evs with
  | [] => Ok (m, s)
  | (pad, k, fn) :: rest =>
      do r <- log_fn_event pad m s k fn;
      let (m1, s1) := r in log_events m1 s1 rest
  end.

(** Bytes needed in the string table for a list of names. *)
Fixpoint names_size (l : list (list N)) : N :=
  match l with
  | [] => 0
  | x :: r => 2 + len x + len x mod 2 + names_size r
  end.
