(** Specification vocabulary: requests to a section and what a client may observe. *)
From Coq Require Import NArith List.
From Verif Require Import M_Base M_Memory M_Section.
Import ListNotations.
Open Scope N_scope.

(** A section spans [b, e) inside the 64-bit address space, write position inside. *)
Definition section_ok (s : sect) : Prop :=
  sbeg s <= wit s /\ wit s <= send s /\ send s < two64.

(** The answers to a sequence of allocation requests: for each request its size and,
    when granted, the start address. *)
Fixpoint requests (s : sect) (sizes : list N) : list (N * option N) * sect :=
  match sizes with
  | [] => ([], s)
  | n :: rest =>
      match sect_write s n with
      | Some (p, s') => let (l, s2) := requests s' rest in ((n, Some p) :: l, s2)
      | None => let (l, s2) := requests s rest in ((n, None) :: l, s2)
      end
  end.

(** The granted regions (start, size), in order. *)
Fixpoint granted (l : list (N * option N)) : list (N * N) :=
  match l with
  | [] => []
  | (n, Some p) :: rest => (p, n) :: granted rest
  | (_, None) :: rest => granted rest
  end.

(** Regions laid end to end from [a] to [b]. *)
Fixpoint tiles (a b : N) (l : list (N * N)) : Prop :=
  match l with
  | [] => a = b
  | (p, n) :: rest => p = a /\ tiles (a + n) b rest
  end.

(** The bytes a section has handed out so far. *)
Definition content (m : mem) (s : sect) : list N := load m (sbeg s) (sect_size s).

(** Client programs of a fixed-size record section: construct one record, or a
    range of [n] records generated by a function of the position. *)
Inductive fop : Type :=
| FOne (r : list N)
| FMany (n : N) (gen : N -> list N).

(** Specification: a list of records with a capacity.  Answers the index of the
    (first) new record, or nothing when the request does not fit. *)
Definition spec_step (cap : N) (recs : list (list N)) (o : fop) : option N * list (list N) :=
  match o with
  | FOne r => if len recs + 1 <=? cap then (Some (len recs), recs ++ [r]) else (None, recs)
  | FMany n gen => if len recs + n <=? cap
                   then (Some (len recs), recs ++ map gen (nseq 0 (N.to_nat n))) else (None, recs)
  end.
Fixpoint spec_run (cap : N) (recs : list (list N)) (ops : list fop) : list (option N) * list (list N) :=
  match ops with
  | [] => ([], recs)
  | o :: rest =>
      let (a, recs1) := spec_step cap recs o in
      let (l, recs2) := spec_run cap recs1 rest in (a :: l, recs2)
  end.

(** The same client programs on the code. *)
Definition code_step (es : N) (m : mem) (s : sect) (o : fop) : Res (option N * mem * sect) :=
  let r := match o with
           | FOne r => construct m s r
           | FMany n gen => construct_range m s es n gen
           end in
  match r with
  | Some (p, m', s') => do i <- sect_index s' es p; Ok (Some i, m', s')
  | None => Ok (None, m, s)
  end.
Fixpoint code_run (es : N) (m : mem) (s : sect) (ops : list fop) : Res (list (option N) * mem * sect) :=
  match ops with
  | [] => Ok ([], m, s)
  | o :: rest =>
      do x <- code_step es m s o;
      let '(a, m1, s1) := x in
      do y <- code_run es m1 s1 rest;
      let '(l, m2, s2) := y in Ok (a :: l, m2, s2)
  end.

(** Records have the entry size and ranges are not empty and do not overflow. *)
Definition fop_ok (es : N) (o : fop) : Prop :=
  match o with
  | FOne r => len r = es
  | FMany n gen => 1 <= n /\ es * n < two64 /\ forall j, len (gen j) = es
  end.
