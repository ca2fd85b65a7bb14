(** Model of Origin, polytracker/src/compiler-rt/lib/dfsan/dfsan_origin.h (46-122): how a value
    gets a new origin when it is stored, and how a history is followed
    (dfsan_get_init_origin, dfsan.cpp:853-872).

    Stack traces are numbers, 0 for one that cannot be kept (82-84).  The depot of chained
    origins (sanitizer_chained_origin_depot.cpp:82-97) is the list of its entries, which are
    numbered from 1 on; the code's numbers differ but are also distinct, not 0 and never
    reused.  The limits are 0 for all non-positive values of the flags. *)
From Coq Require Import NArith List Bool.
From Verif Require Import M_Base.
Import ListNotations.
Open Scope N_scope.

Record limits : Type := mkLimits { history_size : N; per_stack : N }.
(** The entries (stack, previous origin), and how often a stack was used. *)
Record depot : Type := mkDepot { entries : list (N * N); uses : N -> N }.
Definition depot0 : depot := mkDepot [] (fun _ => 0).

(** 106-109 and 115-118: the upper 4 of 32 bits are the depth, the lower 28 the number. *)
Definition id_bound : N := 2 ^ 28.
Definition depth_of (raw : N) : N := raw / id_bound.
Definition id_of (raw : N) : N := raw mod id_bound.

Definition entry_eqb (a b : N * N) : bool := (fst a =? fst b) && (snd a =? snd b).
Fixpoint position (e : N * N) (l : list (N * N)) (i : N) : option N :=
  match l with
  | [] => None
  | x :: r => if entry_eqb x e then Some i else position e r (i + 1)
  end.
(** ChainedOriginDepot::Put: the number of the entry and whether it is new. *)
Definition depot_put (d : depot) (stack prev : N) : N * bool * list (N * N) :=
  match position (stack, prev) (entries d) 1 with
  | Some i => (i, false, entries d)
  | None => (len (entries d) + 1, true, entries d ++ [(stack, prev)])
  end.

(** CreateChainedOrigin, 71-102.  The depth is one more than in the code, where it starts at
    -1; a depth of -1, which is only left for unlimited histories, sets all four bits (101).
    Exit is the failing CHECK at 96. *)
Definition create_chained (f : limits) (d : depot) (prev stack : N) : Res (depot * N) :=
  let before := if prev =? 0 then 0 else depth_of prev + 1 in
  if (0 <? history_size f) && ((history_size f <=? before) || (15 <? before)) then Ok (d, prev)
  else if stack =? 0 then Ok (d, prev)
  else if (0 <? per_stack f) && (per_stack f <? uses d stack) then Ok (d, prev)
  else
    let '(id, inserted, es) := depot_put d stack prev in
    if id_bound <=? id then Exit
    else
      let uses' := if inserted && (0 <? per_stack f)
                   then (fun s => if s =? stack then uses d s + 1 else uses d s) else uses d in
      let depth := if 0 <? history_size f then before else if prev =? 0 then 15 else depth_of prev in
      Ok (mkDepot es uses', depth * id_bound + id).

(** getNextChainedOrigin, 62-69: the stack and the previous origin. *)
Definition next_chained (d : depot) (raw : N) : option (N * N) :=
  if raw =? 0 then None else nth_error (entries d) (N.to_nat (id_of raw - 1)).
(** dfsan_get_init_origin, dfsan.cpp:864-871. *)
Fixpoint init_origin (fuel : nat) (d : depot) (o origin_id : N) : Res N :=
  match fuel with
  | O => Fuel
  | S k =>
      if o =? 0 then Ok origin_id
      else match next_chained d o with
           | Some (_, prev) => init_origin k d prev o
           | None => Exit
           end
  end.
