(** Specification vocabulary for traces with calls. *)
From Coq Require Import NArith ZArith List.
From Verif Require Import M_Base M_PyCfDiff S_Graph S_Dominators.
Import ListNotations.

Definition calls (t : list cfunc) : list (Z * Z) := flat_map (fun f => map (fun c => (cf_index f, c)) (cf_calls f)) t.
(** The functions of a trace differ in index and name; what is called is in the trace; exactly one
    function, [r], is called by none, and from it all functions can be reached. *)
Definition one_start (t : list cfunc) (r : Z) : Prop :=
  NoDup (map cf_index t) /\ NoDup (map cf_name t) /\ (forall x y, In (x, y) (calls t) -> In y (map cf_index t)) /\
  (forall x, In x (map cf_index t) /\ no_incoming (calls t) x <-> x = r) /\
  (forall x, In x (map cf_index t) -> reaches (calls t) r x).
(** [names] are the names of the functions through which every chain of calls to the function
    called [name] must go, the closest first. *)
Definition on_all_ways (t : list cfunc) (r : Z) (name : N) (names : list N) : Prop :=
  exists f ds, In f t /\ cf_name f = name /\
    lists (fun d => strictly_dominates (calls t) r d (cf_index f)) ds /\ in_order (fun x y => dominates (calls t) r y x) ds /\
    Forall2 (fun d n => exists g, In g t /\ cf_index g = d /\ cf_name g = n) ds names.
(** The first position at which two lists agree. *)
Fixpoint first_common (l m : list N) : option N :=
  match l, m with
  | x :: l', y :: m' => if N.eqb x y then Some x else first_common l' m'
  | _, _ => None
  end.
