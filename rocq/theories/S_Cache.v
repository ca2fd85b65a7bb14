(** What caches and ordered sets should contain after a history of operations, the latest first. *)
From Coq Require Import NArith List Bool.
From Verif Require Import M_PyCache.
Import ListNotations.
Open Scope N_scope.

(** The value stored last for [k], unless it was deleted since. *)
Fixpoint stored (h : list lru_op) (k : N) : option N :=
  match h with
  | [] => None
  | LSet x v :: r => if x =? k then Some v else stored r k
  | LDel x :: r => if x =? k then None else stored r k
  | LGet _ :: r => stored r k
  end.
Definition keys_stored (h : list lru_op) : list N :=
  nodup N.eq_dec (flat_map (fun o => match o with LSet k _ => [k] | _ => [] end) h).

(** The answer to [k in cache] after [h]. *)
Definition in_cache (m : option N) (h : list lru_op) (k : N) : bool :=
  match fst (lru_get (lru_run m h) k) with Some _ => true | None => false end.

(** When a key was used last: read while it was in the cache, or stored while it was not.
    [present h k]: the key is in the cache after [h]. *)
Fixpoint last_use (present : list lru_op -> N -> bool) (h : list lru_op) (k : N) : nat :=
  match h with
  | [] => 0
  | o :: r =>
      let used := match o with
        | LGet x => (x =? k) && present r k
        | LSet x _ => (x =? k) && negb (present r k)
        | LDel _ => false
        end in
      if used then length h else last_use present r k
  end.

(** Sets: whether the latest operation on [x] added it, and when it came in. *)
Fixpoint is_member (h : list oset_op) (x : N) : bool :=
  match h with
  | [] => false
  | SAdd y :: r => if y =? x then true else is_member r x
  | SDiscard y :: r => if y =? x then false else is_member r x
  end.
Fixpoint came_in (h : list oset_op) (x : N) : nat :=
  match h with
  | [] => 0
  | SAdd y :: r => if (y =? x) && negb (is_member r x) then length h else came_in r x
  | SDiscard _ :: r => came_in r x
  end.
