(** Model of polytracker/cache.py: OrderedSet and LRUCache.

    Not modelled: Memoized, str(), a negative max_size, and keys whose equality or hash changes. *)
From Coq Require Import NArith List Bool.
From Verif Require Import M_Base.
Import ListNotations.
Open Scope N_scope.

(** ** collections.OrderedDict (of the Python library): the items in their order *)
Definition odict (V : Type) := list (N * V).
Fixpoint od_get {V} (l : odict V) (k : N) : option V :=
  match l with
  | [] => None
  | (x, v) :: r => if x =? k then Some v else od_get r k
  end.
(** Assignment to a key that is there does not move it. *)
Fixpoint od_put {V} (l : odict V) (k : N) (v : V) : odict V :=
  match l with
  | [] => [(k, v)]
  | (x, w) :: r => if x =? k then (x, v) :: r else (x, w) :: od_put r k v
  end.
Definition od_del {V} (l : odict V) (k : N) : odict V := filter (fun q => negb (fst q =? k)) l.
Definition od_move_to_end {V} (l : odict V) (k : N) : odict V :=
  match od_get l k with Some v => od_del l k ++ [(k, v)] | None => l end.

(** ** OrderedSet, cache.py:27-50 *)
Definition oset := list N.
(** add, 33-34 *)
Definition oset_add (s : oset) (x : N) : oset := map fst (od_put (map (fun y => (y, y)) s) x x).
(** 36-38 *)
Definition oset_discard (s : oset) (x : N) : oset :=
  if existsb (N.eqb x) s then map fst (od_del (map (fun y => (y, y)) s) x) else s.
(** 40-41 *)
Definition oset_contains (s : oset) (x : N) : bool := match od_get (map (fun y => (y, y)) s) x with Some _ => true | None => false end.
(** 43-44 *)
Definition oset_len (s : oset) : N := len s.
(** __init__, 28-31 *)
Definition oset_new (items : list N) : oset := fold_left oset_add items [].
(** The operators |, &, - of collections.abc.Set build their result with cls(it), where [it] is one
    iterator object, and the constructor takes each of its arguments for an item: the result has
    one item, the iterator.  [it] stands for that object, which is a new one and equal to no item. *)
Definition oset_operator (it : N) : oset := oset_new [it].
(** The operator &= of collections.abc.MutableSet discards the items of [s - other], which is
    built the same way. *)
Definition oset_iand (s : oset) (it : N) : oset := fold_left oset_discard (oset_operator it) s.
(** The operator |= of collections.abc.MutableSet adds the items one by one. *)
Definition oset_ior (s : oset) (other : list N) : oset := fold_left oset_add other s.

(** ** LRUCache, cache.py:56-96 *)
Record lru := mkLru { l_items : odict N; l_max : option N }.
(** __getitem__, 70-73 (also the method get, 61-68, and [k in cache], which is __getitem__ in the
    library): None is a KeyError. *)
Definition lru_get (c : lru) (k : N) : option N * lru :=
  match od_get (l_items c) k with
  | Some v => (Some v, mkLru (od_move_to_end (l_items c) k) (l_max c))
  | None => (None, c)
  end.
(** __setitem__, 75-78 *)
Fixpoint evict (m : N) (l : odict N) : odict N :=
  match l with
  | [] => []
  | _ :: r => if m <? len l then evict m r else l
  end.
Definition lru_set (c : lru) (k v : N) : lru :=
  let l := od_put (l_items c) k v in
  mkLru (match l_max c with Some m => evict m l | None => l end) (l_max c).
(** __delitem__, 80-81: false is a KeyError. *)
Definition lru_del (c : lru) (k : N) : bool * lru :=
  match od_get (l_items c) k with
  | Some _ => (true, mkLru (od_del (l_items c) k) (l_max c))
  | None => (false, c)
  end.
(** __len__, 83-84 *)
Definition lru_len (c : lru) : N := len (l_items c).
(** __iter__, 86-96, run to its end without other operations in between: the keys that are
    yielded. *)
Fixpoint lru_iter (fuel : nat) (c : lru) (yielded : list N) : Res (list N * lru) :=
  match fuel with
  | O => Fuel
  | S f =>
      match find (fun q => negb (existsb (N.eqb (fst q)) yielded)) (l_items c) with
      | None => Ok ([], c)
      | Some (k, _) =>
          do (r, c1) <- lru_iter f (mkLru (od_move_to_end (l_items c) k) (l_max c)) (k :: yielded);
          Ok (k :: r, c1)
      end
  end.

(** ** Histories *)
Inductive lru_op : Type := LGet (k : N) | LSet (k v : N) | LDel (k : N).
Definition lru_step (c : lru) (o : lru_op) : lru :=
  match o with
  | LGet k => snd (lru_get c k)
  | LSet k v => lru_set c k v
  | LDel k => snd (lru_del c k)
  end.
(** The latest operation is first in the list. *)
Definition lru_run (m : option N) (h : list lru_op) : lru := fold_right (fun o c => lru_step c o) (mkLru [] m) h.
Inductive oset_op : Type := SAdd (x : N) | SDiscard (x : N).
Definition oset_step (s : oset) (o : oset_op) : oset := match o with SAdd x => oset_add s x | SDiscard x => oset_discard s x end.
Definition oset_run (h : list oset_op) : oset := fold_right (fun o s => oset_step s o) [] h.
