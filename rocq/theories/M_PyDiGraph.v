(** Questions to graphs, polytracker/graphs.py, and what polytracker/tracing.py derives from
    dominators: loop entries and conditionals.

    Graphs are those of M_PyGraph; nodes (functions, basic blocks) are integers standing for
    what the equality of the class compares.  Identity of nodes (graphs.py:70) is taken to be
    equality: a graph holds one object per node. *)
From Coq Require Import NArith ZArith List Bool.
From Verif Require Import M_Base M_PyGraph.
Import ListNotations.

(** ** networkx *)
(** DiGraph.successors and DiGraph.predecessors, as used in graphs.py:77, 110, 112 and 113. *)
Definition succs (g : digraph) (u : Z) : list Z := map snd (filter (fun e => Z.eqb (fst e) u) (g_edges g)).
Definition preds (g : digraph) (v : Z) : list Z := map fst (filter (fun e => Z.eqb (snd e) v) (g_edges g)).

(** single_source_shortest_path_length, as used in graphs.py:36 (from every node) and 69 (on
    the reversed graph): level by level, the nodes found with their levels.  The order in a
    level, that of a Python set, has no influence on what the callers do.  The fuel is the
    number of levels. *)
Fixpoint bfs (fuel : nat) (next : Z -> list Z) (seen : list (Z * nat)) (frontier : list Z) (level : nat) : list (Z * nat) :=
  match fuel with
  | O => seen
  | S f =>
      match nodup Z.eq_dec (filter (fun x => negb (zmem x (map fst seen))) frontier) with
      | [] => seen
      | found => bfs f next (seen ++ map (fun x => (x, level)) found) (flat_map next found) (S level)
      end
  end.
Definition lengths (g : digraph) (next : Z -> list Z) (s : Z) : list (Z * nat) :=
  bfs (S (length (g_nodes g))) next [] [s] O.
(** A lookup in the dict of lengths. *)
Fixpoint look (d : list (Z * nat)) (x : Z) : option nat :=
  match d with
  | [] => None
  | (y, n) :: r => if Z.eqb x y then Some n else look r x
  end.

(** immediate_dominators(G, start), as used in graphs.py:133, by its documentation: for each
    node reachable from start its immediate dominator, and start for start itself.  [without]
    is the search for a way around [d]. *)
Definition without (g : digraph) (d : Z) (u : Z) : list Z := filter (fun v => negb (Z.eqb v d)) (succs g u).
Definition around (g : digraph) (r d n : Z) : bool :=
  negb (Z.eqb r d) && zmem n (map fst (lengths g (without g d) r)).
Definition strict_doms (g : digraph) (r n : Z) : list Z :=
  filter (fun d => negb (Z.eqb d n) && negb (around g r d n)) (map fst (lengths g (succs g) r)).
Definition immediate (g : digraph) (r n : Z) : option Z :=
  find (fun d => forallb (fun e => Z.eqb e d || negb (around g r e d)) (strict_doms g r n)) (strict_doms g r n).
Definition immediate_dominators (g : digraph) (r : Z) : list (Z * Z) :=
  map (fun n => (n, match immediate g r n with Some d => d | None => n end)) (map fst (lengths g (succs g) r)).

(** ** DiGraph *)
(** A DiGraph with what it keeps: graphs.py:26-31. *)
Record dgraph := mkDG {
  dg_graph : digraph;
  dg_roots : option (list Z);                            (* _roots *)
  dg_lengths : option (list (Z * list (Z * nat)));       (* _path_lengths *)
  dg_forest : option digraph }.                          (* _dominator_forest *)
Definition dg_new : dgraph := mkDG graph_new None None None.
(** add_node and add_edge are inherited; they do not know about what is kept. *)
Definition dg_add_node (o : dgraph) (v : Z) : dgraph :=
  mkDG (add_node (dg_graph o) v) (dg_roots o) (dg_lengths o) (dg_forest o).
Definition dg_add_edge (o : dgraph) (u v : Z) : dgraph :=
  mkDG (add_edge (dg_graph o) u v) (dg_roots o) (dg_lengths o) (dg_forest o).

(** all_pairs_shortest_path_length, graphs.py:35-37. *)
Definition all_pairs (g : digraph) : list (Z * list (Z * nat)) :=
  map (fun s => (s, lengths g (succs g) s)) (g_nodes g).
(** path_length, graphs.py:33-44; [None] is math.inf. *)
Definition path_length (o : dgraph) (a b : Z) : option nat * dgraph :=
  let d := match dg_lengths o with Some d => d | None => all_pairs (dg_graph o) end in
  let o' := mkDG (dg_graph o) (dg_roots o) (Some d) (dg_forest o) in
  (match find (fun p => Z.eqb (fst p) a) d with
   | None => None
   | Some p => look (snd p) b
   end, o').
(** roots, graphs.py:49-56. *)
Definition roots (o : dgraph) : list Z * dgraph :=
  let r := match dg_roots o with Some r => r | None => graph_roots (dg_graph o) end in
  (r, mkDG (dg_graph o) (Some r) (dg_lengths o) (dg_forest o)).
(** set_roots, graphs.py:46-47. *)
Definition set_roots (o : dgraph) (r : list Z) : dgraph :=
  mkDG (dg_graph o) (Some r) (dg_lengths o) (dg_forest o).
(** The smaller of two lengths, infinity being the largest; min, graphs.py:59. *)
Definition min_len (a b : option nat) : option nat :=
  match a, b with
  | None, _ => b
  | _, None => a
  | Some x, Some y => Some (Nat.min x y)
  end.
Fixpoint depth_loop (o : dgraph) (rs : list Z) (n : Z) : option nat * dgraph :=
  match rs with
  | [] => (None, o)
  | r :: rest =>
      let (a, o1) := path_length o r n in
      let (b, o2) := depth_loop o1 rest n in
      (min_len a b, o2)
  end.
(** depth, graphs.py:58-59: min of nothing is a ValueError. *)
Definition depth (o : dgraph) (n : Z) : Res (option nat * dgraph) :=
  let (rs, o1) := roots o in
  match rs with
  | [] => Exit
  | _ => Ok (depth_loop o1 rs n)
  end.

(** sorted of pairs of a distance and a node, graphs.py:67-71. *)
Definition pair_leb (a b : nat * Z) : bool :=
  Nat.ltb (fst a) (fst b) || Nat.eqb (fst a) (fst b) && Z.leb (snd a) (snd b).
Fixpoint insert_pair (x : nat * Z) (l : list (nat * Z)) : list (nat * Z) :=
  match l with
  | [] => [x]
  | y :: r => if pair_leb x y then x :: l else y :: insert_pair x r
  end.
Definition sort_pairs (l : list (nat * Z)) : list (nat * Z) := fold_right insert_pair [] l.
(** Two nodes at the same distance: the nodes themselves are compared, which is a TypeError if
    their class has no order.  Function and BasicBlock (tracing.py:371-500) have none. *)
Fixpoint has_dup (l : list nat) : bool :=
  match l with
  | [] => false
  | x :: r => existsb (Nat.eqb x) r || has_dup r
  end.
(** ancestors, graphs.py:61-73; [ordered] tells whether nodes can be compared.  The
    OrderedSet keeps the order of its arguments (M_PyCache). *)
Definition ancestors (ordered : bool) (g : digraph) (n : Z) : Res (list Z) :=
  if negb (zmem n (g_nodes g)) then Exit                       (* NetworkXError, 62-63 *)
  else
    let l := map (fun p => (snd p, fst p)) (filter (fun p => negb (Z.eqb (fst p) n)) (lengths g (preds g) n)) in
    if negb ordered && has_dup (map fst l) then Exit            (* TypeError *)
    else Ok (map snd (sort_pairs l)).

(** has_one_predecessor, graphs.py:75-89. *)
Definition has_one_predecessor (g : digraph) (n : Z) : bool :=
  match preds g n with
  | [] => false
  | [_] => true
  | _ => false
  end.

(** contract with the default union, graphs.py:91-122.  The nodes are taken out of a set, in
    whatever order; [order] lists them in that order.  new_node is pred. *)
Definition remove_nodes (g : digraph) (l : list Z) : digraph :=
  mkGraph (filter (fun v => negb (zmem v l)) (g_nodes g))
          (filter (fun e => negb (zmem (fst e) l) && negb (zmem (snd e) l)) (g_edges g)).
Definition add_edges (g : digraph) (es : list (Z * Z)) : digraph :=
  fold_left (fun g e => add_edge g (fst e) (snd e)) es g.
Fixpoint contract_loop (self ret : digraph) (order : list Z) : digraph :=
  match order with
  | [] => ret
  | node :: rest =>
      let ret' :=
        if has_one_predecessor self node then
          match preds self node with
          | pred :: _ =>
              add_edges (remove_nodes ret [pred; node])
                        (map (fun i => (i, pred)) (preds self pred) ++ map (fun o => (pred, o)) (succs self node))
          | [] => ret
          end
        else ret in
      contract_loop self ret' rest
  end.
Definition contract (self : digraph) (order : list Z) : digraph :=
  contract_loop self (add_edges graph_new (g_edges self)) order.

(** nx.dfs_edges and nx.dfs_successors, as used in graphs.py:125: the nodes that discovered
    another one.  [stack] holds a node with its successors not yet looked at. *)
Fixpoint dfs (fuel : nat) (g : digraph) (visited : list Z) (stack : list (Z * list Z)) (keys : list Z) : Res (list Z) :=
  match fuel with
  | O => Fuel
  | S f =>
      match stack with
      | [] => Ok keys
      | (_, []) :: st => dfs f g visited st keys
      | (p, c :: cs) :: st =>
          if zmem c visited then dfs f g visited ((p, cs) :: st) keys
          else dfs f g (c :: visited) ((c, succs g c) :: (p, cs) :: st) (if zmem p keys then keys else keys ++ [p])
      end
  end.
(** descendants, graphs.py:124-125. *)
Definition descendants (fuel : nat) (g : digraph) (n : Z) : Res (list Z) := dfs fuel g [n] [(n, succs g n)] [].

(** non_disjoint_union_all, graphs.py:216-220: a set of edges, here without repetition. *)
Definition union_all (first : digraph) (gs : list digraph) : digraph :=
  add_edges graph_new (g_edges first ++ flat_map g_edges gs).

(** dominator_forest, graphs.py:127-136. *)
Definition forest_edges (g : digraph) (r : Z) : list (Z * Z) :=
  map (fun p => (snd p, fst p)) (filter (fun p => negb (Z.eqb (fst p) (snd p))) (immediate_dominators g r)).
Definition dominator_forest (o : dgraph) : digraph * dgraph :=
  match dg_forest o with
  | Some f => (f, o)
  | None =>
      let (rs, o1) := roots o in
      let f := add_edges graph_new (flat_map (forest_edges (dg_graph o1)) rs) in
      (f, mkDG (dg_graph o1) (dg_roots o1) (dg_lengths o1) (Some f))
  end.

(** ** Basic blocks, tracing.py:428-500 *)
(** A basic block: what identifies it, its function, its children and its predecessors. *)
Record bblock := mkBB { bb_id : Z; bb_func : Z; bb_children : list Z; bb_preds : list Z }.
(** ProgramTrace.cfg, tracing.py:1240-1249 (and function_cfg, 1251-1259, with calls_to for
    children). *)
Definition build_cfg (bs : list (Z * list Z)) : dgraph :=
  fold_left (fun o b => fold_left (fun o c => dg_add_edge o (fst b) c) (snd b) (dg_add_node o (fst b))) bs dg_new.
Definition cfg (bs : list bblock) : dgraph := build_cfg (map (fun b => (bb_id b, bb_children b)) bs).
(** The function a block belongs to. *)
Definition func_of (bs : list bblock) (x : Z) : option Z :=
  match find (fun b => Z.eqb (bb_id b) x) bs with Some b => Some (bb_func b) | None => None end.
Definition same_func (bs : list bblock) (f : Z) (x : Z) : bool :=
  match func_of bs x with Some f' => Z.eqb f f' | None => false end.

(** is_loop_entry, tracing.py:471-480: predecessors() of a node that is not in the forest is a
    NetworkXError. *)
Definition is_loop_entry (bs : list bblock) (b : bblock) : Res bool :=
  let ps := nodup Z.eq_dec (filter (same_func bs (bb_func b)) (bb_preds b)) in
  if Nat.ltb (length ps) 2 then Ok false
  else
    let f := fst (dominator_forest (cfg bs)) in
    if negb (zmem (bb_id b) (g_nodes f)) then Exit
    else
      let ds := preds f (bb_id b) in
      if negb (existsb (fun p => zmem p ps) ds) then Ok false
      else Ok (existsb (fun p => negb (zmem p ds)) ps).
(** is_conditional, tracing.py:482-487; the children are a set. *)
Definition is_conditional (bs : list bblock) (b : bblock) : Res bool :=
  if Nat.ltb (length (nodup Z.eq_dec (filter (same_func bs (bb_func b)) (bb_children b)))) 2 then Ok false
  else do l <- is_loop_entry bs b; Ok (negb l).
