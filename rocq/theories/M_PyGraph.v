(** Model of the export of the taint forest as a graph: polytracker/taint_forest.py and the
    parts of polytracker/graphs.py it uses. *)
From Coq Require Import NArith ZArith List Bool.
From Verif Require Import M_Base M_PyFile M_PyAnalysis M_Runtime.
Import ListNotations.
Open Scope N_scope.

(** ** networkx.DiGraph *)
(** The nodes of an nx.DiGraph and its edges, both in insertion order.  Nodes are the integer
    labels of the forest; the attributes of nodes and edges, which the code never sets, are
    left out. *)
Record digraph := mkGraph { g_nodes : list Z; g_edges : list (Z * Z) }.
Definition graph_new : digraph := mkGraph [] [].

Definition zmem (z : Z) (l : list Z) : bool := existsb (Z.eqb z) l.
Definition edge_eqb (a b : Z * Z) : bool := Z.eqb (fst a) (fst b) && Z.eqb (snd a) (snd b).

(** nx.DiGraph.add_node, as used in taint_forest.py:69: nothing happens if it is there. *)
Definition add_node (g : digraph) (v : Z) : digraph :=
  if zmem v (g_nodes g) then g else mkGraph (g_nodes g ++ [v]) (g_edges g).
(** nx.DiGraph.add_edge, as used in taint_forest.py:71 and 74: adds the nodes that are
    missing; a second edge between the same nodes changes nothing. *)
Definition add_edge (g : digraph) (u v : Z) : digraph :=
  let g := add_node (add_node g u) v in
  if existsb (edge_eqb (u, v)) (g_edges g) then g else mkGraph (g_nodes g) (g_edges g ++ [(u, v)]).
(** nx.DiGraph.edges, as used in graphs.py:180: node by node, the successors of each in the
    order they were added. *)
Definition graph_edges (g : digraph) : list (Z * Z) :=
  flat_map (fun u => filter (fun e => Z.eqb (fst e) u) (g_edges g)) (g_nodes g).
(** DiGraph.roots, graphs.py:49-56: the nodes of in-degree 0, in node order.  (The tuple is
    computed once and kept; the graph is not changed afterwards.) *)
Definition graph_roots (g : digraph) : list Z :=
  filter (fun v => negb (existsb (fun e => Z.eqb (snd e) v) (g_edges g))) (g_nodes g).

(** ** TaintForest.to_graph *)
(** taint_forest.py:70-71 with [side] = parent one and 73-74 with [side] = parent two.  The
    properties parent_one and parent_two, taint_dag.py:719-731, ask the forest for the node,
    here once for the test and once for its label; a node is always true, the class having
    neither __bool__ nor __len__. *)
Definition graph_parent (d : tdfile) (fo : forest) (g : digraph) (n : fnode) (side : Z * Z -> Z) : Res (digraph * forest) :=
  match fn_parents n with
  | None => Ok (g, fo)
  | Some pq =>
      do a <- get_node d fo (side pq);
      do b <- get_node d (snd a) (side pq);
      Ok (add_edge g (fn_label (fst b)) (fn_label n), snd b)
  end.

(** The loop of to_graph, taint_forest.py:68-74, over the generator nodes,
    taint_dag.py:810-814, which is resumed after the parents of a node have been asked for. *)
Fixpoint graph_loop (fuel : nat) (d : tdfile) (fo : forest) (g : digraph) (label : Z) : Res (digraph * forest) :=
  match dict_get Z.eqb (fo_cache fo) label with
  | None => Ok (g, fo)
  | Some _ =>
      match fuel with
      | O => Fuel
      | S f =>
          do p <- get_node d fo label;
          let (n, fo1) := p in
          let g1 := add_node g (fn_label n) in
          do a <- graph_parent d fo1 g1 n fst;
          let (g2, fo2) := a in
          do b <- graph_parent d fo2 g2 n snd;
          let (g3, fo3) := b in
          graph_loop f d fo3 g3 (label - 1)%Z
      end
  end.
(** to_graph, taint_forest.py:65-76; DAG(dag) copies nodes and edges in their order. *)
Definition to_graph (fuel : nat) (d : tdfile) (fo : forest) : Res (digraph * forest) :=
  graph_loop fuel d fo graph_new (max_key (fo_cache fo)).

(** ** DiGraph.to_dot *)
(** The statements of a graphviz.Digraph: a node with its label, an edge, a subgraph with its
    name, the defaults it sets for graph, nodes and edges, and its statements. *)
Definition str := list N.
Inductive dot :=
| DotNode (id label : str)
| DotEdge (a b : str)
| DotSub (name : str) (graph_attr node_attr edge_attr : list (str * str)) (body : list dot).

(** str of an integer, as used in graphs.py:145, 168, 171, 175 and 182. *)
Definition py_str (z : Z) : str :=
  let n := Z.abs_N z in
  (if (z <? 0)%Z then [45] else []) ++ digits (S (N.to_nat (N.log2 n))) n [].

(** sorted, graphs.py:155. *)
Fixpoint insert_label (x : Z) (l : list Z) : list Z :=
  match l with
  | [] => [x]
  | y :: r => if (x <=? y)%Z then x :: l else y :: insert_label x r
  end.
Definition sorted_labels (l : list Z) : list Z := fold_right insert_label [] l.

(** The invisible edges between consecutive roots, graphs.py:170-171. *)
Fixpoint root_edges (l : list Z) : list dot :=
  match l with
  | a :: (b :: _) as r => DotEdge (py_str a) (py_str b) :: root_edges r
  | _ => []
  end.

(** "roots", "inner", "rank", "same", "shape", "square", "style", "invis". *)
Definition w_roots : str := [114; 111; 111; 116; 115].
Definition w_inner : str := [105; 110; 110; 101; 114].
Definition w_rank : str := [114; 97; 110; 107].
Definition w_same : str := [115; 97; 109; 101].
Definition w_shape : str := [115; 104; 97; 112; 101].
Definition w_square : str := [115; 113; 117; 97; 114; 101].
Definition w_style : str := [115; 116; 121; 108; 101].
Definition w_invis : str := [105; 110; 118; 105; 115].

(** to_dot without comment, labeler and filter, graphs.py:138-183, as called by the command
    "forest", taint_forest.py:96-101; the bytes of the .dot file are graphviz's. *)
Definition to_dot (g : digraph) : list dot :=
  let nodes := sorted_labels (g_nodes g) in
  let root_nodes := filter (fun v => zmem v (graph_roots g)) nodes in
  let inner_nodes := filter (fun v => negb (zmem v (graph_roots g))) nodes in
  let stmt v := DotNode (py_str v) (py_str v) in
  [ DotSub w_roots [(w_rank, w_same)] [(w_shape, w_square)] [(w_style, w_invis)] (map stmt root_nodes ++ root_edges root_nodes);
    DotSub w_inner [] [] [] (map stmt inner_nodes) ]
  ++ map (fun e => DotEdge (py_str (fst e)) (py_str (snd e))) (graph_edges g).
