(** Specification: what the parse tree of a trace says about its input. *)
From Coq Require Import NArith ZArith List Bool.
From Verif Require Import M_Base M_PyGrammar M_PyTree.
Import ListNotations.
Open Scope Z_scope.

(** The bytes of the input from [b] up to [e]. *)
Definition bytes (input : list N) (b e : Z) : list N := firstn (Z.to_nat (e - b)) (skipn (Z.to_nat b) input).
(** The nodes follow each other without a gap from [b] to [e]. *)
Inductive chain : Z -> Z -> list done -> Prop :=
| chain_end : forall b, chain b b []
| chain_next : forall v b m e sub r, b < m -> chain m e r -> chain b e (Done v b m sub :: r).
(** The range of each node is made up of those of its children, in order; the leaves have the
    bytes of their ranges. *)
Inductive tiles (input : list N) : done -> Prop :=
| tiles_leaf : forall b e, 0 <= b < e -> tiles input (Done (VTerminal (bytes input b e)) b e [])
| tiles_node : forall v b e cs, (forall t, v <> VTerminal t) -> 0 <= b < e -> chain b e cs -> Forall (tiles input) cs ->
    tiles input (Done v b e cs).

(** The tree without the ranges. *)
Fixpoint plain (d : done) : tree := let 'Done v _ _ cs := d in Node v (map plain cs).
(** The events of the tree with their ranges, without the bytes. *)
Definition is_leaf (d : done) : bool := match d with Done (VTerminal _) _ _ _ => true | _ => false end.
Fixpoint events (d : done) : done :=
  let 'Done v b e cs := d in Done v b e (flat_map (fun c => if is_leaf c then [] else [events c]) cs).

(** The calls of a trace: a function's blocks, in order, each followed by the function it called. *)
Fixpoint calls (f : invocation) : tree :=
  let 'Invocation name bs := f in
  Node (VEvent name false) (flat_map (fun b => match b with (bb, _, _, called) =>
    Node (VEvent bb true) [] :: match called with Some g => [calls g] | None => [] end end) bs).
(** [t'] is [t] without some of its subtrees. *)
Inductive pruned : tree -> tree -> Prop :=
| pruned_node : forall v cs cs', pruned_list cs cs' -> pruned (Node v cs) (Node v cs')
with pruned_list : list tree -> list tree -> Prop :=
| pruned_nil : pruned_list [] []
| pruned_drop : forall t r r', pruned_list r r' -> pruned_list (t :: r) r'
| pruned_keep : forall t t' r r', pruned t t' -> pruned_list r r' -> pruned_list (t :: r) (t' :: r').

(** The regions of the input read during a call, as (offset, length). *)
Fixpoint regions_of (f : invocation) : list (Z * Z) :=
  let 'Invocation _ bs := f in
  flat_map (fun b => match b with (_, _, regions, called) =>
    regions ++ match called with Some g => regions_of g | None => [] end end) bs.
(** The smallest range with all of the regions. *)
Definition first_of (rs : list (Z * Z)) : Z := match rs with [] => 0 | (o, _) :: r => fold_right Z.min o (map fst r) end.
Definition last_of (rs : list (Z * Z)) : Z :=
  match rs with [] => 0 | (o, l) :: r => fold_right Z.max (o + l) (map (fun x => fst x + snd x) r) end.
(** Regions as a trace has them: not empty, and inside an input of [len] bytes. *)
Definition within (len : Z) (rs : list (Z * Z)) : Prop := forall o l, In (o, l) rs -> 0 <= o /\ 0 < l /\ o + l <= len.
Definition sound (rs : list (Z * Z)) : Prop := forall o l, In (o, l) rs -> 0 <= o /\ 0 < l.
(** The uids of a trace are not negative. *)
Inductive counted : invocation -> Prop :=
| counted_call : forall name bs,
    (forall bb uid rs called, In (bb, uid, rs, called) bs -> 0 <= uid /\ forall g, called = Some g -> counted g) ->
    counted (Invocation name bs).

(** The ranges of a function's blocks and calls that read something, in order. *)
Definition parts (bs : list (N * Z * list (Z * Z) * option invocation)) : list (list (Z * Z)) :=
  filter (fun rs => match rs with [] => false | _ => true end)
    (flat_map (fun b => match b with (_, _, regions, called) =>
       regions :: match called with Some g => [regions_of g] | None => [] end end) bs).
(** One after the other. *)
Fixpoint one_after (ps : list (list (Z * Z))) : Prop :=
  match ps with
  | p :: (q :: _) as rest => last_of p <= first_of q /\ one_after rest
  | _ => True
  end.
(** The program reads its input from left to right, at each level of its calls. *)
Inductive left_to_right : invocation -> Prop :=
| left_to_right_call : forall name bs, one_after (parts bs) ->
    (forall bb uid rs g, In (bb, uid, rs, Some g) bs -> left_to_right g) -> left_to_right (Invocation name bs).

(** The tree one expects of such a trace, without the bytes: each block and each call that
    read something, with the range it read. *)
Definition block_event (bb : N) (rs : list (Z * Z)) : list done :=
  match rs with [] => [] | _ => [Done (VEvent bb true) (first_of rs) (last_of rs) []] end.
Fixpoint call_event (f : invocation) : list done :=
  match regions_of f with
  | [] => []
  | rs => let 'Invocation name bs := f in
          [Done (VEvent name false) (first_of rs) (last_of rs) (flat_map (fun b => match b with (bb, _, regions, called) =>
             block_event bb regions ++ match called with Some g => call_event g | None => [] end end) bs)]
  end.
