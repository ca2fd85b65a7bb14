(** Model of the extraction of a parse tree from a trace, polytracker/parsing.py:255-605.

    Simplifications: a function invocation is given as the list of its basic blocks with what
    each of them called (tracing.py:973-981, 799-804); a basic block is its name, its uid and
    the regions of its taints as (offset, length) (tracing.py, Taints.regions); names are
    numbers (a block's name is that of its production, as in M_PyGrammar).  The loops over the
    mutable nodes are recursions: trace_to_tree appends to a node only while its own function
    is processed; a traversal changes only the node it is at and its children's intervals.
    Progress bars and log messages are left out; Python runs without -O.  An exception is [Exit].

    IntervalTree is that of the intervaltree package, not part of /repo: a set of intervals
    [begin, end) with data, here a list without duplicates.  The data None is -1, which is what
    _winners makes of it. *)
From Coq Require Import NArith ZArith List Bool.
From Verif Require Import M_Base M_PyGrammar.
Import ListNotations.
Open Scope Z_scope.

(** ** intervaltree *)
Record interval := mkIv { iv_begin : Z; iv_end : Z; iv_data : Z }.
Definition iv_eqb (a b : interval) : bool :=
  (iv_begin a =? iv_begin b) && (iv_end a =? iv_end b) && (iv_data a =? iv_data b).
Definition intervals := list interval.
(** add, update, |=. *)
Definition iv_add (t : intervals) (i : interval) : intervals := if existsb (iv_eqb i) t then t else t ++ [i].
Definition iv_update (t : intervals) (is : list interval) : intervals := fold_left iv_add is t.
(** tree[p] *)
Definition iv_at (t : intervals) (p : Z) : intervals := filter (fun i => (iv_begin i <=? p) && (p <? iv_end i)) t.
(** begin() and end(); 0 for the empty tree. *)
Definition iv_first (t : intervals) : Z :=
  match t with [] => 0 | i :: r => fold_left (fun m j => Z.min m (iv_begin j)) r (iv_begin i) end.
Definition iv_last (t : intervals) : Z :=
  match t with [] => 0 | i :: r => fold_left (fun m j => Z.max m (iv_end j)) r (iv_end i) end.
(** overlaps(b, e) *)
Definition iv_overlaps (t : intervals) (b e : Z) : bool :=
  (b <? e) && existsb (fun i => (iv_begin i <? e) && (b <? iv_end i)) t.
(** chop(b, e): the intervals inside go, those that reach over an end are cut. *)
Definition iv_chop (t : intervals) (b e : Z) : intervals :=
  let begin_hits := filter (fun i => iv_begin i <? b) (iv_at t b) in
  let end_hits := filter (fun i => e <? iv_end i) (iv_at t e) in
  let inside i := (b <? e) && (b <=? iv_begin i) && (iv_end i <=? e) in
  let kept := filter (fun i => negb (inside i) && negb (existsb (iv_eqb i) begin_hits) && negb (existsb (iv_eqb i) end_hits)) t in
  iv_update kept (map (fun i => mkIv (iv_begin i) b (iv_data i)) begin_hits ++ map (fun i => mkIv e (iv_end i) (iv_data i)) end_hits).
(** split_overlaps() *)
Fixpoint insert_z (x : Z) (l : list Z) : list Z :=
  match l with
  | [] => [x]
  | y :: r => if x <? y then x :: l else if x =? y then l else y :: insert_z x r
  end.
Definition iv_bounds (t : intervals) : list Z := fold_right insert_z [] (map iv_begin t ++ map iv_end t).
Fixpoint split_at (t : intervals) (bounds : list Z) : intervals :=
  match bounds with
  | l :: (u :: _) as rest => map (fun i => mkIv l u (iv_data i)) (iv_at t l) ++ split_at t rest
  | _ => []
  end.
Definition iv_split (t : intervals) : intervals := iv_update [] (split_at t (iv_bounds t)).
(** merge_overlaps(data_reducer=max, strict): the intervals in order, overlapping ones joined. *)
Definition iv_leb (a b : interval) : bool :=
  if iv_begin a =? iv_begin b then if iv_end a =? iv_end b then iv_data a <=? iv_data b else iv_end a <? iv_end b
  else iv_begin a <? iv_begin b.
Fixpoint insert_iv (x : interval) (l : intervals) : intervals :=
  match l with
  | [] => [x]
  | y :: r => if iv_leb x y then x :: l else y :: insert_iv x r
  end.
Definition iv_sorted (t : intervals) : intervals := fold_right insert_iv [] t.
Fixpoint merge_loop (strict : bool) (lower : interval) (l : intervals) : intervals :=
  match l with
  | [] => [lower]
  | h :: r =>
      if (iv_begin h <? iv_end lower) || negb strict && (iv_begin h =? iv_end lower)
      then merge_loop strict (mkIv (iv_begin lower) (Z.max (iv_end lower) (iv_end h)) (Z.max (iv_data lower) (iv_data h))) r
      else lower :: merge_loop strict h r
  end.
Definition iv_merge (strict : bool) (t : intervals) : intervals :=
  match iv_sorted t with [] => [] | i :: r => merge_loop strict i r end.

(** ** The tree of a trace *)
(** A basic block, and what it called; a function invocation. *)
Inductive invocation : Type := Invocation (name : N) (blocks : list (N * Z * list (Z * Z) * option invocation)).
Definition block_regions (b : N * Z * list (Z * Z) * option invocation) : list (Z * Z) := snd (fst b).

(** touched_taint of a function, tracing.py:539-541, 983-991. *)
Fixpoint touched (f : invocation) : bool :=
  let 'Invocation _ bs := f in
  existsb (fun b => match b with (_, regions, called) =>
    match regions with [] => match called with Some g => touched g | None => false end | _ => true end end) bs.

(** A node, with its intervals; MutableParseTree and NonGeneralizedParseTree.__init__, 165-174, 309-332. *)
Inductive node : Type := INode (v : value) (ivs : intervals) (cs : list node).
Definition n_ivs (n : node) : intervals := let 'INode _ i _ := n in i.
(** _consumed_intervals, 541-545. *)
Definition consumed (uid : Z) (regions : list (Z * Z)) : intervals :=
  iv_update [] (map (fun r => mkIv (fst r) (fst r + snd r) uid) regions).

(** trace_to_tree, 255-306, without terminals. *)
Fixpoint function_node (f : invocation) : node :=
  let 'Invocation name bs := f in
  INode (VEvent name false) [] (flat_map (fun b => match b with (bb, uid, regions, called) =>
    INode (VEvent bb true) (consumed uid regions) [] ::
    match called with Some g => if touched g then [function_node g] else [] | None => [] end end) bs).
Definition trace_tree (entrypoint : invocation) : node := INode VStart [] [function_node entrypoint].

(** ** Deconflicting *)
(** The data of the interval at a position, -1 if there is none; the assertion that there is
    at most one, 434-451. *)
Definition last_used (t : intervals) (p : Z) : Res Z :=
  match iv_at t p with [] => Ok (-1) | [i] => Ok (iv_data i) | _ => Exit end.
Fixpoint z_range (b : Z) (n : nat) : list Z := match n with O => [] | S k => b :: z_range (b + 1) k end.
Fixpoint winners_at (ours theirs : intervals) (ps : list Z) : Res (list Z) :=
  match ps with
  | [] => Ok []
  | p :: r => do a <- last_used ours p; do b <- last_used theirs p; do ws <- winners_at ours theirs r; Ok (a - b :: ws)
  end.
(** _winners, 427-456. *)
Definition winners (ours theirs : intervals) : Res (option (list Z)) :=
  if iv_last ours <=? iv_first theirs then Ok None
  else do ws <- winners_at ours theirs (z_range (iv_first theirs) (Z.to_nat (iv_last ours + 1 - iv_first theirs))); Ok (Some ws).

(** best_partition, 458-475. *)
Fixpoint badness (i point : Z) (ws : list Z) : Z :=
  match ws with
  | [] => 0
  | w :: r => (if ((i <? point) && (w <? 0)) || ((point <=? i) && (0 <? w)) then 1 else 0) + badness (i + 1) point r
  end.
Fixpoint best_point (ws : list Z) (points : list Z) (best : Z * option Z) : Z * option Z :=
  match points with
  | [] => best
  | p :: r => let b := badness 0 p ws in
              best_point ws r (match snd best with Some m => if b <? m then (p, Some b) else best | None => (p, Some b) end)
  end.
Definition best_partition (ours theirs : intervals) : Res (option Z) :=
  do w <- winners ours theirs;
  Ok (match w with
      | None => None
      | Some ws => Some (fst (best_point ws (z_range 0 (length ws + 1)) (iv_last ours, None)))
      end).

(** deconflict_sibling, 492-498: the new intervals of both. *)
Definition deconflict_sibling (ours theirs : intervals) : Res (intervals * intervals) :=
  do p <- best_partition ours theirs;
  Ok (match p with
      | None => (ours, theirs)
      | Some point => let at_ := iv_first theirs + point in (iv_chop ours at_ (iv_last ours), iv_chop theirs 0 at_)
      end).

(** best_subset, 477-490: an index out of range raises. *)
Fixpoint skip_left (ws : list Z) (lo hi : Z) : Res Z :=
  match ws with
  | [] => Exit
  | w :: r => if (w <? 0) && (lo <? hi) then skip_left r (lo + 1) hi else Ok lo
  end.
Fixpoint skip_right (rws : list Z) (lo hi : Z) : Z :=
  match rws with
  | [] => hi
  | w :: r => if (lo <? hi) && (w <? 0) then skip_right r lo (hi - 1) else hi
  end.
Definition best_subset (ours theirs : intervals) : Res (Z * Z) :=
  do w <- winners ours theirs;
  match w with
  | None => Exit
  | Some ws => let n := Z.of_nat (length ws) in
               do lo <- skip_left ws 0 n; Ok (lo, skip_right (rev ws) lo n)
  end.
(** deconflict_parent, 500-504. *)
Definition deconflict_parent (ours parent : intervals) : Res intervals :=
  do s <- best_subset ours parent; Ok (iv_chop ours (iv_first ours + fst s) (iv_last ours - snd s)).

(** The overlap check of verify_bounds, 342-366: [covered] are the ranges seen so far. *)
Fixpoint check_overlap (covered : intervals) (ranges : list (Z * Z)) : Res intervals :=
  match ranges with
  | [] => Ok covered
  | (b, e) :: r =>
      if iv_overlaps covered b e then Exit
      else check_overlap (if b <? e then iv_add covered (mkIv b e 0) else covered) r
  end.

Definition n_first (n : node) : Z := iv_first (n_ivs n).
Definition n_last (n : node) : Z := iv_last (n_ivs n).
Definition set_ivs (n : node) (i : intervals) : node := let 'INode v _ cs := n in INode v i cs.
(** for child, right_sibling in zip(self.children, self.children[1:]), 512-513. *)
Definition siblings (cs : list node) : Res (list node) :=
  match cs with
  | [] => Ok []
  | c :: r =>
      (fix next (c : node) (r : list node) : Res (list node) :=
         match r with
         | [] => Ok [c]
         | s :: r' => do p <- deconflict_sibling (n_ivs c) (n_ivs s);
                      do rest <- next (set_ivs s (snd p)) r'; Ok (set_ivs c (fst p) :: rest)
         end) c r
  end.
(** bottom_up_pass, 506-522. *)
Definition bottom_up_pass (v : value) (ivs : intervals) (cs : list node) : Res node :=
  do cs' <- siblings (filter (fun c => n_first c <? n_last c) cs);
  let all := fold_left (fun t c => iv_update t (n_ivs c)) cs' ivs in
  do _ <- check_overlap [] (map (fun c => (n_first c, n_last c)) cs');
  Ok (INode v (iv_merge true (iv_split all)) cs').
(** The first loop of trace_to_non_generalized_tree, 558-567. *)
Fixpoint bottom_up (input_len : Z) (n : node) : Res node :=
  let 'INode v ivs cs := n in
  do cs' <- (fix all (l : list node) : Res (list node) :=
               match l with [] => Ok [] | c :: r => do c' <- bottom_up input_len c; do r' <- all r; Ok (c' :: r') end) cs;
  do own <- match v with
            | VStart => if 0 <? input_len then Ok (iv_add ivs (mkIv 0 input_len 0)) else Exit
            | _ => Ok ivs
            end;
  bottom_up_pass v own cs'.

(** ** Finalising *)
(** A finished node: value, _begin, _end and children. *)
Inductive done : Type := Done (v : value) (b e : Z) (cs : list done).
Definition d_begin (d : done) : Z := let 'Done _ b _ _ := d in b.
Definition d_end (d : done) : Z := let 'Done _ _ e _ := d in e.

(** The changes top_down_pass makes to a child, 524-539; [b] and [e] are the parent's bounds. *)
Definition top_down_child (b e : Z) (ivs : intervals) : Res intervals :=
  let i1 := iv_chop ivs 0 b in
  let i2 := if e <? iv_last i1 then iv_chop i1 e (iv_last i1) else i1 in
  if iv_first i2 <? iv_last i2 then deconflict_parent i2 [mkIv b e (-1)] else Ok i2.

(** inputstr[b:e], for 0 <= b. *)
Definition slice (input : list N) (b e : Z) : list N := firstn (Z.to_nat (e - b)) (skipn (Z.to_nat b) input).
Definition terminal (input : list N) (b e : Z) : done := Done (VTerminal (slice input b e)) b e [].
(** The new children, 581-600; the children are finished already here, which is only done
    later in the code and does not change their bounds. *)
Fixpoint fill (input : list N) (last_end node_end : Z) (cs : list done) : list done :=
  match cs with
  | [] => if last_end <? node_end then [terminal input last_end node_end] else []
  | c :: r =>
      (if last_end <? d_begin c then [terminal input last_end (d_begin c)] else []) ++
      c :: fill input (d_end c) node_end r
  end.
(** The second loop, 569-600, on a node with intervals [ivs] and children [cs]. *)
Fixpoint finish (input : list N) (n : node) (ivs : intervals) : Res done :=
  let 'INode v _ cs := n in
  let b := iv_first ivs in
  let e := iv_last ivs in
  do kids <- (if e <=? b then Ok [] else
                (fix all (l : list node) : Res (list done) :=
                   match l with
                   | [] => Ok []
                   | c :: r =>
                       do i <- top_down_child b e (n_ivs c);
                       if iv_last i <=? iv_first i then all r
                       else do d <- finish input c i; do ds <- all r; Ok (d :: ds)
                   end) cs);
  match fill input b e kids with
  | [] => Exit
  | new_children => Ok (Done v b e new_children)
  end.

(** ** Verification *)
(** verify_bounds, 342-389, with all checks. *)
Definition verify_bounds (b e : Z) (cs : list (Z * Z)) : Res unit :=
  do covered <- check_overlap [] cs;
  match cs with
  | [] => Ok tt
  | _ => if negb ((iv_first covered =? b) && (iv_last covered =? e)) then Exit
         else match iv_merge false covered with [] | [_] => Ok tt | _ => Exit end
  end.
Definition d_range (d : done) : Z * Z := (d_begin d, d_end d).
Fixpoint starts_with (s prefix : list N) : bool :=
  match prefix, s with
  | [], _ => true
  | p :: ps, c :: cs => (p =? c)%N && starts_with cs ps
  | _, [] => false
  end.
(** verify, 391-410, in preorder: what remains of the string after a node. *)
Fixpoint verify (remaining : list N) (d : done) : Res (list N) :=
  let 'Done v b e cs := d in
  do _ <- verify_bounds b e (map d_range cs);
  do rest <- match v with
             | VTerminal t => if starts_with remaining t then Ok (skipn (length t) remaining) else Exit
             | _ => Ok remaining
             end;
  (fix all (rem : list N) (l : list done) : Res (list N) :=
     match l with [] => Ok rem | c :: r => do rem' <- verify rem c; all rem' r end) rest cs.

(** trace_to_non_generalized_tree, 548-605, for the tree of a trace and its input. *)
Definition extract (input : list N) (t : node) : Res done :=
  do t1 <- bottom_up (Z.of_nat (length input)) t;
  do d <- finish input t1 (n_ivs t1);
  do _ <- verify input d;
  Ok d.
Definition trace_to_non_generalized_tree (input : list N) (entrypoint : invocation) : Res done :=
  extract input (trace_tree entrypoint).
