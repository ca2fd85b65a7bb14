(** Model of the general part of polytracker/parsing.py: trees (29-179), terminals as text and
    the excerpt shown in error messages (182-244).

    Text and bytes are lists of numbers; str(n.value) is a function [name].  Trees hold values of
    any type; two references to one node are two equal trees. *)
From Coq Require Import NArith List Bool.
From Verif Require Import M_Base.
Import ListNotations.
Open Scope N_scope.

(** ImmutableParseTree, parsing.py:124-133, without what it remembers. *)
Inductive ptree (V : Type) : Type := PNode (v : V) (cs : list (ptree V)).
Arguments PNode {V}.

Section Trees.
  Context {V : Type}.
  Definition p_value (t : ptree V) : V := let 'PNode v _ := t in v.
  Definition p_children (t : ptree V) : list (ptree V) := let 'PNode _ cs := t in cs.

  (** postorder_traversal, parsing.py:60-69; the end of the list s is the head here. *)
  Fixpoint postorder_loop (fuel : nat) (s : list (bool * ptree V)) : Res (list (ptree V)) :=
    match fuel with
    | O => Fuel
    | S f =>
        match s with
        | [] => Ok []
        | (expanded, node) :: rest =>
            if negb expanded && (match p_children node with [] => false | _ => true end)
            then postorder_loop f (map (fun c => (false, c)) (p_children node) ++ (true, node) :: rest)
            else do r <- postorder_loop f rest; Ok (node :: r)
        end
    end.
  Definition postorder (fuel : nat) (t : ptree V) : Res (list (ptree V)) := postorder_loop fuel [(false, t)].

  (** preorder_traversal, parsing.py:71-76. *)
  Fixpoint preorder_loop (fuel : nat) (s : list (ptree V)) : Res (list (ptree V)) :=
    match fuel with
    | O => Fuel
    | S f =>
        match s with
        | [] => Ok []
        | node :: rest => do r <- preorder_loop f (p_children node ++ rest); Ok (node :: r)
        end
    end.
  Definition preorder (fuel : nat) (t : ptree V) : Res (list (ptree V)) := preorder_loop fuel [t].
  (** is_leaf and leaves, parsing.py:82-88. *)
  Definition is_leaf (t : ptree V) : bool := match p_children t with [] => true | _ => false end.
  Definition leaves (fuel : nat) (t : ptree V) : Res (list (ptree V)) := do l <- preorder fuel t; Ok (filter is_leaf l).

  (** to_dag, parsing.py:41-51: the edges, or the only node. *)
  Definition dag_edges (fuel : nat) (t : ptree V) : Res (list (ptree V * ptree V)) :=
    do l <- preorder fuel t; Ok (flat_map (fun n => map (fun c => (n, c)) (p_children n)) l).

  (** clone, parsing.py:135-163.  The IPTNode objects are numbered in the order of their
      creation; to_clone holds numbers, its end is the head here. *)
  Record ipt := mkIpt { i_node : ptree V; i_children : option (list (ptree V)); i_parent : option nat }.
  Definition ipts := nat -> ipt.
  Definition set_ipt (st : ipts) (i : nat) (x : ipt) : ipts := fun j => if Nat.eqb j i then x else st j.
  (** The extend of 149-152: the last child is created first. *)
  Fixpoint extend (st : ipts) (next : nat) (parent : nat) (rev_children : list (ptree V)) (stack : list nat) : ipts * nat * list nat :=
    match rev_children with
    | [] => (st, next, stack)
    | c :: r => extend (set_ipt st next (mkIpt c None (Some parent))) (S next) parent r (next :: stack)
    end.
  Fixpoint clone_loop (fuel : nat) (st : ipts) (next : nat) (stack : list nat) : Res (ptree V) :=
    match fuel with
    | O => Fuel
    | S f =>
        match stack with
        | [] => Exit                                       (* the loop ends: None is returned *)
        | i :: rest =>
            match i_children (st i) with
            | None =>
                let st1 := set_ipt st i (mkIpt (i_node (st i)) (Some []) (i_parent (st i))) in
                let '(st2, next2, stack2) := extend st1 next i (rev (p_children (i_node (st i)))) stack in
                clone_loop f st2 next2 stack2
            | Some cs =>
                let cloned := PNode (p_value (i_node (st i))) cs in
                match i_parent (st i) with
                | Some p =>
                    match i_children (st p) with
                    | None => Exit                          (* the assertion in 159 *)
                    | Some ps => clone_loop f (set_ipt st p (mkIpt (i_node (st p)) (Some (ps ++ [cloned])) (i_parent (st p)))) next rest
                    end
                | None => match rest with [] => Ok cloned | _ => Exit end   (* 162 *)
                end
            end
        end
    end.
  Definition clone (fuel : nat) (t : ptree V) : Res (ptree V) :=
    clone_loop fuel (fun _ => mkIpt t None None) 1 [0%nat].

  (** __str__, parsing.py:99-118: the stack holds trees and texts. *)
  Context (name : V -> list N).
  Fixpoint pieces (i : nat) (cs : list (ptree V)) : list (ptree V + list N) :=
    match cs with
    | [] => []
    | c :: r => match i with O => [inl c] | S _ => [inl c; inr [32]] end ++ pieces (S i) r
    end.
  Fixpoint str_loop (fuel : nat) (stack : list (ptree V + list N)) : Res (list N) :=
    match fuel with
    | O => Fuel
    | S f =>
        match stack with
        | [] => Ok []
        | inr text :: rest => do r <- str_loop f rest; Ok (text ++ r)
        | inl n :: rest =>
            match p_children n with
            | [] => do r <- str_loop f rest; Ok (name (p_value n) ++ r)
            | cs =>
                match name (p_value n) with
                | [] => str_loop f (pieces 0 cs ++ rest)
                | v => do r <- str_loop f (pieces 0 cs ++ inr [93] :: rest); Ok (v ++ [32; 91] ++ r)
                end
            end
        end
    end.
  Definition p_str (fuel : nat) (t : ptree V) : Res (list N) := str_loop fuel [inl t].
End Trees.

(** ** Trees that remember the number of their descendants *)
(** The slot _descendants, parsing.py:30-34. *)
Inductive dtree : Type := DNode (kept : option N) (cs : list dtree).
Definition d_kept (t : dtree) : option N := let 'DNode k _ := t in k.
Definition kept_or_0 (t : dtree) : N := match d_kept t with Some n => n | None => 0 end.
(** The loop in 56-57.  Nodes are visited after their children ([postorder]), so that the
    numbers of the children are new; written as a recursion. *)
Fixpoint fill (t : dtree) : dtree :=
  let 'DNode _ cs := t in
  let cs' := map fill cs in
  DNode (Some (fold_right (fun c n => kept_or_0 c + n) 0 cs' + len cs')) cs'.
(** descendants, parsing.py:53-58. *)
Definition descendants_of (t : dtree) : N * dtree :=
  match d_kept t with
  | Some n => (n, t)
  | None => let t' := fill t in (kept_or_0 t', t')
  end.
(** add_child, parsing.py:175-176, at the node reached by [path] (indices of children). *)
Fixpoint replace {A} (l : list A) (i : nat) (x : A) : list A :=
  match l, i with
  | [], _ => []
  | _ :: r, O => x :: r
  | y :: r, S k => y :: replace r k x
  end.
Fixpoint add_child (t : dtree) (path : list nat) (c : dtree) : dtree :=
  match t, path with
  | DNode k cs, [] => DNode k (cs ++ [c])
  | DNode k cs, i :: p => match nth_error cs i with Some x => DNode k (replace cs i (add_child x p c)) | None => t end
  end.

(** ** Terminals as text *)
(** A digit of f"{n:02x}". *)
Definition hex_digit (n : N) : N := if n <? 10 then 48 + n else 87 + n.
(** escape_byte, parsing.py:182-197. *)
Definition escape_byte (b : N) : list N :=
  if b =? 10 then [92; 110]
  else if b =? 9 then [92; 116]
  else if b =? 13 then [92; 114]
  else if b =? 34 then [92; 34]
  else if b =? 92 then [92; 92]
  else if (32 <=? b) && (b <=? 126) then [b]
  else [92; 120; hex_digit (b / 16); hex_digit (b mod 16)].
(** Terminal.__str__, parsing.py:240-244. *)
Definition terminal_str (t : list N) : list N := [34] ++ flat_map escape_byte t ++ [34].

(** The loop of highlight_offset, parsing.py:207-213: [i] counts from 0, [at_i] is
    offset - start_offset; before, offset_len and ret are the rest of the state. *)
Fixpoint highlight_loop (bytes : list N) (i at_i before offset_len : N) (ret : list N) : N * N * list N :=
  match bytes with
  | [] => (before, offset_len, ret)
  | b :: r =>
      let byte_text := escape_byte b in
      let '(before', offset_len') :=
        if i <? at_i then (before + len byte_text, offset_len)
        else if i =? at_i then (before, len byte_text)
        else (before, offset_len) in
      highlight_loop r (i + 1) at_i before' offset_len' (ret ++ byte_text)
  end.
(** text[a:b] for non-negative a and b. *)
Definition slice (text : list N) (a b : N) : list N := firstn (N.to_nat (b - a)) (skipn (N.to_nat a) text).
(** highlight_offset, parsing.py:200-215: the two lines. *)
Definition highlight_offset (text : list N) (offset highlight_length : N) : list N * list N :=
  let length_div_2 := highlight_length / 2 in
  let start_offset := offset - length_div_2 in
  let end_offset := N.min (offset + length_div_2) (len text) in
  let '(before, offset_len, ret) := highlight_loop (slice text start_offset end_offset) 0 (offset - start_offset) 0 1 [] in
  ([34] ++ ret ++ [34], [32] ++ repeat 32 (N.to_nat before) ++ repeat 94 (N.to_nat offset_len)).
