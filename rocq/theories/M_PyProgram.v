(** Summaries of a trace, polytracker/tracing.py:1086-1165 (ProgramTrace.input_properties and
    taints) and inputs.py:7-23.  An exception is [Exit]. *)
From Coq Require Import NArith ZArith List Bool.
From Verif Require Import M_Base M_PyNode M_PyFile M_PyAnalysis.
Import ListNotations.
Open Scope N_scope.

(** ** input_properties *)
(** access_sequence() as the list of the bytes of each access, in the order in which Taints
    yields them: source and offset. *)
Definition access := list (N * N).
(** first_usages[o] = i unless it is set (1097-1098); IndexError beyond the end. *)
Fixpoint use_at (fu : list (option N)) (o : nat) (i : N) : Res (list (option N)) :=
  match fu, o with
  | [], _ => Exit
  | None :: r, O => Ok (Some i :: r)
  | Some j :: r, O => Ok (Some j :: r)
  | x :: r, S k => do r' <- use_at r k i; Ok (x :: r')
  end.
(** The inner loop, 1093-1102: first_usages, file_seeks and last_offset. *)
Fixpoint access_loop (src i : N) (a : access) (st : list (option N) * list (Z * N * N) * option N)
  : Res (list (option N) * list (Z * N * N) * option N) :=
  match a with
  | [] => Ok st
  | (s, o) :: r =>
      if negb (s =? src) then access_loop src i r st
      else
        let '(fu, seeks, lst) := st in
        do fu' <- use_at fu (N.to_nat o) i;
        let seeks' := match lst with
                      | Some l => if o <? l then seeks ++ [((Z.of_N i - 1)%Z, l, o)] else seeks
                      | None => seeks
                      end in
        access_loop src i r (fu', seeks', Some o)
  end.
(** The outer loop, 1092. *)
Fixpoint accesses_loop (src i : N) (accs : list access) (st : list (option N) * list (Z * N * N) * option N)
  : Res (list (option N) * list (Z * N * N) * option N) :=
  match accs with
  | [] => Ok st
  | a :: r => do st' <- access_loop src i a st; accesses_loop src (i + 1) r st'
  end.
(** unused_bytes, 1103-1107. *)
Fixpoint unused_from (o : N) (fu : list (option N)) : list N :=
  match fu with
  | [] => []
  | None :: r => o :: unused_from (o + 1) r
  | Some _ :: r => unused_from (o + 1) r
  end.
(** out_of_order, 1108-1114: None is not comparable with a number or with None (TypeError). *)
Fixpoint out_from (previous_offset : N) (fu : list (option N)) : Res (list N) :=
  match fu with
  | previous :: ((first_used :: _) as r) =>
      match previous, first_used with
      | Some p, Some f => do rest <- out_from (previous_offset + 1) r; Ok (if f <? p then previous_offset + 1 :: rest else rest)
      | _, _ => Exit
      end
  | _ => Ok []
  end.
(** InputProperties, inputs.py:7-16. *)
Record properties := mkProps { p_unused : list N; p_out_of_order : list N; p_seeks : list (Z * N * N) }.
(** input_properties, 1086-1119. *)
Definition input_properties (src size : N) (accs : list access) : Res properties :=
  do st <- accesses_loop src 0 accs (repeat None (N.to_nat size), [], None);
  let '(fu, seeks, _) := st in
  do oo <- out_from 0 fu;
  Ok (mkProps (unused_from 0 fu) oo seeks).
(** InputProperties.__bool__, inputs.py:18-23. *)
Definition props_bool (p : properties) : bool :=
  match p_unused p, p_out_of_order p, p_seeks p with [], [], [] => true | _, _, _ => false end.

(** ** taints *)
(** TaintForestNode.__eq__ on nodes of one forest: by label (taint_forest.py:38-43; the source
    is that of the label). *)
Definition node_in (n : fnode) (l : list fnode) : bool := existsb (fun m => (fn_label m =? fn_label n)%Z) l.
(** set(nodes) *)
Definition node_set (ns : list fnode) : list fnode := fold_left (fun s n => if node_in n s then s else s ++ [n]) ns [].
(** The loop, 1141-1164.  The stack's top is the head. *)
Fixpoint taints_loop (fuel : nat) (d : tdfile) (fo : forest) (seen stack : list fnode) (result : list (py_input * N))
  : Res (list (py_input * N) * forest) :=
  match fuel with
  | O => Fuel
  | S f =>
      match stack with
      | [] => Ok (result, fo)
      | node :: rest =>
          if node_in node seen then taints_loop f d fo seen rest result
          else
            match fn_parents node with
            | None => do b <- py_file_offset d node; taints_loop f d fo seen rest (b :: result)
            | Some (z1, z2) =>
                do q1 <- get_node d fo z1; let (p1, fo1) := q1 in
                do q2 <- get_node d fo1 z2; let (p2, fo2) := q2 in
                let '(seen1, stack1) := if node_in p1 seen then (seen, rest) else (seen ++ [p1], p1 :: rest) in
                let '(seen2, stack2) := if node_in p2 seen1 then (seen1, stack1) else (seen1 ++ [p2], p2 :: stack1) in
                taints_loop f d fo2 seen2 stack2 result
            end
      end
  end.
(** ProgramTrace.taints, 1137-1165: the bytes of the result. *)
Definition trace_taints (fuel : nat) (d : tdfile) (fo : forest) (nodes : list fnode) : Res (list (py_input * N) * forest) :=
  let seen := node_set nodes in taints_loop fuel d fo seen (rev seen) [].
