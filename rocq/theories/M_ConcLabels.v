(** polytracker/include/taintdag/labels.h under concurrency.  Threads create sources, form
    unions and mark labels; every access to a table word, and every acquisition and release of
    the section's mutex (section.h:55-71, 139-170), is one step.  The queue of
    affects_control_flow is local to its thread; it is a list here (M_LabelDeq has the code,
    C11 that it is a FIFO list).
    Simplification: 64-bit words are read and written atomically (x86-64, aligned), in
    a sequentially consistent order; in the C++ memory model the unlocked accesses are races. *)
From Coq Require Import NArith List Bool.
From Verif Require Import M_Base M_Encoding M_Union M_Labels M_Conc.
Import ListNotations.
Open Scope N_scope.

(** The calls: create_source_labels, union_taint, affects_control_flow. *)
Inductive lcall : Type :=
| KSource (src offset n : N)
| KUnion (l r : N)
| KMark (l : N).

Inductive status : Type := Running | Exited | Undefined.

Record lshared := mkLs {
  ls_tab : table;                   (* the words up to write_it_, including ones being constructed *)
  ls_lock : option N;               (* the section's mutex *)
  ls_log : list (lcall * N);        (* finished calls and the labels returned (0 for marking) *)
  ls_status : status
}.

(** Where a thread is. *)
Inductive lthread : Type :=
| TIdle
(* union_taint, labels.h:55-81 *)
| TURead1 (l r : N)                            (* about to read l, line 60 *)
| TURead2 (l r : N) (lval : taint)             (* about to read r, line 61 *)
| TUCount (l r enc : N)                        (* duplicate_check: about to call end(), line 97 *)
| TUScan (l r enc pos : N) (left : nat)        (* about to compare entry [pos], line 104-109 *)
| TULock (l r enc : N)                         (* construct: about to take the lock *)
| TUStore (l r enc lbl : N)                    (* lock held, memory granted *)
| TUUnlock (l r enc lbl : N)                   (* word written, about to release *)
(* create_source_labels, labels.h:38-48 *)
| TSLock (src offset n : N)
| TSStore (src offset n first i : N)           (* about to write entry [i] of the range *)
(* affects_control_flow, labels.h:118-177; [root] is its argument *)
| TVisit (root : N) (todo q : list N)          (* labels still to be offered to add_to_q, and the queue *)
| TVMark (root x : N) (todo q : list N)        (* add_to_q found an unflagged source: set_affects_control_flow reads *)
| TVMarkW (root x w : N) (todo q : list N)     (* ... and writes *)
| TSet (root x enc : N) (q : list N)           (* popped x, word read (line 171): set_affects_control_flow reads *)
| TSetW (root x enc w : N) (q : list N).       (* ... and writes *)

Definition running (s : lshared) : bool := match ls_status s with Running => true | _ => false end.
Definition set_tab (s : lshared) (t : table) : lshared := mkLs t (ls_lock s) (ls_log s) (ls_status s).
Definition finish (s : lshared) (c : lcall) (res : N) : lshared :=
  mkLs (ls_tab s) (ls_lock s) (ls_log s ++ [(c, res)]) (ls_status s).
Definition halt (s : lshared) (st : status) : lshared := mkLs (ls_tab s) (ls_lock s) (ls_log s) st.
Definition stop_of {A} (r : Res A) : status := match r with Exit => Exited | _ => Undefined end.

(** A read of table word [l] continued by [k]; anything else than a value stops the process. *)
Definition with_word (s : lshared) (l : N) (k : N -> option (lthread * lshared)) : option (lthread * lshared) :=
  match read_word (ls_tab s) l with
  | Ok w => k w
  | r => Some (TIdle, halt s (stop_of r))
  end.

Definition begin_call (c : lcall) (s : lshared) : option (lthread * lshared) :=
  match c with
  | KSource src offset n => Some (TSLock src offset n, s)
  | KUnion l r => if l =? r then Some (TIdle, finish s c l) else Some (TURead1 l r, s)
  | KMark l => Some (TVisit l [l] [], s)
  end.

(** One step of thread [i].  [c]: the call to make when idle. *)
Definition tstep (i : N) (c : lcall) (t : lthread) (s : lshared) : option (lthread * lshared) :=
  if negb (running s) then None else
  match t with
  | TIdle => begin_call c s
  | TURead1 l r =>
      with_word s l (fun w =>
        match decode w with
        | Ok lv => Some (TURead2 l r lv, s)
        | x => Some (TIdle, halt s (stop_of x))
        end)
  | TURead2 l r lv =>
      with_word s r (fun w =>
        match (do rv <- decode w; compute l lv r rv) with
        | Ok (RLabel x) => Some (TIdle, finish s (KUnion l r) x)
        | Ok (RTaint tn) => Some (TUCount l r (encode tn), s)
        | x => Some (TIdle, halt s (stop_of x))
        end)
  | TUCount l r enc =>
      match ls_lock s with
      | Some _ => None
      | None =>
          let count := len (ls_tab s) in
          let avail := count - N.max l r in
          let k := if redundant_label_range <=? avail then redundant_label_range else avail in
          Some (TUScan l r enc (count - 1) (N.to_nat k), s)
      end
  | TUScan l r enc pos 0%nat => Some (TULock l r enc, s)
  | TUScan l r enc pos (S k) =>
      with_word s pos (fun w =>
        if equal_ignore_cf w enc then Some (TIdle, finish s (KUnion l r) pos)
        else Some (TUScan l r enc (pos - 1) k, s))
  | TULock l r enc =>
      match ls_lock s with
      | Some _ => None
      | None =>
          if len (ls_tab s) <? label_capacity then
            (* write_it_ moves past one zero word *)
            Some (TUStore l r enc (len (ls_tab s)), mkLs (ls_tab s ++ [0]) (Some i) (ls_log s) (ls_status s))
          else Some (TIdle, halt s Exited)
      end
  | TUStore l r enc lbl => Some (TUUnlock l r enc lbl, set_tab s (upd (ls_tab s) lbl enc))
  | TUUnlock l r enc lbl =>
      Some (TIdle, finish (mkLs (ls_tab s) None (ls_log s) (ls_status s)) (KUnion l r) lbl)
  | TSLock src offset n =>
      match ls_lock s with
      | Some _ => None
      | None =>
          let mem_size := mul64 8 n in
          if 8 * len (ls_tab s) + mem_size <=? 8 * label_capacity then
            Some (TSStore src offset n (len (ls_tab s)) 0,
                  mkLs (ls_tab s ++ repeat 0 (N.to_nat (mem_size / 8))) (Some i) (ls_log s) (ls_status s))
          else Some (TIdle, halt s Undefined)
      end
  | TSStore src offset n first k =>
      if k <? n then
        Some (TSStore src offset n first (k + 1),
              set_tab s (upd (ls_tab s) (first + k) (encode (TSource false src (offset + k)))))
      else (* end of construct_range: the lock is released; index(first) *)
        Some (TIdle, finish (mkLs (ls_tab s) None (ls_log s) (ls_status s)) (KSource src offset n) first)
  | TVisit root (x :: todo) q =>
      with_word s x (fun w =>
        if check_affects_control_flow w then Some (TVisit root todo q, s)
        else if is_source_taint w then Some (TVMark root x todo q, s)
        else Some (TVisit root todo (q ++ [x]), s))
  | TVMark root x todo q => with_word s x (fun w => Some (TVMarkW root x w todo q, s))
  | TVMarkW root x w todo q =>
      Some (TVisit root todo q, set_tab s (upd (ls_tab s) x (add_affects_control_flow w)))
  | TVisit root [] [] => Some (TIdle, finish s (KMark root) 0)
  | TVisit root [] (x :: q) => with_word s x (fun w => Some (TSet root x w q, s))
  | TSet root x enc q => with_word s x (fun w => Some (TSetW root x enc w q, s))
  | TSetW root x enc w q =>
      match decode enc with
      | Ok tn => Some (TVisit root (visit_order tn) q, set_tab s (upd (ls_tab s) x (add_affects_control_flow w)))
      | r => Some (TIdle, halt s (stop_of r))
      end
  end.

(** [k] threads on an empty table. *)
Definition lstart (k : nat) : lshared * list lthread := (mkLs labels_new None [] Running, repeat TIdle k).
