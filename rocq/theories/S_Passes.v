(** Specification vocabulary for the instrumentation passes: what instrumented code should
    do, told from the execution of the original module; JSON; ignore lists. *)
From Coq Require Import NArith List Bool.
From Verif Require Import M_Base M_Memory M_CfLog M_PySections M_Functions M_Ir.
Import ListNotations.
Open Scope N_scope.

(** ** Executions *)
Definition is_entry {A} (c : rtcall A) : bool := match c with RtEntry _ _ => true | _ => false end.

(** What is assumed of the runtime: a logged condition is handed back, the answer to a
    function entry depends on the entries so far only, and other answers on nothing. *)
Record fair (answer : list (rtcall val) -> rtcall val -> val) : Prop := {
  fair_back : forall h v i, answer h (RtTainted v i) = v;
  fair_entry : forall h h' c, filter is_entry h = filter is_entry h' -> answer h c = answer h' c;
  fair_other : forall h h' c, is_entry c = false -> answer h c = answer h' c }.

(** The runtime calls among the observations. *)
Fixpoint calls (os : list obs) : list (rtcall val) :=
  match os with [] => [] | ORt c :: r => c :: calls r | _ :: r => calls r end.
(** The program's own observations. *)
Fixpoint own (os : list obs) : list obs :=
  match os with [] => [] | ORt _ :: r => own r | o :: r => o :: own r end.

(** Two states of the program look the same: result, world, functions on the stack. *)
Definition looks_same {W} (s s' : mstate W) : Prop :=
  s_result s = s_result s' /\ s_world s = s_world s' /\ map fr_fn (s_stack s) = map fr_fn (s_stack s').

(** Modules as the LLVM verifier accepts them: nothing jumps to an entry block. *)
Definition targets (t : term) : list N :=
  match t with
  | TBr t => [t]
  | TCondBr _ a b => [a; b]
  | TSwitch _ _ cases d => d :: map snd cases
  | TRet _ | TStop => []
  end.
Definition verified {W} (M : modul W) : Prop :=
  Forall (fun f => Forall (fun b => ~ In 0 (targets (b_term b))) (f_blocks f)) M.
(** No runtime calls of a kind. *)
Definition calls_none {W} (P : rtcall operand -> bool) (M : modul W) : Prop :=
  Forall (fun f => Forall (fun b => Forall (fun i => match i with IRt _ c => P c = false | _ => True end) (b_ins b)) (f_blocks f)) M.
(** Conditions and indices are at most 64 bits wide. *)
Definition narrow_instr {W} (i : instr W) : Prop :=
  match i with IGep _ _ idxs _ => Forall (fun x => 1 <= snd x <= 64) (filter (fun x => negb (is_const (fst x))) idxs) | _ => True end.
Definition narrow_term (t : term) : Prop := match t with TSwitch _ w _ _ => 1 <= w <= 64 | _ => True end.
Definition narrow {W} (M : modul W) : Prop :=
  Forall (fun f => Forall (fun b => Forall narrow_instr (b_ins b) /\ narrow_term (b_term b)) (f_blocks f)) M.

(** The number of a function among the functions with a body, in module order. *)
Definition defined {W} (f : func W) : bool := match f_blocks f with [] => false | _ => true end.
Definition rank {W} (M : modul W) (i : N) : N := len (filter defined (firstn (N.to_nat i) M)).

(** Instrumentation of control flow: an entry, an exit and every value a decision depends on
    are reported, the latter extended to 64 bits, before the program goes on. *)
Definition widened (w : N) (x : N * val) : val := (sext_or_trunc (fst x) w (fst (snd x)), snd (snd x)).
Definition flow_logged (id : N -> N) (o : obs) : list obs :=
  match o with
  | OEnter f => [OEnter f; ORt (RtEnter (id f))]
  | OLeave f => [ORt (RtLeave (id f)); OLeave f]
  | ODecide f k vs => map (fun x => ORt (RtTainted (widened 64 x) (id f))) vs ++ [ODecide f k vs]
  | ORt c => [ORt c]
  end.

(** Instrumentation of branches: in functions that are not ignored, every value a decision
    other than a select depends on is reported before it takes place. *)
Definition branch_logged (skip : N -> bool) (o : obs) : list obs :=
  match o with
  | ODecide f DSelect vs => [ODecide f DSelect vs]
  | ODecide f k vs => (if skip f then [] else map (fun x => ORt (RtBranch (widened 32 x))) vs) ++ [ODecide f k vs]
  | _ => [o]
  end.

(** The program whose main starts by handing its first two parameters to [op].  [reg]: an
    unused register. *)
Definition with_argv {W} (op : list val -> W -> option (val * W)) (skip : list N -> bool) (reg : func W -> N) (M : modul W) : modul W :=
  map (fun f =>
    if skip (f_name f) || negb (bytes_eqb (f_name f) [109; 97; 105; 110]) then f
    else match f_blocks f with
         | [] => f
         | b :: bs => mkFunc (f_name f) (f_params f) (mkBlock (IOp (reg f) [OReg 0; OReg 1] op :: b_ins b) (b_term b) :: bs)
         end) M.

(** Instrumentation of functions: entries report the name, exits the answer to the report
    of the matching entry.  [gs]: answers for the frames on the stack; [h]: the calls so far. *)
Fixpoint trace_logged (answer : list (rtcall val) -> rtcall val -> val) (skip : N -> bool) (name : N -> list N)
  (gs : list val) (h : list (rtcall val)) (os : list obs) : list obs :=
  match os with
  | [] => []
  | OEnter f :: r =>
      if skip f then OEnter f :: trace_logged answer skip name ((0, 0) :: gs) h r
      else let c := RtEntry (name f) (len (name f) mod two16) in
           OEnter f :: ORt c :: trace_logged answer skip name (answer h c :: gs) (h ++ [c]) r
  | OLeave f :: r =>
      if skip f then OLeave f :: trace_logged answer skip name (tl gs) h r
      else let c := RtExit (hd (0, 0) gs) in
           ORt c :: OLeave f :: trace_logged answer skip name (tl gs) (h ++ [c]) r
  | ODecide f k vs :: r => ODecide f k vs :: trace_logged answer skip name gs h r
  | ORt c :: r => ORt c :: trace_logged answer skip name gs (h ++ [c]) r
  end.

(** ** JSON: texts that are an array of strings (RFC 8259; \u escapes are not needed here and
    not accepted).  Bytes stand for the UTF-8 text. *)
Inductive jstate : Type := JStart | JOpen | JStr (acc : list N) | JEsc (acc : list N) | JAfter | JComma | JDone.
Definition blank (b : N) : bool := (b =? 32) || (b =? 9) || (b =? 10) || (b =? 13).
Definition unescape (b : N) : option N :=
  if b =? 34 then Some 34 else if b =? 92 then Some 92 else if b =? 47 then Some 47
  else if b =? 98 then Some 8 else if b =? 102 then Some 12 else if b =? 110 then Some 10
  else if b =? 114 then Some 13 else if b =? 116 then Some 9 else None.
Fixpoint json_scan (st : jstate) (names : list (list N)) (bs : list N) : option (list (list N)) :=
  match bs with
  | [] => match st with JDone => Some (rev names) | _ => None end
  | b :: r =>
      match st with
      | JStart => if blank b then json_scan JStart names r else if b =? 91 then json_scan JOpen names r else None
      | JOpen => if blank b then json_scan JOpen names r else if b =? 34 then json_scan (JStr []) names r
                 else if b =? 93 then json_scan JDone names r else None
      | JStr acc => if b =? 34 then json_scan JAfter (rev acc :: names) r
                    else if b =? 92 then json_scan (JEsc acc) names r
                    else if b <? 32 then None else json_scan (JStr (b :: acc)) names r
      | JEsc acc => match unescape b with Some c => json_scan (JStr (c :: acc)) names r | None => None end
      | JAfter => if blank b then json_scan JAfter names r else if b =? 44 then json_scan JComma names r
                  else if b =? 93 then json_scan JDone names r else None
      | JComma => if blank b then json_scan JComma names r else if b =? 34 then json_scan (JStr []) names r else None
      | JDone => if blank b then json_scan JDone names r else None
      end
  end.
Definition json_strings (bs : list N) : option (list (list N)) := json_scan JStart [] bs.
(** Names that are their own JSON form. *)
Definition plain_name (name : list N) : Prop := Forall (fun b => 32 <= b /\ b <> 34 /\ b <> 92) name.

(** ** Ignore lists *)
(** [is_line l bs]: [l] is a line of the file [bs]: what is between two line ends, or
    between the last one and the end of the file if that is not empty. *)
Definition is_line (l bs : list N) : Prop :=
  ~ In 10 l /\ exists before after,
    bs = before ++ l ++ after /\ (before = [] \/ exists b, before = b ++ [10]) /\
    ((exists a, after = 10 :: a) \/ after = [] /\ l <> []).
(** An entry names a function if it is not a comment and reads [kind:NAME=rest] with the word
    discard somewhere and the word main nowhere. *)
Definition word_in (w s : list N) : Prop := exists a b, s = a ++ w ++ b.
Definition names_function (line name : list N) : Prop :=
  (forall r, line <> 35 :: r) /\ ~ word_in [109; 97; 105; 110] line /\ word_in [100; 105; 115; 99; 97; 114; 100] line /\
  name <> [] /\ exists kind rest, line = kind ++ [58] ++ name ++ [61] ++ rest /\ ~ In 58 kind /\ ~ In 61 kind /\ ~ In 61 name.
(** Entries as the sanitizer's documentation writes them: fun:NAME=CATEGORY. *)
Definition fun_entry (name category : list N) : list N := [102; 117; 110; 58] ++ name ++ [61] ++ category.
Definition discard : list N := [100; 105; 115; 99; 97; 114; 100].
Definition ordinary_line (l : list N) : Prop :=
  l = [] \/ (exists r, l = 35 :: r) \/
  exists name category, l = fun_entry name category /\ name <> [] /\ ~ In 61 name /\
    ~ word_in [109; 97; 105; 110] l /\ (word_in discard l -> category = discard).

(** ** What the runtime writes and a reader should report *)
(** Calls of the runtime that appear in the control-flow log. *)
Definition logged (c : rtcall val) : list cf_event :=
  match c with
  | RtEnter i => [CfEnter i]
  | RtLeave i => [CfLeave i]
  | RtTainted (_, l) i => if 0 <? l then [CfTainted l i] else []
  | _ => []
  end.
Definition log_of (os : list obs) : list cf_event := concat (map logged (calls os)).

(** The functions of the program that are active after some observations, outermost first. *)
Fixpoint active (st : list N) (os : list obs) : list N :=
  match os with
  | [] => st
  | OEnter f :: r => active (st ++ [f]) r
  | OLeave f :: r => active (removelast st) r
  | _ :: r => active st r
  end.
(** The reports: entries, exits and decisions on tainted values, each with the names of the
    functions active at that time. *)
Fixpoint flow_reports (name : N -> list N) (st : list N) (os : list obs) : list (py_cf_event (list N)) :=
  match os with
  | [] => []
  | OEnter f :: r => PyEnter (map name (st ++ [f])) :: flow_reports name (st ++ [f]) r
  | OLeave f :: r => PyLeave (map name st) :: flow_reports name (removelast st) r
  | ODecide f k vs :: r =>
      map (fun l => PyTainted (map name st) l) (filter (fun l => 0 <? l) (map (fun x => snd (snd x)) vs)) ++ flow_reports name st r
  | ORt _ :: r => flow_reports name st r
  end.
(** Labels are 32-bit numbers. *)
Definition labels_fit (os : list obs) : Prop :=
  Forall (fun o => match o with ODecide _ _ vs => Forall (fun x => snd (snd x) < 2 ^ 32) vs | _ => True end) os.

(** Function tracing.  The runtime knows functions by the names it was given, numbered in
    the order of their first appearance; of a name it sees the given number of bytes. *)
Fixpoint position (n : list N) (l : list (list N)) : option N :=
  match l with
  | [] => None
  | x :: r => if bytes_eqb x n then Some 0 else option_map N.succ (position n r)
  end.
Definition seen (name : list N) (n : N) : list N := firstn (N.to_nat n) name.
Fixpoint name_table (h : list (rtcall val)) : list (list N) :=
  match h with
  | [] => []
  | RtEntry name n :: r => seen name n :: filter (fun x => negb (bytes_eqb (seen name n) x)) (name_table r)
  | _ :: r => name_table r
  end.
Definition numbers (answer : list (rtcall val) -> rtcall val -> val) : Prop :=
  forall h name n, answer h (RtEntry name n) =
    (match position (seen name n) (name_table (h ++ [RtEntry name n])) with Some i => i | None => 0 end, 0).
(** What the calls say: entry or exit, and of which function. *)
Definition trace_said (table : list (list N)) (c : rtcall val) : list (bool * option (list N)) :=
  match c with
  | RtEntry name n => [(true, Some (seen name n))]
  | RtExit (i, _) => [(false, get table i)]
  | _ => []
  end.
(** What happened. *)
Definition traced (skip : N -> bool) (name : N -> list N) (o : obs) : list (bool * option (list N)) :=
  match o with
  | OEnter f => if skip f then [] else [(true, Some (name f))]
  | OLeave f => if skip f then [] else [(false, Some (name f))]
  | _ => []
  end.
