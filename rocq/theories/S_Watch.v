(** Programs that are watched.  Between the steps of the program (S_DataFlow) a watcher takes
    notes: of functions that are entered and left, and of decisions, with the operand that
    decides.  A note is taken when the step it is about is the next one.

    [ast], [event], [flow]: S_Api and S_Runtime; what events mean for the record of an
    execution is said there. *)
From Coq Require Import NArith ZArith List Bool.
From Verif Require Import M_Base M_Functions M_CfLog M_PyFile M_PySections M_Llvm S_Functions S_Api S_CallStack S_PyAnalysis S_Runtime S_DataFlow.
Import ListNotations.
Open Scope N_scope.

Inductive note : Type :=
| NEnter (f : N)                     (* function with id f is entered *)
| NLeave (f : N)
| NDecides (f : N) (o : operand)     (* in function f, something is decided by o *)
| NBranch (o : operand)              (* control flow depends on o *)
| NCall (name : list N)              (* function trace: entry and exit *)
| NReturn (name : list N)
| NArgv.                             (* the arguments of the program become inputs *)

(** The event that is recorded; [a] says where the arguments of the program are. *)
Definition note_event (s : ast) (m : N -> N) (n : note) (a : answer) : event :=
  match n with
  | NEnter f => ECfEnter f
  | NLeave f => ECfLeave f
  | NDecides f _ => ECfTainted f VALUE
  | NBranch _ => EBranch VALUE
  | NCall name => EEnter name
  | NReturn name => EExit (match index_of name (a_names s) with Some i => i | None => 0 end)
  | NArgv => EArgv m (an_args a)
  end.
Definition note_deps (d : N -> list byte_id) (n : note) : list byte_id :=
  match n with NDecides _ o | NBranch o => dep d o | _ => [] end.

(** Taking a note changes the record only. *)
Definition take (argv : bool) (S : sstate) (n : note) (a : answer) : sstate :=
  match s_frames S with
  | [] => S
  | fr :: _ =>
      let s1 := p_set (s_ast S) VALUE (note_deps (f_deps fr) n) in
      let v := note_event (s_ast S) (s_mem S) n a in
      mkS (s_frames S) (s_mem S) (estep argv s1 v) (s_log S ++ flow_of s1 v)
  end.

(** What is noted when function number n is entered, and before an instruction or terminator
    of function number n. *)
Record watch := mkWatch { w_entry : N -> list note; w_instr : N -> instr -> list note; w_term : N -> term -> list note }.

Definition at_position (W : watch) (n : N) (rest : list instr) (t : term) : list note :=
  match rest with i :: _ => w_instr W n i | [] => w_term W n t end.
Definition before_next (W : watch) (S : sstate) : list note :=
  match s_frames S with fr :: _ => at_position W (f_fn fr) (f_rest fr) (f_term fr) | [] => [] end.
Definition on_entry (W : watch) (S : sstate) : list note :=
  match s_frames S with fr :: _ => w_entry W (f_fn fr) | [] => [] end.
Definition calls (S : sstate) : bool :=
  match s_frames S with
  | fr :: _ => match f_rest fr with ICall _ _ _ :: _ => true | _ => false end
  | [] => false
  end.

(** A watched execution: the state of the program and the notes that are due before it goes on. *)
Definition wstate := (sstate * list note)%type.
Definition wstart (W : watch) (S : sstate) : wstate := (S, on_entry W S ++ before_next W S).
Definition wstep (W : watch) (argv : bool) (P : prog) (w : wstate) (a : answer) : Res wstate :=
  match snd w with
  | n :: rest => Ok (take argv (fst w) n a, rest)
  | [] => do S1 <- sstep true argv P (fst w) a;
          Ok (S1, (if calls (fst w) then on_entry W S1 else []) ++ before_next W S1)
  end.
Fixpoint wrun (W : watch) (argv : bool) (P : prog) (w : wstate) (as_ : list answer) : Res wstate :=
  match as_ with
  | [] => Ok w
  | a :: rest => do w' <- wstep W argv P w a; wrun W argv P w' rest
  end.

(** Some of the elements of a list, in order. *)
Inductive part {A : Type} : list A -> list A -> Prop :=
| part_nil : part [] []
| part_keep x l l' : part l l' -> part (x :: l) (x :: l')
| part_skip x l l' : part l l' -> part l (x :: l').

(** ** What PolyTracker watches *)
(** The operands that decide: indices, and conditions of branches, switches and selects. *)
Definition variable (o : operand) : bool := match o with OReg _ => true | OConst _ => false end.
Definition indices (i : instr) : list operand :=
  match i with
  | IComp _ (_ :: idxs) f => if c_gep f then filter variable idxs else []
  | _ => []
  end.
Definition selected_by (i : instr) : list operand := match i with ISelect _ c _ _ => [c] | _ => [] end.
Definition conditions (t : term) : list operand :=
  match t with CondBr c _ _ | Switch c _ _ => [c] | _ => [] end.
Definition returns (t : term) : bool := match t with Ret _ => true | _ => false end.

(** Function ids of the control-flow log: functions with a body are numbered in order, with 32 bits. *)
Definition function_id (P : prog) (n : N) : N :=
  len (filter (fun f => match fn_blocks f with [] => false | _ => true end) (firstn (N.to_nat n) P)) mod 2 ^ 32.
Definition listed (ignore : list (list N)) (name : list N) : bool := existsb (bytes_eqb name) ignore.

(** Control-flow log, control flow (except in functions of the ignore list), function trace (likewise). *)
Definition watching (cflog ftrace : bool) (ignore : list (list N)) (names : N -> list N) (P : prog) : watch :=
  let seen n := negb (listed ignore (names n)) in
  mkWatch
    (fun n => (if ftrace && seen n then [NCall (names n)] else []) ++
              (if seen n && bytes_eqb (names n) [109; 97; 105; 110] then [NArgv] else []) ++
              (if cflog then [NEnter (function_id P n)] else []))
    (fun n i => (if cflog then map (NDecides (function_id P n)) (indices i ++ selected_by i) else []) ++
                (if seen n then map NBranch (indices i) else []))
    (fun n t => (if cflog then map (NDecides (function_id P n)) (conditions t) ++
                               (if returns t then [NLeave (function_id P n)] else []) else []) ++
                (if seen n then map NBranch (conditions t) else []) ++
                (if ftrace && seen n && returns t then [NReturn (names n)] else [])).

(** ** Call stacks *)
(** What the control-flow log is to report: who was entered, left or decided something on
    which input bytes, with the numbers of the functions that were active then, outermost first. *)
Inductive sight : Type :=
| SEnter (stack : list N)
| SLeave (stack : list N)
| SDecides (stack : list N) (bs : list byte_id).
Definition active (S : sstate) : list N := rev (map f_fn (s_frames S)).
Definition sees (S : sstate) (n : note) : list sight :=
  match n, s_frames S with
  | NEnter _, _ => [SEnter (active S)]
  | NLeave _, _ => [SLeave (active S)]
  | NDecides _ o, fr :: _ => match dep (f_deps fr) o with [] => [] | bs => [SDecides (active S) bs] end
  | _, _ => []
  end.
(** In the order of a watched execution. *)
Fixpoint sights (W : watch) (argv : bool) (P : prog) (w : wstate) (as_ : list answer) : list sight :=
  match as_ with
  | [] => []
  | a :: rest =>
      match snd w with n :: _ => sees (fst w) n | [] => [] end ++
      match wstep W argv P w a with Ok w' => sights W argv P w' rest | _ => [] end
  end.

(** [shows d name s r]: what the reader reports, [r], together with the opened file [d], shows
    [s]; functions are reported with [name]. *)
Definition shows {A : Type} (d : tdfile) (name : N -> A) (s : sight) (r : py_cf_event A) : Prop :=
  match s, r with
  | SEnter st, PyEnter st' | SLeave st, PyLeave st' => st' = map name st
  | SDecides st bs, PyTainted st' l => st' = map name st /\ forall b, node_leads_to d l b <-> In b bs
  | _, _ => False
  end.
(** The names of the functions with a body, by id (functionid.json). *)
Fixpoint function_names (names : N -> list N) (n : N) (P : prog) : list (list N) :=
  match P with
  | [] => []
  | f :: r => match fn_blocks f with [] => function_names names (n + 1) r | _ => names n :: function_names names (n + 1) r end
  end.

(** ** Programs *)
(** As in every LLVM program, no instruction jumps to the entry block of a function. *)
Definition jumps_to (t : term) (j : N) : Prop :=
  match t with
  | Br x => j = x
  | CondBr _ x y => j = x \/ j = y
  | Switch _ cases d => j = d \/ exists v, In (v, j) cases
  | Ret _ => False
  end.
Definition entry_not_a_target (P : prog) : Prop := forall f b, In f P -> In b (fn_blocks f) -> ~ jumps_to (b_term b) 0.
(** The program itself calls none of the functions the passes insert calls of. *)
Definition no_callbacks (P : prog) : Prop :=
  forall f b dst k args, In f P -> In b (fn_blocks f) -> In (ILib dst k args) (b_body b) -> M_Llvm.callback k = false.
