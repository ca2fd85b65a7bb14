(** What an execution of a program means: registers, memory, and for every value the input
    bytes it depends on.

    A result depends on what its operands depend on; a loaded value on what the loaded bytes
    and the pointer depend on; a selected value on the condition and the selected operand; a
    copied or stored value keeps its dependence.  Dependence through branches is not meant.
    Files and descriptors are those of S_Runtime. *)
From Coq Require Import NArith ZArith List Bool.
From Verif Require Import M_Base M_Memory M_Dfsan M_Llvm S_Api S_Runtime.
Import ListNotations.
Open Scope N_scope.

(** ** States *)
(** A function being executed: its number, the block, what is left of it, the values of the
    registers and their dependence, and where the caller wants the result. *)
Record frame := mkFrame {
  f_fn : N; f_blk : N; f_rest : list instr; f_term : term;
  f_regs : regs; f_deps : N -> list byte_id; f_dst : option N
}.
(** [s_ast] holds the dependence of memory and the state of files; [s_log] what the
    control-flow log should say. *)
Record sstate := mkS { s_frames : list frame; s_mem : mem; s_ast : ast; s_log : list flow }.

Definition dep (d : N -> list byte_id) (o : operand) : list byte_id :=
  match o with OConst _ => [] | OReg r => d r end.

(** The dependence of the [n] bytes at [a], and setting it. *)
Definition dep_load (s : ast) (a n : N) : list byte_id := concat (bytes_at s a n).
Definition dep_store (s : ast) (a n : N) (bs : list byte_id) : ast :=
  with_mem s (fun x => if (a <=? x) && (x <? a + n) then bs else a_mem s x).
Definition dep_move (s : ast) (d src n : N) : ast :=
  with_mem s (fun x => if (d <=? x) && (x <? d + n) then a_mem s (src + (x - d)) else a_mem s x).

(** Dependence after an instruction.  With [lossy], atomic accesses forget dependence. *)
Definition flow_exec (lossy : bool) (i : instr) (e : regs) (d : N -> list byte_id) (s : ast)
  : Res ((N -> list byte_id) * ast) :=
  match i with
  | IComp dst ops f => Ok (put d dst (concat (map (dep d) ops)), s)
  | ILoad dst ptr size const =>
      do p <- value e ptr;
      Ok (put d dst (if size =? 0 then [] else (if const then [] else dep_load s p size) ++ dep d ptr), s)
  | IStore v ptr size atomic =>
      do p <- value e ptr; Ok (d, dep_store s p size (if lossy && atomic then [] else dep d v))
  | IRmw dst ptr v size f =>
      do p <- value e ptr;
      if lossy then Ok (put d dst [], dep_store s p size [])
      else Ok (put d dst (dep_load s p size ++ dep d ptr), dep_store s p size (dep_load s p size ++ dep d v))
  | IGet dst x => Ok (put d dst (d x), s)
  | ISet x v atomic => Ok (put d x (if lossy && atomic then [] else dep d v), s)
  | ISelect dst c x y => do k <- value e c; Ok (put d dst (dep d c ++ dep d (if k =? 0 then y else x)), s)
  | IMemset ptr v n => do p <- value e ptr; do k <- value e n; Ok (d, dep_store s p k (dep d v))
  | IMemmove dst src n => do p <- value e dst; do q <- value e src; do k <- value e n; Ok (d, dep_move s p q k)
  | IOpaque dst => Ok (match dst with Some x => put d x [] | None => d end, s)
  | ICall _ _ _ | ILib _ _ _ => UB
  end.

(** ** Calls of libc *)
(** The operand that is output, returned or decided on as such. *)
Definition passed (k : libcall) (args : list operand) : option operand :=
  match k with
  | LFgets | LPutc | LBranch | LTainted => hd_error args
  | _ => None
  end.

(** What the returned value depends on: a character on the byte it was read from, the
    result of fgets on its argument. *)
Definition lib_deps (k : libcall) (a : answer) (ds : list byte_id) (after : ast) : list byte_id :=
  match k with
  | LGetc => a_mem after VALUE
  | LFgets => if an_val a =? 0 then [] else ds
  | LTainted => ds
  | _ => []
  end.

(** Application memory touched by an event. *)
Definition in_space (v : event) : Prop :=
  match v with
  | ERead _ buff _ ret => buff + Z.to_N ret <= two64
  | EWrite _ buff _ ret => buff + Z.to_N ret <= two64
  | EFread _ buff size _ ret | EFwrite _ buff size _ ret => buff + size * ret <= two64
  | EFgets _ str _ n _ => str + n <= two64
  | EMmap n _ _ (Some a) => a + pages n <= two64
  | EMunmap a n => a + pages n <= two64
  | EArgv _ args => Forall (fun an => fst an + snd an <= two64) args
  | _ => True
  end.

(** ** Steps *)
Definition no_deps : N -> list byte_id := fun _ => [].
(** With [lossy], only the first 200 arguments carry dependence. *)
Definition arg_deps (lossy : bool) (ds : list (list byte_id)) : list (list byte_id) :=
  if lossy then map (fun p => if fst p <? 200 then snd p else []) (combine (nseq 0 (length ds)) ds) else ds.
Definition enter (fn : N) (f : func) (vals : list N) (ds : list (list byte_id)) (dst : option N) : Res frame :=
  match fn_blocks f with
  | b :: _ =>
      if len vals =? len (fn_params f)
      then Ok (mkFrame fn 0 (b_body b) (b_term b) (assign no_regs (combine (fn_params f) (map Some vals)))
                       (assign no_deps (combine (fn_params f) ds)) dst)
      else UB
  | [] => UB
  end.

Definition set_result (fr : frame) (v : option N) (ds : list byte_id) (dst : option N) : Res frame :=
  match dst with
  | None => Ok fr
  | Some x =>
      match v with
      | Some _ => Ok (mkFrame (f_fn fr) (f_blk fr) (f_rest fr) (f_term fr) (put (f_regs fr) x v) (put (f_deps fr) x ds) (f_dst fr))
      | None => UB
      end
  end.

(** One step of program [P]; [a] is what comes back from outside if the step is a call. *)
Definition sstep (lossy argv : bool) (P : prog) (S : sstate) (a : answer) : Res sstate :=
  match s_frames S with
  | [] => UB
  | fr :: below =>
      match f_rest fr with
      | i :: rest =>
          let go e d := mkFrame (f_fn fr) (f_blk fr) rest (f_term fr) e d (f_dst fr) in
          match i with
          | ICall dst callee args =>
              do c <- value (f_regs fr) callee;
              do vals <- values (f_regs fr) args;
              match get P c with
              | Some f =>
                  if fn_native f then UB
                  else do new <- enter c f vals (arg_deps lossy (map (dep (f_deps fr)) args)) dst;
                       Ok (mkS (new :: go (f_regs fr) (f_deps fr) :: below) (s_mem S) (s_ast S) (s_log S))
              | None => UB
              end
          | ILib dst k args =>
              do vals <- values (f_regs fr) args;
              do v <- lib_event k vals (s_mem S) a;
              let ds := match passed k args with Some o => dep (f_deps fr) o | None => [] end in
              let s1 := p_set (s_ast S) VALUE ds in
              let s2 := estep argv s1 v in
              do fr' <- set_result (go (f_regs fr) (f_deps fr)) (Some (lib_value k vals a)) (lib_deps k a ds s2) dst;
              Ok (mkS (fr' :: below) (lib_mem k (s_mem S) a) s2 (s_log S ++ flow_of s1 v))
          | _ =>
              do em <- app_exec i (f_regs fr) (s_mem S) a;
              do ds <- flow_exec lossy i (f_regs fr) (f_deps fr) (s_ast S);
              Ok (mkS (go (fst em) (fst ds) :: below) (snd em) (snd ds) (s_log S))
          end
      | [] =>
          match f_term fr with
          | Ret v =>
              match below with
              | [] => do _ <- match v with Some o => value (f_regs fr) o | None => Ok 0 end;
                      Ok (mkS [] (s_mem S) (s_ast S) (s_log S))
              | caller :: below' =>
                  do r <- match v with Some o => do x <- value (f_regs fr) o; Ok (Some x) | None => Ok None end;
                  do caller' <- set_result caller r (match v with Some o => dep (f_deps fr) o | None => [] end) (f_dst fr);
                  Ok (mkS (caller' :: below') (s_mem S) (s_ast S) (s_log S))
              end
          | t =>
              do b <- target (f_regs fr) t;
              match get P (f_fn fr) with
              | Some f =>
                  match get (fn_blocks f) b with
                  | Some blk =>
                      do inc <- incoming (f_blk fr) (b_phis blk);
                      do vs <- pairs (fun o => do v <- value (f_regs fr) o; Ok (Some v)) inc;
                      do ds <- pairs (fun o => Ok (dep (f_deps fr) o)) inc;
                      Ok (mkS (mkFrame (f_fn fr) b (b_body blk) (b_term blk) (assign (f_regs fr) vs)
                                       (assign (f_deps fr) ds) (f_dst fr) :: below)
                              (s_mem S) (s_ast S) (s_log S))
                  | None => UB
                  end
              | None => UB
              end
          end
      end
  end.

(** The state in which function number [main] starts with the given arguments, on which
    nothing depends yet. *)
Definition sstart (P : prog) (main : N) (vals : list N) (m : mem) (s : ast) : Res sstate :=
  match get P main with
  | Some f => do fr <- enter main f vals (map (fun _ => []) vals) None; Ok (mkS [fr] m s [])
  | None => UB
  end.

(** A whole execution. *)
Fixpoint srun (lossy argv : bool) (P : prog) (S : sstate) (as_ : list answer) : Res sstate :=
  match as_ with
  | [] => Ok S
  | a :: rest => do S' <- sstep lossy argv P S a; srun lossy argv P S' rest
  end.

(** The event of the next step, if it is a call of libc, in the state in which it is made. *)
Definition next_event (S : sstate) (a : answer) : option (ast * event) :=
  match s_frames S with
  | fr :: _ =>
      match f_rest fr with
      | ILib dst k args :: _ =>
          match values (f_regs fr) args with
          | Ok vals =>
              match lib_event k vals (s_mem S) a with
              | Ok v => Some (p_set (s_ast S) VALUE (match passed k args with Some o => dep (f_deps fr) o | None => [] end), v)
              | _ => None
              end
          | _ => None
          end
      | _ => None
      end
  | [] => None
  end.

(** What is assumed of an execution: libc is used as in [event_ok], within the address
    space, and the limits of the output file are kept. *)
Fixpoint behaved (lossy argv : bool) (P : prog) (S : sstate) (as_ : list answer) : Prop :=
  match as_ with
  | [] => True
  | a :: rest =>
      (forall s v, next_event S a = Some (s, v) -> event_ok s v /\ in_space v) /\
      forall S', sstep lossy argv P S a = Ok S' -> within_limits (s_ast S') /\ behaved lossy argv P S' rest
  end.

(** Programs without atomic accesses and without calls with more than 200 arguments; for
    them [lossy] makes no difference. *)
Definition lossless (i : instr) : bool :=
  match i with
  | IStore _ _ _ atomic | ISet _ _ atomic => negb atomic
  | IRmw _ _ _ _ _ => false
  | ICall _ _ args => len args <=? 200
  | _ => true
  end.
Definition lossless_prog (P : prog) : Prop :=
  forall f b, In f P -> In b (fn_blocks f) -> forallb lossless (b_body b) = true.
