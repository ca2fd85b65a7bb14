(** polytracker/build.py: what the commands instrument-targets, instrument-bc and lower-bc run.
    Simplifications: the environment variables are set and what they point to exists; a path is
    a directory and a name without further normalisation (pathlib also drops "." components and
    repeated slashes); relative paths have the directory ""; the external tools (get-bc, opt,
    the compiler) are given by what they write: see [exec]. *)
From Coq Require Import NArith List Bool String Ascii.
From Verif Require Import M_Base.
Import ListNotations.
Open Scope N_scope.
Open Scope list_scope.

Definition str := list N.
(** The bytes of a literal of the Python code. *)
Definition lit (s : string) : str := map N_of_ascii (list_ascii_of_string s).
Definition str_eqb (a b : str) : bool := if list_eq_dec N.eq_dec a b then true else false.

(** ** pathlib *)
Record path := mkPath { p_dir : str; p_name : str }.
Definition path_eqb (a b : path) : bool := str_eqb (p_dir a) (p_dir b) && str_eqb (p_name a) (p_name b).
(** str.rfind: what comes before and after the last [c]. *)
Fixpoint split_last (c : N) (s : str) : option (str * str) :=
  match s with
  | [] => None
  | x :: r =>
      match split_last c r with
      | Some (b, a) => Some (x :: b, a)
      | None => if x =? c then Some ([], r) else None
      end
  end.
(** PurePath.stem: the name up to its last dot, unless the dot comes first or last. *)
Definition stem (n : str) : str :=
  match split_last 46 n with
  | Some (x :: b, _ :: _) => x :: b
  | _ => n
  end.
(** PurePath.with_suffix. *)
Definition with_suffix (p : path) (s : str) : path := mkPath (p_dir p) (stem (p_name p) ++ s).
(** Path(s). *)
Definition parse_path (s : str) : path :=
  match split_last 47 s with
  | Some (d, n) => mkPath d n
  | None => mkPath [] s
  end.
Definition text_of (p : path) : str := match p_dir p with [] => p_name p | d => d ++ 47 :: p_name p end.

(** ** The journal of blight (_read_blight_journal, build.py:241-246) *)
Inductive kind := Static | Shared | OtherKind.
Record source := mkSource { i_prenormalized : str; i_kind : kind; i_path : str }.
Record product := mkProduct { o_prenormalized : str; o_path : str }.
(** One line: Record.wrapped_tool, Record.args, FindInputs.inputs, FindOutputs.outputs. *)
Record entry := mkEntry { e_tool : str; e_args : list str; e_inputs : list source; e_outputs : list product }.

(** _find_target, build.py:232-238.  The LookupError is None. *)
Fixpoint find_output (target : str) (l : list product) : option path :=
  match l with
  | [] => None
  | o :: r => let p := parse_path (o_path o) in if str_eqb (p_name p) target then Some p else find_output target r
  end.
Fixpoint find_target (target : str) (journal : list entry) : option (entry * path) :=
  match journal with
  | [] => None
  | e :: r => match find_output target (e_outputs e) with Some p => Some (e, p) | None => find_target target r end
  end.

(** ** The file system and the tools *)
(** Contents of files: where they come from. *)
Inductive artifact :=
| Original (id : N)                                  (* there before *)
| Bitcode (of : artifact)                            (* get-bc: the bitcode of a binary *)
| Transformed (flags : list str) (of : artifact)     (* opt: transformed bitcode *)
| Linked (tool : str) (args : list str) (of : artifact). (* the compiler: a program *)
Definition files := path -> option artifact.
Definition write (f : files) (p : path) (a : artifact) : files := fun q => if path_eqb q p then Some a else f q.

Inductive command :=
| GetBc (out inp : path)
| Opt (flags : list str) (inp out : path)
| Link (tool : str) (inp out : path) (args : list str).

(** The file the compiler writes: the driver takes the last -o, be it "-o" "file" or "-ofile". *)
Fixpoint joined_output (args : list str) (out : path) : path :=
  match args with
  | [] => out
  | (45 :: 111 :: x :: r) :: rest => joined_output rest (parse_path (x :: r))
  | _ :: rest => joined_output rest out
  end.
(** subprocess.check_call: a tool whose input is missing fails and the command ends there. *)
Definition exec (c : command) (f : files) : Res files :=
  match c with
  | GetBc out inp => match f inp with Some a => Ok (write f out (Bitcode a)) | None => Exit end
  | Opt flags inp out => match f inp with Some a => Ok (write f out (Transformed flags a)) | None => Exit end
  | Link tool inp out args =>
      match f inp with Some a => Ok (write f (joined_output args out) (Linked tool args a)) | None => Exit end
  end.

(** ** The commands *)
(** COMPILER_DIR, CXX_LIB_PATH and DFSAN_LIB_PATH. *)
Record env := mkEnv { compiler_dir : str; cxx_dir : str; dfsan_lib : str }.
Definition pass_path (v : env) : str := compiler_dir v ++ lit "/pass/libPolytrackerPass.so".
Definition abi_path (v : env) : str := compiler_dir v ++ lit "/abi_lists".

(** _lower_bitcode, build.py:85-136. *)
Definition lower_args (v : env) (e : entry) : list str :=
  let inputs := map i_prenormalized (e_inputs e) in
  let outputs := map o_prenormalized (e_outputs e) in
  let libs := map i_path (filter (fun i => match i_kind i with Static | Shared => true | OtherKind => false end) (e_inputs e)) in
  let args := filter (fun x => negb (existsb (str_eqb x) (inputs ++ [lit "-o"] ++ outputs))) (e_args e) in
  args ++ [lit "-pie"; lit "-Wl,--allow-multiple-definition"; lit "-Wl,--start-group"] ++ libs ++
  [cxx_dir v ++ lit "/poly_build/lib/libc++.a"; cxx_dir v ++ lit "/poly_build/lib/libc++abi.a";
   compiler_dir v ++ lit "/lib/libPolytracker.a"; lit "-lm"; lit "-ltinfo"; lit "-lstdc++";
   dfsan_lib v; lit "-ldl"; lit "-Wl,--end-group"].
Definition lower_bitcode (v : env) (inp out : path) (e : entry) (f : files) : Res files :=
  exec (Link (e_tool e) inp out (lower_args v e)) f.

(** _extract_bitcode, build.py:139-141. *)
Definition extract_bitcode (inp out : path) (f : files) : Res files := exec (GetBc out inp) f.
(** _optimize_bitcode, build.py:144-146. *)
Definition optimize_bitcode (inp out : path) (f : files) : Res files := exec (Opt [lit "-O3"] inp out) f.
(** _preopt_instrument_bitcode, build.py:149-167. *)
Definition preopt_instrument (v : env) (inp out : path) (f : files) : Res files :=
  exec (Opt [lit "-load"; pass_path v; lit "-load-pass-plugin"; pass_path v; lit "-passes=pt-tcf"] inp out) f.

(** The flags of _instrument_bitcode, build.py:187-227. *)
Fixpoint join (l : list str) : str :=
  match l with
  | [] => []
  | [x] => x
  | x :: r => x ++ 44 :: join r
  end.
Definition instrument_flags (v : env) (ignore_lists : list str) (taint ftrace : bool) : list str :=
  let poly_list := abi_path v ++ lit "/polytracker_abilist.txt" in
  let pipeline := (if taint then [lit "pt-taint"] else []) ++ (if ftrace then [lit "pt-ftrace"] else []) ++
                  (if taint then [lit "pt-dfsan"; lit "pt-rm-fn-attr"] else []) in
  [lit "-load"; pass_path v; lit "-load-pass-plugin"; pass_path v; lit "-passes=" ++ join pipeline] ++
  (if taint then
     [lit "-pt-taint-ignore-list=" ++ poly_list] ++
     map (fun item => lit "-pt-taint-ignore-list=" ++ abi_path v ++ 47 :: item) ignore_lists ++
     [lit "-pt-dfsan-abilist=" ++ abi_path v ++ lit "/dfsan_abilist.txt"] ++
     map (fun item => lit "-pt-dfsan-abilist=" ++ abi_path v ++ 47 :: item) ignore_lists
   else []) ++
  (if ftrace then
     [lit "-pt-ftrace-ignore-list=" ++ poly_list] ++
     map (fun item => lit "-pt-ftrace-ignore-list=" ++ abi_path v ++ 47 :: item) ignore_lists
   else []).
(** _instrument_bitcode, build.py:170-229. *)
Definition instrument_bitcode (v : env) (inp out : path) (ignore_lists : list str) (taint ftrace : bool) (f : files) : Res files :=
  exec (Opt (instrument_flags v ignore_lists taint ftrace) inp out) f.

(** The options of instrument-targets. *)
Record options := mkOptions { taint : bool; ftrace : bool; cflog : bool; ignore_lists : list str }.

(** The body of the loop of InstrumentTargets.run, build.py:425-447.  with_suffix raises
    ValueError for an empty name. *)
Definition instrument_target (v : env) (o : options) (journal : list entry) (target : str) (f : files) : Res files :=
  match find_target target journal with
  | None => Exit
  | Some (e, target_path) =>
      if str_eqb (p_name target_path) [] then Exit else
      let bc_path := with_suffix target_path (lit ".bc") in
      let opt_bc := with_suffix bc_path (lit ".opt.bc") in
      do f1 <- extract_bitcode target_path bc_path f;
      do f2 <- (if cflog o then preopt_instrument v bc_path bc_path f1 else Ok f1);
      do f3 <- optimize_bitcode bc_path opt_bc f2;
      let inst_bc_path := mkPath [] (stem (p_name bc_path) ++ lit ".instrumented.bc") in
      do f4 <- instrument_bitcode v opt_bc inst_bc_path (ignore_lists o) (taint o) (ftrace o) f3;
      lower_bitcode v inst_bc_path (mkPath [] (stem (p_name inst_bc_path))) e f4
  end.
(** InstrumentTargets.run, build.py:424-447. *)
Fixpoint instrument_targets (v : env) (o : options) (journal : list entry) (targets : list str) (f : files) : Res files :=
  match targets with
  | [] => Ok f
  | t :: r => do f' <- instrument_target v o journal t f; instrument_targets v o journal r f'
  end.
