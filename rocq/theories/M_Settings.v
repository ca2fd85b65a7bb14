(** The settings of a traced program: its environment variables, what they switch on, and what is
    printed about them.  polytracker/src/polytracker/main.cpp; the effects are those of M_Runtime.

    Simplifications: text is a list of characters without zero; printf to stdout is the text that
    the traced program's own output follows. *)
From Coq Require Import NArith ZArith List Bool.
From Verif Require Import M_Base M_Memory M_StringTable M_Functions M_CfLog M_OutputFile M_Api M_Runtime.
Import ListNotations.
Open Scope N_scope.

Definition s_polydb : list N := [80; 79; 76; 89; 68; 66]. (* POLYDB *)
Definition s_stdout : list N := [80; 79; 76; 89; 84; 82; 65; 67; 75; 69; 82; 95; 83; 84; 68; 79; 85; 84; 95; 83; 73; 78; 75]. (* POLYTRACKER_STDOUT_SINK *)
Definition s_stderr : list N := [80; 79; 76; 89; 84; 82; 65; 67; 75; 69; 82; 95; 83; 84; 68; 69; 82; 82; 95; 83; 73; 78; 75]. (* POLYTRACKER_STDERR_SINK *)
Definition s_stdin : list N := [80; 79; 76; 89; 84; 82; 65; 67; 75; 69; 82; 95; 83; 84; 68; 73; 78; 95; 83; 79; 85; 82; 67; 69]. (* POLYTRACKER_STDIN_SOURCE *)
Definition s_argv : list N := [80; 79; 76; 89; 84; 82; 65; 67; 75; 69; 82; 95; 84; 65; 73; 78; 84; 95; 65; 82; 71; 86]. (* POLYTRACKER_TAINT_ARGV *)
Definition s_default : list N := [112; 111; 108; 121; 116; 114; 97; 99; 107; 101; 114; 46; 116; 100; 97; 103]. (* polytracker.tdag *)

(** environ: entries in order.  getenv (libc): the first one with the name. *)
Definition environ := list (list N * list N).
Fixpoint getenv (e : environ) (name : list N) : option (list N) :=
  match e with
  | [] => None
  | (n, v) :: rest => if bytes_eqb n name then Some v else getenv rest name
  end.

(** polytracker_parse_env, main.cpp:59-79. *)
Definition runtime_env (e : environ) : env := mkEnv (getenv e s_stdout) (getenv e s_stderr) (getenv e s_stdin) (getenv e s_argv).
(** The name of the trace file: main.cpp:60-62 and set_defaults, 53-55. *)
Definition db_name (e : environ) : list N :=
  match getenv e s_polydb with
  | Some ((_ :: _) as v) => v
  | _ => s_default
  end.

(** polytracker_print_settings, main.cpp:109-130: lines of a name, a colon, a blank and a value. *)
Definition setting_line (name value : list N) : list N := name ++ [58; 32] ++ value ++ [10].
Definition line_if (name : list N) (v : option (list N)) : list N :=
  match v with
  | Some ((_ :: _) as s) => setting_line name s
  | _ => []
  end.
Definition print_settings (e : environ) (argv_on : bool) : list N :=
  setting_line s_polydb (db_name e) ++ line_if s_stdout (getenv e s_stdout) ++ line_if s_stderr (getenv e s_stderr) ++
  line_if s_stdin (getenv e s_stdin) ++ (if argv_on then setting_line s_argv [49] else []).

(** __taint_start with the settings read from the environment: the text printed and the process. *)
Definition start_traced (p : proc) (e : environ) (base : N) (fo fe fi : Z) (so se si : option N) : Res (list N * proc) :=
  let argv := match starts_with_one (getenv e s_argv) with Some b => b | None => p_argv p end in
  do p' <- cb_start p (runtime_env e) base fo fe fi so se si;
  Ok (print_settings e argv, p').
