(** What README.md:204-216 says about the environment variables. *)
From Coq Require Import NArith ZArith List.
From Verif Require Import M_Base M_Memory M_StringTable M_Functions M_CfLog M_OutputFile M_Api M_Runtime M_Settings.
Import ListNotations.
Open Scope N_scope.

(** The variable is set to '1'. *)
Definition set_to_1 (e : environ) (name : list N) : Prop := getenv e name = Some [49].
(** A standard stream is opened by the runtime if it exists and was asked for. *)
Inductive stream_step (e : environ) (r : rt) (name : list N) (fd : Z) (path : list N) (size : option N) : rt -> Prop :=
| stream_on r' : set_to_1 e name -> (0 <= fd)%Z -> rt_open r fd path size = Ok r' -> stream_step e r name fd path size r'
| stream_off : ~ (set_to_1 e name /\ (0 <= fd)%Z) -> stream_step e r name fd path size r.
(** A text has a line. *)
Definition has_line (text line : list N) : Prop :=
  ~ In 10 line /\ exists a b, text = a ++ line ++ 10 :: b /\ (a = [] \/ exists a', a = a' ++ [10]).
(** The value of a variable is that of the first entry with its name. *)
Definition first_value (e : environ) (name v : list N) : Prop :=
  exists before after, e = before ++ (name, v) :: after /\ ~ In name (map fst before).
(** The text of a list of lines. *)
Definition text_of_lines (lines : list (list N)) : list N := flat_map (fun l => l ++ [10]) lines.
