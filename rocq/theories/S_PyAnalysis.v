(** Specification vocabulary for the analyses of a finished trace. *)
From Coq Require Import NArith ZArith List Bool.
From Verif Require Import M_Base M_Memory M_OutputFile M_PyNode M_PyFile M_PySections M_PyAnalysis M_Api S_Strings S_OutputFile S_Api.
Import ListNotations.
Open Scope N_scope.

(** The file left behind by a run that ended in state [r]. *)
Definition trace_file (base : N) (r : rt) : file := file_of base shipped (rt_shutdown r).

(** The names are UTF-8 text. *)
Definition are_texts (names : list (list N)) (texts : list (list N)) : Prop :=
  Forall2 (fun name text => Forall scalar text /\ name = utf8 text) names texts.

(** The path under which registration [i] appears. *)
Definition path_at (paths : list (list N)) (i : N) (p : py_path) : Prop :=
  exists text, get paths i = Some text /\ p = py_path_of text.

(** The input/output relation of a run: position [so] of output file [sp] depends on byte
    [no] of input file [np]. *)
Definition depends (s : ast) (paths : list (list N)) (np : py_path) (no : N) (sp : py_path) (so : Z) : Prop :=
  exists i pos bs j, In (i, pos, bs) (a_out s) /\ In (j, no) bs /\ so = Z.of_N pos /\
                     path_at paths i sp /\ path_at paths j np.

(** [node_leads_to d l b]: following the nodes of the opened file from label [l] one gets to
    the source node of input byte [b]. *)
Inductive node_leads_to (d : tdfile) : N -> byte_id -> Prop :=
| sf_source l i o cf : td_decode_node d l = Ok (PySource i o cf) -> node_leads_to d l (i, o)
| sf_range l f la cf m b : td_decode_node d l = Ok (PyRange f la cf) -> f <= m <= la -> node_leads_to d m b -> node_leads_to d l b
| sf_left l x y cf b : td_decode_node d l = Ok (PyUnion x y cf) -> node_leads_to d x b -> node_leads_to d l b
| sf_right l x y cf b : td_decode_node d l = Ok (PyUnion x y cf) -> node_leads_to d y b -> node_leads_to d l b.

(** The descriptor and size a registration is recorded with. *)
Definition recorded_fd (g : reg) : Z := match reg_fd g with Some z => z | None => (-1)%Z end.
Definition recorded_size (g : reg) : N := match reg_size g with Some n => n | None => 2 ^ 64 - 1 end.
Definition input_at (s : ast) (paths : list (list N)) (i : N) (x : py_input) : Prop :=
  exists g p, get (a_regs s) i = Some g /\ path_at paths i p /\ x = mkInput (recorded_fd g) p (recorded_size g).
