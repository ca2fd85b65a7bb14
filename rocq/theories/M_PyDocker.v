(** Model of DockerContainer.run and out_of_date_sources, polytracker/containerization.py
    (103-143, 145-228): when a container is started and with which command.

    Not modelled: docker itself (S_Docker reads the command as docker run does), building and
    pulling beyond their effect on the image, standard input and output, and the error for
    redirecting them in an interactive run (192-197). *)
From Coq Require Import NArith List Bool.
From Verif Require Import M_Base.
Import ListNotations.
Open Scope N_scope.

(** str.replace('"', '\\"'), 214. *)
Fixpoint escape_quotes (v : list N) : list N :=
  match v with
  | [] => []
  | c :: r => if c =? 34 then [92; 34] ++ escape_quotes r else c :: escape_quotes r
  end.

(** The words of the command. *)
Definition w_env : list N := [47; 117; 115; 114; 47; 98; 105; 110; 47; 101; 110; 118]. (* /usr/bin/env *)
Definition w_docker : list N := [100; 111; 99; 107; 101; 114].
Definition w_run : list N := [114; 117; 110].
Definition w_workdir : list N := [45; 119; 61; 47; 119; 111; 114; 107; 100; 105; 114]. (* -w=/workdir *)
Definition w_it : list N := [45; 105; 116].
Definition w_rm : list N := [45; 45; 114; 109].
Definition w_v : list N := [45; 118].
Definition w_e : list N := [45; 101].
Definition w_cached : list N := [58; 99; 97; 99; 104; 101; 100]. (* :cached *)
Definition p_workdir : list N := [47; 119; 111; 114; 107; 100; 105; 114]. (* /workdir *)

(** 183-187: by default the working directory is mounted. *)
Definition mounts_of (cwd : list N) (mounts : option (list (list N * list N))) : list (list N * list N) :=
  match mounts with None => [(cwd, p_workdir)] | Some l => l end.
(** 207-215: the words for a mount and for a variable. *)
Definition mount_words (m : list N * list N) : list (list N) := [w_v; fst m ++ [58] ++ snd m ++ w_cached].
Definition variable_words (kv : list N * list N) : list (list N) := [w_e; fst kv ++ [61] ++ escape_quotes (snd kv)].
(** 199-219: cmd_args; [name] is that of the image, 232-234, and [env] is empty for None. *)
Definition cmd_args (interactive remove : bool) (cwd : list N) (mounts : option (list (list N * list N)))
    (env : list (list N * list N)) (name : list N) (args : list (list N)) : list (list N) :=
  [w_env; w_docker; w_run; w_workdir]
  ++ (if interactive then [w_it] else [])
  ++ (if remove then [w_rm] else [])
  ++ flat_map mount_words (mounts_of cwd mounts)
  ++ flat_map variable_words env
  ++ [name] ++ args.

(** A file of PolyTracker: the Dockerfile and setup.py (112), or a file below the directory
    polytracker, which may end in .py and may have __pycache__ in its path; with the time of
    its last change. *)
Inductive source_kind : Type := Top | Below (python pycache : bool).
Record source : Type := mkSource { skind : source_kind; smtime : N }.
(** The image with the time it was built, None if it does not exist (128-143); whether there
    are a Dockerfile and setup.py; the files. *)
Record world : Type := mkWorld { image : option N; from_source : bool; sources : list source }.

(** 117-121 *)
Definition considered (s : source) : bool :=
  match skind s with Top => true | Below python pycache => negb pycache && negb python end.
(** The list made by out_of_date_sources, 105-125. *)
Definition newer_sources (w : world) : list source :=
  match image w with
  | None => []
  | Some t => if from_source w then filter (fun s => considered s && (t <? smtime s)) (sources w) else []
  end.
(** out_of_date_sources, 103-126: [cache] is _out_of_date_sources. *)
Definition out_of_date (cache : option (list source)) (w : world) : option (list source) * list source :=
  match cache with
  | Some l => (cache, l)
  | None => (Some (newer_sources w), newer_sources w)
  end.

(** rebuild, 262-314, at the time [now]; pull, 248-260, where [hub] is the image at DockerHub.
    Each may raise. *)
Definition rebuild (w : world) (now : N) : option world :=
  if from_source w then Some (mkWorld (Some now) (from_source w) (sources w)) else None.
Definition pull (w : world) (hub : option N) : option world :=
  match hub with None => None | Some t => Some (mkWorld (Some t) (from_source w) (sources w)) end.

(** What run does: the command is started, or an exception. *)
Inductive outcome : Type := Started | OutOfDate (l : list source) | Failed.
(** DockerContainer.run, 159-182. *)
Definition run_container (cache : option (list source)) (w : world) (now : N) (hub : option N) (build_if_necessary check : bool) :
    option (list source) * world * outcome :=
  match image w with
  | None =>
      if build_if_necessary then
        match (if from_source w then rebuild w now else pull w hub) with
        | Some w1 => (cache, w1, match image w1 with Some _ => Started | None => Failed end)
        | None => (cache, w, Failed)
        end
      else (cache, w, Failed)
  | Some _ =>
      if check then
        let '(c1, l) := out_of_date cache w in
        match l with [] => (c1, w, Started) | _ => (c1, w, OutOfDate l) end
      else (cache, w, Started)
  end.

(** What happens around one object: run, rebuild, and a change of the files. *)
Inductive action : Type :=
| ARun (now : N) (hub : option N) (build_if_necessary check : bool)
| ARebuild (now : N)
| AChange (l : list source).
Definition act (s : option (list source) * world) (a : action) : option (list source) * world * list (world * outcome) :=
  let '(c, w) := s in
  match a with
  | ARun now hub b ch => let '(c1, w1, o) := run_container c w now hub b ch in (c1, w1, [(w1, o)])
  | ARebuild now => (c, match rebuild w now with Some w1 => w1 | None => w end, [])
  | AChange l => (c, mkWorld (image w) (from_source w) l, [])
  end.
(** The worlds in which runs end, with their outcomes. *)
Fixpoint act_all (s : option (list source) * world) (l : list action) : list (world * outcome) :=
  match l with
  | [] => []
  | a :: r => let '(c, w, out) := act s a in out ++ act_all (c, w) r
  end.
