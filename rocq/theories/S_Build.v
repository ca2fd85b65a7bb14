(** What instrument-targets promises: which program it makes of a target. *)
From Coq Require Import NArith List Bool String.
From Verif Require Import M_Base M_PyBuild.
Import ListNotations.
Open Scope N_scope.
Open Scope list_scope.

(** [e] is the first line of the journal with an output file called [target], and [p] is the
    first such file. *)
Definition builds (journal : list entry) (target : str) (e : entry) (p : path) : Prop :=
  exists before after outs o outs',
    journal = before ++ e :: after /\ e_outputs e = outs ++ o :: outs' /\
    p = parse_path (o_path o) /\ p_name p = target /\
    (forall e' o', In e' before -> In o' (e_outputs e') -> p_name (parse_path (o_path o')) <> target) /\
    (forall o', In o' outs -> p_name (parse_path (o_path o')) <> target).

(** The name of a file without its extension: "a.b" for "a.b.c", all of "a", ".a" and "a.". *)
Definition has_extension (name base : str) : Prop :=
  base <> [] /\ exists ext, ext <> [] /\ ~ In 46 ext /\ name = base ++ 46 :: ext.
Definition base_name (name base : str) : Prop :=
  has_extension name base \/ (name = base /\ forall b, ~ has_extension name b).

(** [kept P l l']: l' is l without the elements that do not satisfy P. *)
Inductive kept {A} (P : A -> Prop) : list A -> list A -> Prop :=
| kept_nil : kept P [] []
| kept_yes x l l' : P x -> kept P l l' -> kept P (x :: l) (x :: l')
| kept_no x l l' : ~ P x -> kept P l l' -> kept P (x :: l) l'.

(** The command that links the instrumented program of a build command: the flags of the
    build command, its libraries again, and the runtime of PolyTracker. *)
Definition link_args (v : env) (e : entry) (args : list str) : Prop :=
  exists flags libs,
    kept (fun x => x <> lit "-o" /\ (forall i, In i (e_inputs e) -> x <> i_prenormalized i) /\
                   (forall o, In o (e_outputs e) -> x <> o_prenormalized o)) (e_args e) flags /\
    kept (fun i => i_kind i <> OtherKind) (e_inputs e) libs /\
    args = flags ++ [lit "-pie"; lit "-Wl,--allow-multiple-definition"; lit "-Wl,--start-group"] ++ map i_path libs ++
           [cxx_dir v ++ lit "/poly_build/lib/libc++.a"; cxx_dir v ++ lit "/poly_build/lib/libc++abi.a";
            compiler_dir v ++ lit "/lib/libPolytracker.a"; lit "-lm"; lit "-ltinfo"; lit "-lstdc++";
            dfsan_lib v; lit "-ldl"; lit "-Wl,--end-group"].

(** The passes asked for, in the order in which they have to run. *)
Definition passes_flag (taint ftrace : bool) : str :=
  lit (match taint, ftrace with
       | true, true => "-passes=pt-taint,pt-ftrace,pt-dfsan,pt-rm-fn-attr"
       | true, false => "-passes=pt-taint,pt-dfsan,pt-rm-fn-attr"
       | false, true => "-passes=pt-ftrace"
       | false, false => "-passes="
       end).
(** The flags of the instrumentation: the plugin, the passes, and for each pass the lists of
    functions it leaves alone: the one of PolyTracker and those the user names. *)
Definition pass_flags (v : env) (o : options) (flags : list str) : Prop :=
  let plugin := compiler_dir v ++ lit "/pass/libPolytrackerPass.so" in
  let dir := compiler_dir v ++ lit "/abi_lists/" in
  exists lists,
    flags = [lit "-load"; plugin; lit "-load-pass-plugin"; plugin; passes_flag (taint o) (ftrace o)] ++ lists /\
    forall x, In x lists <->
      exists name,
        (taint o = true /\ (name = lit "polytracker_abilist.txt" \/ In name (ignore_lists o)) /\ x = lit "-pt-taint-ignore-list=" ++ dir ++ name) \/
        (taint o = true /\ (name = lit "dfsan_abilist.txt" \/ In name (ignore_lists o)) /\ x = lit "-pt-dfsan-abilist=" ++ dir ++ name) \/
        (ftrace o = true /\ (name = lit "polytracker_abilist.txt" \/ In name (ignore_lists o)) /\ x = lit "-pt-ftrace-ignore-list=" ++ dir ++ name).

(** The instrumented program of a binary with content [a] built by [e]: its bitcode, with
    control flow logged before the optimisation if asked for, optimised, instrumented and
    linked. *)
Definition instrumented (v : env) (o : options) (e : entry) (a : artifact) (program : artifact) : Prop :=
  let plugin := compiler_dir v ++ lit "/pass/libPolytrackerPass.so" in
  exists flags args,
    pass_flags v o flags /\ link_args v e args /\
    program = Linked (e_tool e) args (Transformed flags (Transformed [lit "-O3"]
      (if cflog o then Transformed [lit "-load"; plugin; lit "-load-pass-plugin"; plugin; lit "-passes=pt-tcf"] (Bitcode a)
       else Bitcode a))).

(** Names that would clash with the files that are written. *)
Definition ends_with (name suffix : str) : Prop := exists b, name = b ++ suffix.
Definition plain_name (name : str) : Prop := ~ ends_with name (lit ".bc") /\ ~ ends_with name (lit ".instrumented").
(** The build command names its output in an argument of its own: no "-ofile". *)
Definition separate_output (e : entry) : Prop := forall x, In x (e_args e) -> x = lit "-o" \/ ~ exists r, x = lit "-o" ++ r.

(** The files written for a target in directory [dir]. *)
Definition written (dir base : str) (p : path) : Prop :=
  p = mkPath dir (base ++ lit ".bc") \/ p = mkPath dir (base ++ lit ".opt.bc") \/
  p = mkPath [] (base ++ lit ".instrumented.bc") \/ p = mkPath [] (base ++ lit ".instrumented").

(** What is passed to the compiler besides the flags of the build command are paths, not flags. *)
Definition no_flag (x : str) : Prop := forall r, x <> 45 :: r.
Definition paths_are_paths (v : env) (e : entry) : Prop :=
  no_flag (compiler_dir v) /\ no_flag (cxx_dir v) /\ no_flag (dfsan_lib v) /\ forall i, In i (e_inputs e) -> no_flag (i_path i).
