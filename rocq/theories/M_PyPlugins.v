(** Model of polytracker/plugins.py (96-366): how commands, subcommands and extensions are
    registered when their classes are defined, and what a command line then runs.

    Not modelled: abstract classes (they are not registered, 109 and 278), classes without a
    name or with a parent that is no command (a TypeError, 115 and 292-310), a class that
    inherits from another registered one, and the options a command adds to its parser. *)
From Coq Require Import NArith List Bool.
From Verif Require Import M_Base.
Import ListNotations.
Open Scope N_scope.

Inductive kind : Type := KCommand | KSubcommand | KExtension.
(** The body of a class: its base, name, plugin_name and help if they are given, and the
    number of the class that is its parent_type; classes are numbered in the order of their
    definition. *)
Record cls : Type := mkCls {
  ckind : kind; cname : list N; cplugin : option (list N); chelp : bool; cparent : option nat }.
(** PLUGINS and COMMANDS, 96-99, and the attributes subcommand_types and extension_types of
    each class, 165-168. *)
Record registry : Type := mkReg {
  classes : list cls;
  plugins : list (list N * nat);
  commands : list (list N * nat);
  sub_types : nat -> list nat;
  ext_types : nat -> list nat }.
Definition no_classes : registry := mkReg [] [] [] (fun _ => []) (fun _ => []).

Fixpoint name_eqb (a b : list N) : bool :=
  match a, b with
  | [], [] => true
  | x :: a', y :: b' => (x =? y) && name_eqb a' b'
  | _, _ => false
  end.
Fixpoint lookup (d : list (list N * nat)) (n : list N) : option nat :=
  match d with
  | [] => None
  | (k, v) :: r => if name_eqb k n then Some v else lookup r n
  end.
(** d[n] = v for a dict, which keeps the place of a key. *)
Fixpoint assign (d : list (list N * nat)) (n : list N) (v : nat) : list (list N * nat) :=
  match d with
  | [] => [(n, v)]
  | (k, w) :: r => if name_eqb k n then (n, v) :: r else (k, w) :: assign r n v
  end.
Definition push (f : nat -> list nat) (p i : nat) : nat -> list nat := fun x => if Nat.eqb x p then f x ++ [i] else f x.

(** The name of a plugin.  PluginMeta.__init__, 109-115: plugin_name, or else name;
    CommandExtensionMeta.__init__, 311-316: for subcommands and extensions the name behind
    that of the parent and "_".  The attribute plugin_name of the parent is found only if it
    stands in the parent's body: the entry that 316 adds to clsdict is not an attribute. *)
Definition plugin_key (cs : list cls) (c : cls) : list N :=
  match cplugin c with
  | Some n => n
  | None =>
      match cparent c with
      | None => cname c
      | Some p =>
          match nth_error cs p with
          | None => cname c
          | Some pc => (match cplugin pc with Some n => n | None => cname pc end) ++ [95] ++ cname c
          end
      end
  end.

(** The definition of a class, and whether it succeeds.  First __init_subclass__ (325-344,
    359-378) enters the class at its parent, then PluginMeta.__init__, 107-130, raises a
    TypeError if the name is taken, enters the class, and raises one for a command without
    help. *)
Definition define (r : registry) (c : cls) : registry * bool :=
  let i := length (classes r) in
  let cs := classes r ++ [c] in
  let subs := match ckind c, cparent c with KSubcommand, Some p => push (sub_types r) p i | _, _ => sub_types r end in
  let exts := match ckind c, cparent c with KExtension, Some p => push (ext_types r) p i | _, _ => ext_types r end in
  let key := plugin_key (classes r) c in
  match lookup (plugins r) key with
  | Some _ => (mkReg cs (plugins r) (commands r) subs exts, false)
  | None =>
      let ps := assign (plugins r) key i in
      match ckind c with
      | KCommand =>
          if chelp c then (mkReg cs ps (assign (commands r) (cname c) i) subs exts, true)
          else (mkReg cs ps (commands r) subs exts, false)
      | _ => (mkReg cs ps (commands r) subs exts, true)
      end
  end.
Fixpoint define_all (r : registry) (ds : list cls) : registry * bool :=
  match ds with
  | [] => (r, true)
  | c :: rest => let '(r1, ok) := define r c in let '(r2, oks) := define_all r1 rest in (r2, ok && oks)
  end.

(** The parsers, 170-207 and 353-366: add_parser is called for every command and every
    subcommand below it and needs its help; of two parsers of the same name the last one
    counts. *)
Fixpoint parsers (fuel : nat) (r : registry) (i : nat) : bool :=
  match fuel with
  | O => false
  | S f =>
      match nth_error (classes r) i with
      | None => false
      | Some c => chelp c && forallb (parsers f r) (sub_types r i)
      end
  end.
Fixpoint find_sub (r : registry) (ids : list nat) (n : list N) : option nat :=
  match ids with
  | [] => None
  | i :: rest =>
      match find_sub r rest n with
      | Some j => Some j
      | None =>
          match nth_error (classes r) i with
          | Some c => if name_eqb (cname c) n then Some i else None
          | None => None
          end
      end
  end.
(** The class whose run is func in the parsed arguments: set_defaults of the last parser
    that was chosen (203, 365). *)
Fixpoint descend (r : registry) (i : nat) (path : list (list N)) : option nat :=
  match path with
  | [] => Some i
  | n :: rest => match find_sub r (sub_types r i) n with Some j => descend r j rest | None => None end
  end.
Definition resolve (r : registry) (path : list (list N)) : option nat :=
  match path with
  | [] => None
  | n :: rest => match lookup (commands r) n with Some i => descend r i rest | None => None end
  end.

(** What is run, in order: a command (with the number of its class), or an extension of a
    command. *)
Inductive event : Type := RanCommand (i : nat) | RanExtension (e i : nat).
(** __main__.py:20-48 with the words [path]: an error in building the parsers or an unknown
    command ends the program, as do no words at all (help, or the REPL).
    AbstractCommand.__getattribute__ (218-222) and _run (224-228): with extensions the command
    is run, then each extension, and the result is None, else the result is that of the
    command, [value i].  The status of the program is the result, and 0 for None (41-42);
    results that are no int are not modelled. *)
Definition status (v : option N) : N := match v with None => 0 | Some n => n end.
Definition main (fuel : nat) (value : nat -> option N) (r : registry) (path : list (list N)) : Res (list event * N) :=
  if forallb (fun e => parsers fuel r (snd e)) (commands r) then
    match resolve r path with
    | None => Exit
    | Some i =>
        match ext_types r i with
        | [] => Ok ([RanCommand i], status (value i))
        | es => Ok (RanCommand i :: map (fun e => RanExtension e i) es, status None)
        end
    end
  else Exit.

(** Plugin.full_name, 147-154: the names of the parents, with blanks between them. *)
Fixpoint stack_names (fuel : nat) (cs : list cls) (i : nat) : list (list N) :=
  match fuel with
  | O => []
  | S f =>
      match nth_error cs i with
      | None => []
      | Some c => cname c :: match cparent c with Some p => stack_names f cs p | None => [] end
      end
  end.
Fixpoint join_blanks (l : list (list N)) : list N :=
  match l with
  | [] => []
  | [x] => x
  | x :: r => x ++ [32] ++ join_blanks r
  end.
Definition full_name (cs : list cls) (i : nat) : list N := join_blanks (rev (stack_names (length cs) cs i)).
