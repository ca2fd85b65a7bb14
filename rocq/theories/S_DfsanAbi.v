(** What it means that calls are treated as the ABI list says, without thread-local arrays and
    wrapper functions. *)
From Coq Require Import NArith List Bool.
From Verif Require Import M_DfsanAbi.
Import ListNotations.
Open Scope N_scope.

(** What the list says of a name. *)
Definition listed_in (L : abilist) (n : N) (c : category) : Prop := l_src L c = true \/ l_fun L n c = true.
Definition listed (L : abilist) (n : N) : Prop := listed_in L n Uninstrumented.

Section Treatment.
  Context {Lb W : Type}.
  Variable zero : Lb.
  (** The inputs that a label stands for. *)
  Variable sources : Lb -> N -> Prop.
  (** Calls of the functions as they are: [native n vals w v w'] for native code; [body] and
      [custom] for functions of the program and wrappers of custom functions, with labels. *)
  Variable native : N -> list N -> W -> N -> W -> Prop.
  Variable body : N -> list N -> list Lb -> W -> N -> Lb -> W -> Prop.
  Variable custom : N -> list N -> list Lb -> W -> N -> Lb -> W -> Prop.

  Definition together (l : Lb) (ls : list Lb) : Prop := forall x, sources l x <-> exists l', In l' ls /\ sources l' x.

  (** A call of a listed function [n], whose code is [run], with arguments [vals] labelled [labels].
      Functional counts before discard, discard before custom; no category is like discard. *)
  Inductive treated (L : abilist) (n : N) (run : N -> W -> Prop) (vals : list N) (labels : list Lb) (w : W) : N -> Lb -> W -> Prop :=
  | treated_functional v l w' : listed_in L n Functional -> run v w' -> together l labels -> treated L n run vals labels w v l w'
  | treated_discard v w' : ~ listed_in L n Functional -> listed_in L n Discard -> run v w' -> treated L n run vals labels w v zero w'
  | treated_custom v l w' : ~ listed_in L n Functional -> ~ listed_in L n Discard -> listed_in L n Custom ->
      custom n vals labels w v l w' -> treated L n run vals labels w v l w'
  | treated_other v w' : ~ listed_in L n Functional -> ~ listed_in L n Discard -> ~ listed_in L n Custom ->
      run v w' -> treated L n run vals labels w v zero w'.

  (** The code of a listed function: native, or of the program, which then sees no labels. *)
  Definition own_code (M : modul) (n : N) (vals : list N) (w : W) (v : N) (w' : W) : Prop :=
    exists f, find_fun (m_funs M) n = Some f /\
      if fd_defined f then exists l, body n vals (repeat zero (t_params (fd_type f))) w v l w' else native n vals w v w'.

  (** A call of a name, of a function or an alias. *)
  Inductive as_listed (L : abilist) (M : modul) (n : N) (vals : list N) (labels : list Lb) (w : W) (v : N) (l : Lb) (w' : W) : Prop :=
  | call_function :
      find_alias (m_aliases M) n = None -> ~ listed L n ->
      body n vals labels w v l w' -> as_listed L M n vals labels w v l w'
  | call_listed :
      find_alias (m_aliases M) n = None -> listed L n ->
      treated L n (own_code M n vals w) vals labels w v l w' -> as_listed L M n vals labels w v l w'
  | call_alias t :
      find_alias (m_aliases M) n = Some t -> ~ listed L n -> ~ listed L t ->
      body t vals labels w v l w' -> as_listed L M n vals labels w v l w'
  | call_alias_of_listed t :
      find_alias (m_aliases M) n = Some t -> listed L t ->
      treated L t (own_code M t vals w) vals labels w v l w' -> as_listed L M n vals labels w v l w'
  | call_listed_alias t :
      find_alias (m_aliases M) n = Some t -> listed L n -> ~ listed L t ->
      treated L n (fun v w' => exists l, body t vals (repeat zero (length vals)) w v l w') vals labels w v l w' ->
      as_listed L M n vals labels w v l w'.
End Treatment.

(** A call of code that the model is given: the value, the label of the value, the state; not what it leaves
    in the thread-local arrays. *)
Definition returns {Lb W} (f : N -> list N -> W -> N * W * @tls Lb) n vals w v w' : Prop := exists x, f n vals w = (v, w', x).
Definition returns_labelled {Lb W} (f : N -> list N -> list Lb -> W -> N * Lb * W * @tls Lb) n vals ls w v l w' : Prop :=
  exists x, f n vals ls w = (v, l, w', x).

(** The ways to name what is called: by its name, or by a pointer to it that the program made. *)
Definition names (L : abilist) (M : modul) (n : N) (k : callee) : Prop :=
  k = ByName n \/ exists c, pointer L M n = Some c /\ k = ByPointer c.
(** No name is both a function's and an alias's. *)
Definition distinct (M : modul) : Prop := forall n f, find_fun (m_funs M) n = Some f -> find_alias (m_aliases M) n = None.
