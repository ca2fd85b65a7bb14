(** Specification: how docker run reads its words. *)
From Coq Require Import NArith List Bool.
From Verif Require Import M_Base.
Import ListNotations.
Open Scope N_scope.

(** What a container is started with. *)
Record container : Type := mkContainer {
  workdir : list N; tty : bool; removed : bool;
  volumes : list (list N * list N * list N);  (* source, target, mode *)
  variables : list (list N * list N);
  from_image : list N; words : list (list N) }.

(** The text before the first [c] and behind it. *)
Fixpoint cut_at (c : N) (s : list N) : option (list N * list N) :=
  match s with
  | [] => None
  | x :: r => if x =? c then Some ([], r) else match cut_at c r with Some (a, b) => Some (x :: a, b) | None => None end
  end.
(** source:target:mode, with two colons. *)
Definition read_volume (s : list N) : option (list N * list N * list N) :=
  match cut_at 58 s with
  | Some (a, r) => match cut_at 58 r with
                   | Some (b, m) => match cut_at 58 m with None => Some (a, b, m) | Some _ => None end
                   | None => None
                   end
  | None => None
  end.
(** name=value *)
Definition read_variable (s : list N) : option (list N * list N) := cut_at 61 s.

Definition word_eqb (a b : list N) : bool := if list_eq_dec N.eq_dec a b then true else false.
Definition with_volume (v : list N * list N * list N) (c : container) : container :=
  mkContainer (workdir c) (tty c) (removed c) (v :: volumes c) (variables c) (from_image c) (words c).
Definition with_variable (v : list N * list N) (c : container) : container :=
  mkContainer (workdir c) (tty c) (removed c) (volumes c) (v :: variables c) (from_image c) (words c).
(** The words behind docker run: options, up to the first word without "-", which is the
    image; the rest is the command. *)
Fixpoint read_run (l : list (list N)) : option container :=
  match l with
  | [] => None
  | w :: r =>
      if word_eqb w [45; 105; 116] (* -it *) then
        match read_run r with Some c => Some (mkContainer (workdir c) true (removed c) (volumes c) (variables c) (from_image c) (words c)) | None => None end
      else if word_eqb w [45; 45; 114; 109] (* --rm *) then
        match read_run r with Some c => Some (mkContainer (workdir c) (tty c) true (volumes c) (variables c) (from_image c) (words c)) | None => None end
      else if word_eqb w [45; 118] (* -v *) then
        match r with
        | x :: r1 => match read_volume x, read_run r1 with Some v, Some c => Some (with_volume v c) | _, _ => None end
        | [] => None
        end
      else if word_eqb w [45; 101] (* -e *) then
        match r with
        | x :: r1 => match read_variable x, read_run r1 with Some v, Some c => Some (with_variable v c) | _, _ => None end
        | [] => None
        end
      else if word_eqb (firstn 3 w) [45; 119; 61] (* -w= *) then
        match read_run r with Some c => Some (mkContainer (skipn 3 w) (tty c) (removed c) (volumes c) (variables c) (from_image c) (words c)) | None => None end
      else if word_eqb (firstn 1 w) [45] (* - *) then None
      else Some (mkContainer [] false false [] [] w r)
  end.
(** env docker run ... *)
Definition read_command (l : list (list N)) : option container :=
  match l with
  | e :: d :: r :: rest =>
      if word_eqb e [47; 117; 115; 114; 47; 98; 105; 110; 47; 101; 110; 118] && word_eqb d [100; 111; 99; 107; 101; 114] && word_eqb r [114; 117; 110]
      then read_run rest else None
  | _ => None
  end.
