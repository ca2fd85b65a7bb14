(** Symbols of a library, how readelf -s -W prints them, and what the lists should have.
    The columns are those of print_symbol_info in binutils for 64-bit files. *)
From Coq Require Import NArith List.
From Verif Require Import M_Base M_PyStubList.
Import ListNotations.
Open Scope N_scope.

Inductive stype : Type := NoType | Object | Func | Section_ | File | Common | Tls | IFunc.
Inductive sbind : Type := Local | Global | Weak | Unique.
Inductive svis : Type := Default | Internal | Hidden | Protected.
(** The section: undefined, absolute, common, or a number. *)
Inductive sndx : Type := Und | Abs | Com | Sec (digits : list N).
(** Number, size: decimal digits; value: sixteen hexadecimal digits. *)
Record sym : Type := mkSym { s_num : list N; s_value : list N; s_size : list N; s_type : stype; s_bind : sbind; s_vis : svis; s_ndx : sndx; s_name : list N }.

Definition type_text (t : stype) : list N :=
  match t with NoType => [78; 79; 84; 89; 80; 69] | Object => [79; 66; 74; 69; 67; 84] | Func => [70; 85; 78; 67] | Section_ => [83; 69; 67; 84; 73; 79; 78]
  | File => [70; 73; 76; 69] | Common => [67; 79; 77; 77; 79; 78] | Tls => [84; 76; 83] | IFunc => [73; 70; 85; 78; 67] end.
Definition bind_text (b : sbind) : list N :=
  match b with Local => [76; 79; 67; 65; 76] | Global => [71; 76; 79; 66; 65; 76] | Weak => [87; 69; 65; 75] | Unique => [85; 78; 73; 81; 85; 69] end.
Definition vis_text (v : svis) : list N :=
  match v with Default => [68; 69; 70; 65; 85; 76; 84] | Internal => [73; 78; 84; 69; 82; 78; 65; 76] | Hidden => [72; 73; 68; 68; 69; 78] | Protected => [80; 82; 79; 84; 69; 67; 84; 69; 68] end.
Definition ndx_text (n : sndx) : list N :=
  match n with Und => [85; 78; 68] | Abs => [65; 66; 83] | Com => [67; 79; 77] | Sec d => d end.
(** printf's %6s and %-6s: at least so many columns. *)
Definition right (w : nat) (t : list N) : list N := repeat 32 (w - length t) ++ t.
Definition left (w : nat) (t : list N) : list N := t ++ repeat 32 (w - length t).
Definition line_of (s : sym) : list N :=
  right 6 (s_num s) ++ [58; 32] ++ s_value s ++ [32] ++ right 5 (s_size s) ++ [32] ++ left 7 (type_text (s_type s)) ++ [32] ++
  left 6 (bind_text (s_bind s)) ++ [32] ++ left 7 (vis_text (s_vis s)) ++ [32] ++ right 4 (ndx_text (s_ndx s)) ++ [32] ++ s_name s.

(** A symbol as it can occur. *)
Definition digit (c : N) : Prop := 48 <= c <= 57.
Definition real (s : sym) : Prop :=
  length (s_value s) = 16%nat /\ Forall digit (s_num s) /\ Forall digit (s_size s) /\
  forall d, s_ndx s = Sec d -> d <> [] /\ Forall digit d.
(** Its fields are not wider than their columns: less than a million symbols, less than 100000
    bytes, less than 10000 sections, and a visibility with a short name. *)
Definition fits (s : sym) : Prop :=
  (length (s_num s) <= 6)%nat /\ (length (s_size s) <= 5)%nat /\ (length (ndx_text (s_ndx s)) <= 4)%nat /\ (length (vis_text (s_vis s)) <= 7)%nat.

(** A function that other libraries can call. *)
Definition callable (s : sym) : Prop := (s_type s = Func \/ s_type s = IFunc) /\ s_bind s <> Local /\ s_ndx s <> Und.
(** Its name without the version. *)
Definition named (s : sym) (n : list N) : Prop := ~ In 64 n /\ (s_name s = n \/ exists v, s_name s = n ++ 64 :: v).
(** The prefixes of instrumented functions do not occur in a text. *)
Definition plain (n : list N) : Prop := forall a b, n <> a ++ t_dfs ++ b /\ n <> a ++ t_dfsw ++ b.
(** The name in the source program. *)
Definition source_name (n m : list N) : Prop := plain m /\ (n = m \/ n = t_dfs ++ m \/ n = t_dfsw ++ m).
(** A line of a list: fun:name=attribute. *)
Definition entry (name attr : list N) : list N := t_fun ++ name ++ 61 :: attr ++ [10].
