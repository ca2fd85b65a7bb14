(** Histories of the label table as seen by its callers. *)
From Coq Require Import NArith List.
From Verif Require Import M_Base M_Encoding M_Labels S_Provenance.
Import ListNotations.
Open Scope N_scope.

(** What the public reader Labels::read_label reports for a label. *)
Definition view (t : table) (l : N) : option taint :=
  match read_label t l with Ok x => Some x | _ => None end.

(** A label in use: it has been handed out (label 0 means "untainted"). *)
Definition in_use (t : table) (l : N) : Prop := 1 <= l /\ l < len t.

(** The three mutating operations of the table. *)
Inductive lop : Type :=
| LSource (src offset n : N)
| LUnion (l r : N)
| LMark (l : N).

(** What callers guarantee: source indices fit 8 bits, the offsets of a read stay
    below 2^54, reads are not empty, and only labels in use are passed back. *)
Definition lop_ok (t : table) (o : lop) : Prop :=
  match o with
  | LSource src offset n => src <= 255 /\ 1 <= n /\ offset + n <= 2 ^ 54
  | LUnion l r => in_use t l /\ in_use t r
  | LMark l => in_use t l
  end.

(** [lstep t o res t']: operation [o] returns normally with label [res] (the first
    label for a source range, 0 for marking). *)
Inductive lstep (t : table) : lop -> N -> table -> Prop :=
| st_source : forall src offset n f la t',
    create_source_labels t src offset n = Ok (f, la, t') ->
    lstep t (LSource src offset n) f t'
| st_union : forall l r x t',
    union_taint t l r = Ok (x, t') ->
    lstep t (LUnion l r) x t'
| st_mark : forall l fuel junk t',
    affects_control_flow fuel junk t l = Ok t' ->
    lstep t (LMark l) 0 t'.

(** [lsteps t ops t']: any number of such operations. *)
Inductive lsteps (t : table) : list lop -> table -> Prop :=
| ls_nil : lsteps t [] t
| ls_cons : forall o ops res t1 t2,
    lop_ok t o -> lstep t o res t1 -> lsteps t1 ops t2 -> lsteps t (o :: ops) t2.

(** [ltrace h t]: starting from an empty table, the calls [h] were made, each with
    the label it returned, and led to table [t]. *)
Inductive ltrace : list (lop * N) -> table -> Prop :=
| tr_nil : ltrace [] labels_new
| tr_snoc : forall h t o res t',
    ltrace h t -> lop_ok t o -> lstep t o res t' -> ltrace (h ++ [(o, res)]) t'.

(** Tables that occur in some history. *)
Definition reachable (t : table) : Prop := exists h, ltrace h t.

(** The plain set semantics of a history, with no reference to the table:
    [stands h l b] - according to the calls made and the labels returned, byte [b]
    belongs to label [l]. *)
Inductive stands (h : list (lop * N)) : N -> input_byte -> Prop :=
| sd_source : forall src offset n f i,
    In (LSource src offset n, f) h -> i < n -> stands h (f + i) (src, offset + i)
| sd_left : forall a c l b,
    In (LUnion a c, l) h -> stands h a b -> stands h l b
| sd_right : forall a c l b,
    In (LUnion a c, l) h -> stands h c b -> stands h l b.
