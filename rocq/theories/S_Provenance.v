(** Specification vocabulary for taint provenance.  Independent of the label
    table: everything is stated for an arbitrary "what does label l hold" function
    [look], which for the theorems is the public reader of the label table. *)
From Coq Require Import NArith.
From Verif Require Import M_Encoding.
Open Scope N_scope.

(** An input byte: (source index, offset in that source). *)
Definition input_byte : Type := N * N.

Section Prov.
  Variable look : N -> option taint.

  (** [component l m]: label [l] was built directly from label [m]. *)
  Inductive component : N -> N -> Prop :=
  | comp_range : forall l cf f la m,
      look l = Some (TRange cf f la) -> f <= m <= la -> component l m
  | comp_lower : forall l cf lo hi,
      look l = Some (TUnion cf lo hi) -> component l lo
  | comp_higher : forall l cf lo hi,
      look l = Some (TUnion cf lo hi) -> component l hi.

  (** [built_from l m]: [m] is [l] or was used, transitively, to build [l]. *)
  Inductive built_from : N -> N -> Prop :=
  | bf_refl : forall l, built_from l l
  | bf_step : forall l m k, component l m -> built_from m k -> built_from l k.

  (** [derives l b]: input byte [b] is one of the bytes label [l] stands for. *)
  Definition derives (l : N) (b : input_byte) : Prop :=
    exists m cf, built_from l m /\ look m = Some (TSource cf (fst b) (snd b)).

  (** [flagged l]: label [l] is marked as affecting control flow. *)
  Definition flagged (l : N) : Prop :=
    (exists i o, look l = Some (TSource true i o)) \/
    (exists f la, look l = Some (TRange true f la)) \/
    (exists lo hi, look l = Some (TUnion true lo hi)).
End Prov.

(** The taint without its control-flow flag. *)
Definition erase_cf (t : taint) : taint :=
  match t with
  | TSource _ i o => TSource false i o
  | TRange _ f l => TRange false f l
  | TUnion _ a b => TUnion false a b
  end.
