(** Specification of the arguments of wrappers of custom functions. *)
From Coq Require Import NArith List.
From Verif Require Import M_Base M_DfsanCustom.
Import ListNotations.
Local Open Scope nat_scope.

(** What a parameter of a wrapper is for, as its author knows: for each parameter of the function
    the parameter, or, for a pointer to a function, a trampoline and the pointer; then the labels
    of all parameters; for a variadic function the labels of the variable arguments; if there is a
    result, where to put its label; at last the variable arguments. *)
Inductive role : Type := Param (i : nat) | Tramp (i : nat) | Pointer (i : nat) | LabelOf (i : nat) | LabelsOfRest | ResultLabel | Rest (j : nat).
Definition is_fun_pointer (t : ty) : Prop := exists ps r va, t = TPtr (TFun ps r va).
Inductive roles_of_params : nat -> list ty -> list role -> Prop :=
| rp_none i : roles_of_params i [] []
| rp_fun i t ts rs : is_fun_pointer t -> roles_of_params (S i) ts rs -> roles_of_params i (t :: ts) (Tramp i :: Pointer i :: rs)
| rp_other i t ts rs : ~ is_fun_pointer t -> roles_of_params (S i) ts rs -> roles_of_params i (t :: ts) (Param i :: rs).
Definition documented (t : fty) (rest : nat) (rs : list role) : Prop :=
  exists ps, roles_of_params 0 (ft_params t) ps /\
    rs = ps ++ map LabelOf (seq 0 (length (ft_params t))) ++ (if ft_va t then [LabelsOfRest] else []) ++
         (match ft_ret t with Some _ => [ResultLabel] | None => [] end) ++ map Rest (seq 0 rest).
(** What the call must pass for each, its type, and its attributes. *)
Definition right_value (t : fty) (n : nat) (r : role) (v : value) : Prop :=
  let k := length (ft_params t) in
  match r with
  | Param i => v = VArg i
  | Tramp i => v = VTramp i
  | Pointer i => v = VCast i
  | LabelOf i => v = VLabel i
  | LabelsOfRest => exists is, v = VLabels is /\ length is = n - k /\ forall j, j < n - k -> nth j is 0 = k + j
  | ResultLabel => v = VRet
  | Rest j => v = VArg (k + j)
  end.
(** A trampoline takes the pointer, arguments and labels of these, and where to put the label of
    the result. *)
Definition tramp_type (t : ty) : ty :=
  match t with
  | TPtr (TFun ps r va) => TPtr (TFun (t :: ps ++ map (fun _ => TShadow) ps ++ (match r with Some _ => [TShadowPtr] | None => [] end)) r false)
  | _ => t
  end.
Definition right_type (args : list ty) (r : role) (t : ty) : Prop :=
  match r with
  | Param i => nth_error args i = Some t
  | Tramp i => exists a, nth_error args i = Some a /\ t = tramp_type a
  | Pointer _ => t = TBytePtr
  | LabelOf _ => t = TShadow
  | LabelsOfRest | ResultLabel => t = TShadowPtr
  | Rest _ => True
  end.
Definition right_attr (t : fty) (a : attrs) (r : role) (x : list N) : Prop :=
  match r with
  | Param i | Tramp i => x = param_attr a i
  | Rest j => x = param_attr a (length (ft_params t) + j)
  | LabelOf _ => x = [ZEXT]
  | Pointer _ | LabelsOfRest | ResultLabel => x = []
  end.
(** No parameter is a pointer to a variadic function. *)
Definition no_variadic_callback (t : fty) : Prop := forall ps r, ~ In (TPtr (TFun ps r true)) (ft_params t).
