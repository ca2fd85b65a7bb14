(** Model of calls of custom functions, polytracker/src/passes/DataFlowSanitizer.cpp: the type of the
    wrapper (getTrampolineFunctionType, getCustomFunctionType), the arguments of the call that
    replaces the original one (visitWrappedCallBase, addShadowArguments) and their attributes
    (transformFunctionAttributes).  Origins are not tracked (C58).  Shadows are primitive. *)
From Coq Require Import NArith List Bool.
From Verif Require Import M_Base.
Import ListNotations.
Local Open Scope nat_scope.

(** ** Types *)
Inductive ty : Type := TInt (bits : N) | TPtr (t : ty) | TFun (params : list ty) (ret : option ty) (va : bool).
(** PrimitiveShadowTy and PrimitiveShadowPtrTy, 1048-1049; Type::getInt8PtrTy. *)
Definition TShadow : ty := TInt 32.
Definition TShadowPtr : ty := TPtr TShadow.
Definition TBytePtr : ty := TPtr (TInt 8).
(** A function type: parameters, result ([None] is void), variadic. *)
Record fty := mkFty { ft_params : list ty; ft_ret : option ty; ft_va : bool }.
(** The test for pointers to functions, 833-834 and 3014-3015. *)
Definition fun_pointer (t : ty) : option fty :=
  match t with TPtr (TFun ps r va) => Some (mkFty ps r va) | _ => None end.
Definition ret_ptr (r : option ty) : list ty := match r with Some _ => [TShadowPtr] | None => [] end.
(** getTrampolineFunctionType, 803-820; the assertion is a distinct outcome. *)
Definition trampoline_type (t : fty) : Res fty :=
  if ft_va t then Exit
  else Ok (mkFty (TPtr (TFun (ft_params t) (ft_ret t) (ft_va t)) :: ft_params t ++ repeat TShadow (length (ft_params t)) ++ ret_ptr (ft_ret t)) (ft_ret t) false).
Definition as_ty (t : fty) : ty := TFun (ft_params t) (ft_ret t) (ft_va t).
(** The first loop of getCustomFunctionType, 829-842: types and ArgumentIndexMapping. *)
Fixpoint custom_params (ps : list ty) (types : list ty) (mapping : list nat) : Res (list ty * list nat) :=
  match ps with
  | [] => Ok (types, mapping)
  | p :: r =>
      match fun_pointer p with
      | Some f => do t <- trampoline_type f; custom_params r (types ++ [TPtr (as_ty t); TBytePtr]) (mapping ++ [length types])
      | None => custom_params r (types ++ [p]) (mapping ++ [length types])
      end
  end.
(** getCustomFunctionType, 822-863. *)
Definition custom_type (t : fty) : Res (fty * list nat) :=
  do r <- custom_params (ft_params t) [] [];
  Ok (mkFty (fst r ++ repeat TShadow (length (ft_params t)) ++ (if ft_va t then [TShadowPtr] else []) ++ ret_ptr (ft_ret t)) (ft_ret t) (ft_va t), snd r).

(** ** Arguments *)
(** What the new call passes: the i-th argument, the trampoline for it (dfst<i>$F), the argument as
    a pointer to bytes, its label, the array of labels of variable arguments, the cell for the
    label of the result. *)
Inductive value : Type := VArg (i : nat) | VTramp (i : nat) | VCast (i : nat) | VLabel (i : nat) | VLabels (is : list nat) | VRet.
(** 3009-3027. *)
Fixpoint fixed_args (ps : list ty) (i : nat) : list value :=
  match ps with
  | [] => []
  | p :: r => (match fun_pointer p with Some _ => [VTramp i; VCast i] | None => [VArg i] end) ++ fixed_args r (S i)
  end.
(** addShadowArguments, 2886-2923; [n] arguments are passed. *)
Definition shadow_args (t : fty) (n : nat) : list value :=
  let k := length (ft_params t) in
  map VLabel (seq 0 k) ++ (if ft_va t then [VLabels (seq k (n - k))] else []) ++ (match ft_ret t with Some _ => [VRet] | None => [] end).
(** 3029-3039. *)
Definition new_args (t : fty) (n : nat) : list value :=
  fixed_args (ft_params t) 0 ++ shadow_args t n ++ map VArg (skipn (length (ft_params t)) (seq 0 n)).

(** ** Attributes *)
(** Attributes of a call: the sets of its parameters, and how many sets are kept if no parameter
    has any (those of the function and the result: at most 2). *)
Record attrs := mkAttrs { at_params : list (list N); at_few : nat }.
(** getParamAttributes and getNumAttrSets of LLVM's AttributeList. *)
Definition param_attr (a : attrs) (i : nat) : list N := nth i (at_params a) [].
Definition num_sets (a : attrs) : nat := match at_params a with [] => at_few a | l => 2 + length l end.
Fixpoint set_nth (l : list (list N)) (i : nat) (x : list N) : list (list N) :=
  match l, i with
  | [], _ => []
  | _ :: r, O => x :: r
  | y :: r, S j => y :: set_nth r j x
  end.
(** transformFunctionAttributes, 349-376. *)
Fixpoint copy_attrs (a : attrs) (i : nat) (mapping : list nat) (l : list (list N)) : list (list N) :=
  match mapping with
  | [] => l
  | q :: r => copy_attrs a (S i) r (set_nth l q (param_attr a i))
  end.
Definition transform_attrs (t new : fty) (mapping : list nat) (a : attrs) : list (list N) :=
  copy_attrs a 0 mapping (repeat [] (length (ft_params new))) ++
  map (param_attr a) (seq (length (ft_params t)) (num_sets a - length (ft_params t))).
(** Attribute::ZExt; the loop 3049-3060. *)
Definition ZEXT : N := 1.
Fixpoint zext_labels (l : list (list N)) (start : nat) (n : nat) : list (list N) :=
  match n with
  | O => l
  | S k => zext_labels (set_nth l start (ZEXT :: nth start l [])) (S start) k
  end.
(** visitWrappedCallBase for WK_Custom, 2983-3080: type, arguments and attributes of the call. *)
Definition custom_call (t : fty) (n : nat) (a : attrs) : Res (fty * list value * list (list N)) :=
  do r <- custom_type t;
  let l := transform_attrs t (fst r) (snd r) a in
  Ok (fst r, new_args t n, zext_labels l (length (fixed_args (ft_params t) 0)) (length (ft_params t))).

(** ** The labels of results *)
(** All calls of custom functions in one function share one cell, LabelReturnAlloca, 2916-2922 and
    3063-3065.  [writes] is the label the wrapper stores, if it does; [cell] is [None] as long as the
    cell was not written. *)
Fixpoint results {Lb} (cell : option Lb) (calls : list (option Lb)) : list (option Lb) :=
  match calls with
  | [] => []
  | w :: r => let c := match w with Some l => Some l | None => cell end in c :: results c r
  end.
