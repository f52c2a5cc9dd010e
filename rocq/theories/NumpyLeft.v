(** What NumPy does with a biggus Array it is handed: conversion by [__array__], and
    operators whose left operand is a NumPy number or array.  NumPy's part is
    described by its documentation of [__array_priority__] and of conversion; it is
    trusted, not modelled from its source. *)
From Verif Require Import Base Keys NDArray Arrays Realise Spec Small HeapClaims.
Set Implicit Arguments.

Section Left.
Context {V : Type} (O : numops V) (maxc : nat) (garbage : list nat -> option V) (fuel : nat).
Notation barr := (@barr V).
Notation cell := (option V).

(** 465-467 [Array.__array__]: the plain ndarray, cast if a dtype is asked for.
    [np.asarray(a, dtype)] calls it.  [np.ma.asarray(a, dtype)] also calls it: it
    looks for a mask in the attribute [_mask], which no biggus class has, so the
    result has no mask ([Some] everywhere the ndarray has a value). *)
Definition array_method (a : barr) (d : option nat) : res (nd cell) :=
  r <- realise O maxc garbage fuel false a ;;
  Ok (match d with Some d => nd_map (map_cell (vcast O d)) r | None => r end).
Definition np_asarray (a : barr) (d : option nat) : res (nd cell) := array_method a d.
Definition np_ma_asarray (a : barr) (d : option nat) : res (nd cell) := array_method a d.

(** A NumPy number (of a dtype), an ndarray or a masked array as left operand. *)
Inductive lhs := LNum (v : V) (d : nat) | LArr (c : @concrete V) | LMa (c : @concrete V).
Definition lhs_nd (x : lhs) : nd cell :=
  match x with LNum v _ => mkND [] (fun _ => Some v) | LArr c | LMa c => mkND (c_shape c) (c_cell c) end.
Definition lhs_masked (x : lhs) : bool := match x with LMa _ => true | _ => false end.
(** What [ensure_array] (3288-3306) is given in the reflected method. *)
Definition lhs_operand (x : lhs) : operand V :=
  match x with LNum v d => PNum v d None | LArr c | LMa c => PArr (AAdapt false c []) end.

(** [__array_priority__]: NumPy's own (numbers -1000000.0, ndarray 0.0, MaskedArray
    15), and 719-720, 1344-1345 for biggus arrays: a wrapper passes on its contained
    array's, an adapter its source's ([rank], absent for sources that are not NumPy
    arrays), the other classes have none (AttributeError).  NumPy takes -1000000.0
    for an absent one.  Simplified: priorities are integers. *)
Definition np_default : Z := (-1000000)%Z.
Definition lhs_priority (x : lhs) : Z := match x with LNum _ _ => np_default | LArr _ => 0%Z | LMa _ => 15%Z end.
Fixpoint array_priority (rank : @concrete V -> option Z) (a : barr) : option Z :=
  match a with
  | AAdapt _ c _ => rank c
  | ANewAx a _ | ABcast a _ _ | AAsTy a _ | AMaskV a _ | ATrans a _ => array_priority rank a
  | _ => None
  end.

(** An operation gives a new biggus Array, or a NumPy array (masked or not) now. *)
Inductive outcome := Lazy (e : barr) | Now (masked : bool) (r : nd cell).

(** [x op a]: NumPy's method on [x] gives way (NotImplemented) when [a] has the
    higher priority, and Python then calls the reflected method (587-665) of [a];
    otherwise NumPy converts [a] by [__array__] and applies the ufunc, for a masked
    [x] the one of [np.ma], to [x] and the values. *)
Definition left_op (u : ufuncs V) (o : opname) (rank : @concrete V -> option Z) (x : lhs) (a : barr) : res outcome :=
  if (lhs_priority x <? match array_priority rank a with Some p => p | None => np_default end)%Z
  then r <- rop_method u o a (lhs_operand x) ;;
       match r with Some e => Ok (Lazy e) | None => Err TypeError end
  else d <- array_method a None ;;
       r <- np_op2 (op2_sem (lhs_masked x) (method_fun u o)) (lhs_nd x) d ;;
       Ok (Now (lhs_masked x) r).
End Left.
