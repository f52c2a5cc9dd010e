(** Skeleton: an array expression without its data.  Nothing here models /repo:
    the specification of "structure never depends on data" (C17). *)
From Verif Require Import Base PySlice Keys NDArray Arrays.

Section Skeleton.
Context {V : Type}.

(** Everything but the stored values: shapes, dtypes, keys, axes, the kind of
    aggregation and the dtype rules of operations remain. *)
Definition skel_agg (g : @agg V) : @agg unit :=
  match g with
  | GCount => GCount | GMin => GMin | GMax => GMax | GSum => GSum
  | GMean _ => GMean tt | GStd _ => GStd tt | GVar _ => GVar tt
  end.
Definition skel_concrete (c : @concrete V) : @concrete unit :=
  mkC (c_shape c) (fun _ => None) None (c_dtype c).
Definition skel_op1 (o : @op1 V) : @op1 unit := mkOp1 (fun _ => tt) None (o1_dt o).
Definition skel_op2 (o : @op2 V) : @op2 unit := mkOp2 (fun _ _ => tt) None (o2_dt o) (o2_dtpy o).
Fixpoint skeleton (a : @barr V) : @barr unit :=
  match a with
  | AConst sh _ d => AConst sh tt d
  | AAdapt o c ks => AAdapt o (skel_concrete c) ks
  | ANewAx a na => ANewAx (skeleton a) na
  | ABcast a dict lead => ABcast (skeleton a) dict lead
  | AAsTy a d => AAsTy (skeleton a) d
  | AMaskV a _ => AMaskV (skeleton a) tt
  | ATrans a axes => ATrans (skeleton a) axes
  | AStack ssh items => AStack ssh (map skeleton items)
  | AMosaic tiles axis => AMosaic (map skeleton tiles) axis
  | AAgg g a axis d => AAgg (skel_agg g) (skeleton a) axis d
  | AEl1 o a d => AEl1 (skel_op1 o) (skeleton a) d
  | AEl2 o a b d => AEl2 (skel_op2 o) (skeleton a) (skeleton b) d
  end.

(** The result of an operation without its data: the exception, or the skeleton
    of the array. *)
Definition skel_res (r : res (@barr V)) : res (@barr unit) :=
  match r with Ok a => Ok (skeleton a) | Err e => Err e end.

(** [a] and [b] differ only in the stored values. *)
Definition same_structure (a b : @barr V) : Prop := skeleton a = skeleton b.
End Skeleton.
