(** Probe: operations that NumPy does not define for every dtype.  Building an
    operation applies it to one element of each operand's dtype (2945-2996), so
    that NumPy's TypeError is raised at once; indexing builds it again; evaluating
    applies it to the operands' data.  In the main model operations accept every
    dtype. *)
From Verif Require Import Base PySlice Keys NDArray Arrays Realise Small.

Section Probe.
Context {V : Type} (O : numops V).
Notation cell := (option V).
Notation barr := (@barr V).
Variable dom1 : @op1 V -> nat -> bool.            (* NumPy defines the operation for an array of the dtype *)
Variable dom2 : @op2 V -> nat -> nat -> bool.     (* ... for arrays of the two dtypes *)
Variable dompy : @op2 V -> nat -> bool -> bool.   (* ... for an array of the dtype and a Python number (true: a float); as for
                                                     [o2_dtpy], the number's value is left out *)

(** 2955-2966 *)
Definition probe_el1 (o : @op1 V) (a : barr) : res barr := if dom1 o (dtype a) then Ok (mk_el1 o a) else Err TypeError.
(** 2967-2991: broadcasting comes first *)
Definition probe_el2 (o : @op2 V) (a b : barr) (py : option bool) : res barr :=
  e <- mk_el2 o a b py ;;
  if match py with Some isf => dompy o (dtype a) isf | None => dom2 o (dtype a) (dtype b) end then Ok e else Err TypeError.

(** All operations in [a] are applied to arrays of dtypes they are defined for. *)
Fixpoint defined (a : barr) : bool :=
  match a with
  | AConst _ _ _ | AAdapt _ _ _ => true
  | ANewAx c _ | ABcast c _ _ | AAsTy c _ | AMaskV c _ | ATrans c _ | AAgg _ c _ _ => defined c
  | AStack _ l | AMosaic l _ => forallb defined l
  | AEl1 o c _ => defined c && dom1 o (dtype c)
  | AEl2 o c1 c2 _ => defined c1 && defined c2 && dom2 o (dtype c1) (dtype c2)
  end.
(** [a[keys]]: the operations are built again (3014-3021), without the Python number:
    the second operand is by then an array.  Simplified: an operation that indexing
    leaves as it is (below a broadcast) is tried as well. *)
Definition probe_getitem (a : barr) (keys : list key) : res barr :=
  b <- getitem a keys ;; if defined b then Ok b else Err TypeError.
(** [a.ndarray()] or [a.masked_array()] (2930-2933, 3023-3036).  Simplified: another
    error that would be raised earlier is not told apart. *)
Definition probe_realise maxc garbage fuel (m : bool) (a : barr) : res (nd cell) :=
  if defined a then realise O maxc garbage fuel m a else Err TypeError.

(** What a program can come to hold, as [built] (Built.v), with operations and
    indexing that may raise TypeError; the Python numbers are those NumPy treats like
    the arrays holding them. *)
Definition like_array (py : option bool) (o : @op2 V) (d1 d2 : nat) : Prop :=
  match py with None => True | Some isf => o2_dtpy o d1 isf = o2_dt o d1 d2 /\ dompy o d1 isf = dom2 o d1 d2 end.
Inductive made : barr -> Prop :=
| M_const sh v d : made (AConst sh v d)
| M_adapter o c ks a : mk_adapter o c ks = Ok a -> made a
| M_newaxes a na b : made a -> mk_newax a na = Ok b -> made b
| M_broadcast a dict lead b : made a -> mk_bcast a dict lead = Ok b -> made b
| M_left a b c d : made a -> made b -> broadcast_arrays a b = Ok (c, d) -> made c
| M_right a b c d : made a -> made b -> broadcast_arrays a b = Ok (c, d) -> made d
| M_astype a d : made a -> made (astype a d)
| M_masked_equal a v : made a -> made (masked_equal a v)
| M_transpose a axes b : made a -> mk_trans a axes = Ok b -> made b
| M_stack ssh items b : (forall x, In x items -> made x) -> mk_stack ssh items = Ok b -> made b
| M_mosaic tiles axis b : (forall x, In x tiles -> made x) -> mk_mosaic tiles axis = Ok b -> made b
| M_aggregate g a ax b : made a -> aggregate O g a ax = Ok b -> made b
| M_unary o a b : made a -> probe_el1 o a = Ok b -> made b
| M_binary o a b py c : made a -> made b -> like_array py o (dtype a) (dtype b) -> probe_el2 o a b py = Ok c -> made c
| M_index a keys b : made a -> probe_getitem a keys = Ok b -> made b.
End Probe.
