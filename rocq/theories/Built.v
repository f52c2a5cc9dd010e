(** Built: the arrays a program can come to hold: what the public constructors and
    functions return, in any order and any number of times, including what
    indexing returns.  No restriction on keys. *)
From Verif Require Import Base PySlice Keys NDArray Arrays Small.

Section Built.
Context {V : Type} (O : numops V).
Notation barr := (@barr V).

(** [no_promo py o d1 d2]: the operation's dtype does not depend on its second
    operand being a Python number (biggus/_init.py:2945-2996: NumPy's promotion of
    an array with a Python scalar against that with a 0-d array). *)
Definition no_promo (py : option bool) (o : @op2 V) (d1 d2 : nat) : Prop :=
  match py with None => True | Some isf => o2_dtpy o d1 isf = o2_dt o d1 d2 end.

(** ConstantArray (1225-1238), the adapters (1314-1326), NewAxesArray (745-757),
    BroadcastArray (884-905), broadcast_arrays (966-988), astype (500-502),
    masked_equal (1184-1204), transpose (1574-1607), ArrayStack (1730-1762),
    LinearMosaic (1913-1957), the aggregation functions (2699-2916), unary and
    binary operations (2945-2996) and [__getitem__]. *)
Inductive built : barr -> Prop :=
| B_const sh v d : built (AConst sh v d)
| B_adapter o c ks a : mk_adapter o c ks = Ok a -> built a
| B_newaxes a na b : built a -> mk_newax a na = Ok b -> built b
| B_broadcast a dict lead b : built a -> mk_bcast a dict lead = Ok b -> built b
| B_left a b c d : built a -> built b -> broadcast_arrays a b = Ok (c, d) -> built c
| B_right a b c d : built a -> built b -> broadcast_arrays a b = Ok (c, d) -> built d
| B_astype a d : built a -> built (astype a d)
| B_masked_equal a v : built a -> built (masked_equal a v)
| B_transpose a axes b : built a -> mk_trans a axes = Ok b -> built b
| B_stack ssh items b : (forall x, In x items -> built x) -> mk_stack ssh items = Ok b -> built b
| B_mosaic tiles axis b : (forall x, In x tiles -> built x) -> mk_mosaic tiles axis = Ok b -> built b
| B_aggregate g a ax b : built a -> aggregate O g a ax = Ok b -> built b
| B_unary o a : built a -> built (mk_el1 o a)
| B_binary o a b py c : built a -> built b -> no_promo py o (dtype a) (dtype b) -> mk_el2 o a b py = Ok c -> built c
| B_index a keys b : built a -> getitem a keys = Ok b -> built b.
(** No stack or mosaic among the parts that decide the fill value (1735-1762,
    1926-1957) has parts that disagree. *)
Fixpoint one_fill (a : barr) : Prop :=
  match a with
  | AStack _ items => fold_right (fun it P => one_fill it /\ P) True items
                      /\ (forall x y, In x items -> In y items -> veqb O (fillv O x) (fillv O y) = true)
  | AMosaic tiles _ => fold_right (fun t P => one_fill t /\ P) True tiles
                      /\ (forall x y, In x tiles -> In y tiles -> veqb O (fillv O x) (fillv O y) = true)
  | _ => True
  end.
End Built.
