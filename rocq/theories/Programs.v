(** Programs: any number of biggus calls, each next to the NumPy call it stands
    for.  [program a M]: a sequence of public biggus calls returned the array [a],
    and the same calls made with NumPy return [M false] on the source data with
    masked cells filled, and [M true] on the masked source data.  Nothing here
    refers to what an array "means"; [M] is built by NumPy-level operations only. *)
From Verif Require Import Base PySlice Keys NDArray Arrays Spec Supported Small Built BroadcastClaims.

Section Programs.
Context {V : Type} (O : numops V).
Notation cell := (option V).
Notation barr := (@barr V).
Notation data := (bool -> nd cell).

(** [numpy.broadcast_to] after inserting [lead] dimensions in front: dimension [i]
    of the source is stretched to [dict i] where that is given. *)
Definition np_stretch (dict : list (nat * nat)) (lead : list nat) (a : nd cell) : nd cell :=
  mkND (lead ++ map (fun i => match dict_find i dict with Some n => n | None => nth i (nshape a) 0 end) (seq 0 (length (nshape a))))
       (fun o => nget a (map (fun i => match dict_find i dict with Some _ => 0 | None => nth (length lead + i) o 0 end)
                             (seq 0 (length (nshape a))))).
(** [numpy.broadcast_arrays(a, b)]: operand [a] at full shape [full]. *)
Definition np_operand (full : list nat) (a : nd cell) : nd cell :=
  mkND full (fun o => nget a (bc_idx (nshape a) o)).
(** An aggregation over one axis. *)
Definition np_aggregate (g : @agg V) (axis : nat) (m : bool) (a : nd cell) : nd cell :=
  mkND (remove_at axis (nshape a)) (fun o => agg_spec O m g (column a axis o)).
(** A binary universal function, with broadcasting. *)
Definition np_binary (o : @op2 V) (full : list nat) (m : bool) (a b : nd cell) : nd cell :=
  mkND full (fun i => op2_sem m o (nget a (bc_idx (nshape a) i)) (nget b (bc_idx (nshape b) i))).

(** ConstantArray (biggus/_init.py:1225-1238), the adapters (1314-1326),
    NewAxesArray (745-757), BroadcastArray (884-905), broadcast_arrays (966-988),
    astype (500-502), masked_equal (1184-1204), transpose (1574-1607), ArrayStack
    (1730-1762), LinearMosaic (1913-1957), the aggregation functions (2699-2916),
    unary and binary operations (2945-2996) and [__getitem__].

    Side conditions, beyond that the call returned: arguments NumPy accepts (valid
    keys, axes a permutation, one array per position of a stack, a dictionary
    without repeated keys, naming dimensions of length one); and the calls known to be wrong are left out: [safe_keys]
    (C58), [nolead] and [broadcastable] (C09), casting a cast (C42), [no_promo]
    (C44). *)
Inductive program : barr -> data -> Prop :=
| P_const sh v d : program (AConst sh v d) (fun _ => mkND sh (fun _ => Some v))
| P_source o c a : mk_adapter o c [] = Ok a ->
    program a (fun m => nd_map (fill_cell m (match c_fill c with Some v => v | None => vdfill O (c_dtype c) end)) (mkND (c_shape c) (c_cell c)))
| P_index a M keys b : program a M -> valid_keys keys (nshape (M true)) -> safe_keys a keys -> getitem a keys = Ok b ->
    program b (fun m => oindex (M m) keys)
| P_newaxes a M na b : program a M -> mk_newax a na = Ok b ->
    program b (fun m => oindex (M m) (newax_layout KNew (repeat KFull (length (nshape (M m)))) na))
| P_broadcast a M dict lead b : program a M -> NoDup (map fst dict) ->
    Forall (fun p => fst p < length (nshape (M true)) /\ nth (fst p) (nshape (M true)) 0 = 1) dict -> Forall (fun n => 1 <= n) lead ->
    (dict = [] \/ nolead a) -> mk_bcast a dict lead = Ok b ->
    program b (fun m => np_stretch dict lead (M m))
| P_left a M b N full c d : program a M -> program b N -> np_bshape (nshape (M true)) (nshape (N true)) = Some full ->
    broadcastable a full -> broadcastable b full -> broadcast_arrays a b = Ok (c, d) -> program c (fun m => np_operand full (M m))
| P_right a M b N full c d : program a M -> program b N -> np_bshape (nshape (M true)) (nshape (N true)) = Some full ->
    broadcastable a full -> broadcastable b full -> broadcast_arrays a b = Ok (c, d) -> program d (fun m => np_operand full (N m))
| P_astype a M d : program a M -> (match a with AAsTy _ _ => False | _ => True end) ->
    program (astype a d) (fun m => nd_map (map_cell (vcast O d)) (M m))
| P_masked_equal a M v : program a M -> program (masked_equal a v) (fun m => nd_map (eq_mask O m v) (M m))
| P_transpose a M axes b : program a M ->
    (match axes with None => True | Some l => NoDup l /\ Forall (fun x => x < length (nshape (M true))) l end) -> mk_trans a axes = Ok b ->
    program b (fun m => nd_transpose (match axes with None => rev (seq 0 (length (nshape (M m)))) | Some l => l end) (M m))
| P_stack ssh (parts : list (barr * data)) b : (forall p, In p parts -> program (fst p) (snd p)) -> length parts = prodn ssh ->
    mk_stack ssh (map fst parts) = Ok b -> program b (fun m => nd_stack ssh (map (fun p => snd p m) parts))
| P_mosaic (parts : list (barr * data)) axis b : (forall p, In p parts -> program (fst p) (snd p)) ->
    mk_mosaic (map fst parts) axis = Ok b -> program b (fun m => nd_concat (map (fun p => snd p m) parts) (Z.to_nat axis))
| P_aggregate g a M i axis ax b : program a M -> norm_int i (length (nshape (M true))) = Some axis -> ax = AxInt i \/ ax = AxSeq [Some i] -> aggregate O g a ax = Ok b ->
    program b (fun m => np_aggregate g axis m (M m))
| P_unary o a M : program a M -> program (mk_el1 o a) (fun m => nd_map (op1_sem m o) (M m))
| P_binary o a M b N py full c : program a M -> program b N -> np_bshape (nshape (M true)) (nshape (N true)) = Some full ->
    broadcastable a full -> broadcastable b full -> no_promo py o (dtype a) (dtype b) -> mk_el2 o a b py = Ok c ->
    program c (fun m => np_binary o full m (M m) (N m)).
End Programs.
