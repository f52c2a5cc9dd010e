(** Reads: which elements [ndarray()] and [masked_array()] take from the concrete
    arrays (netCDF variables, NumPy arrays, ...) that adapters wrap. *)
From Verif Require Import Base PySlice Keys NDArray Arrays Realise.

(** The elements of an array, in C order. *)
Definition elements {W} (a : nd W) : list W := map (nget a) (ndindex (nshape a)).

Section Reads.
Context {V : Type}.
Notation cell := (option V).
Notation barr := (@barr V).

(** 1506-1545 and 1572-1574 [_apply_keys]: what [concrete.__getitem__] is called
    with, and so returns.  With more than one tuple among the keys a
    NumpyArrayAdapter asks for everything the other keys select ([concrete[...]]
    if all keys are tuples) and takes from that afterwards. *)
Definition delivered (ortho : bool) (src : nd cell) (ks : list key) : res (nd cell) :=
  if ortho then apply_ortho src ks
  else if 1 <? length (tuple_keys ks) then
    (if length (tuple_keys ks) =? length ks then np_index src [KEll] else np_index src (cut_keys ks))
  else np_index src ks.

(** [ndarray()]/[masked_array()] of every class without a streams handler: the
    elements taken, in the order of the calls.  1250-1258 constants take none;
    1473-1491 adapters; 855-861 new axes, 1105-1118 broadcasts, 1151-1157 astype,
    1179-1181 masked_equal and 1707-1715 transpositions evaluate what they
    contain, once; 1824-1836 stacks and 2056-2079 mosaics their parts in turn.
    Aggregations and elementwise operations evaluate their operands as sources of
    a stream (175-204): see [asked] in ReadSpec.v. *)
Fixpoint reads (a : barr) : res (list cell) :=
  match a with
  | AConst _ _ _ => Ok []
  | AAdapt ortho c ks => d <- delivered ortho (mkND (c_shape c) (c_cell c)) ks ;; Ok (elements d)
  | ANewAx c _ | ABcast c _ _ | AAsTy c _ | AMaskV c _ | ATrans c _ => reads c
  | AStack _ items => ls <- mapM reads items ;; Ok (concat ls)
  | AMosaic tiles _ => ls <- mapM reads tiles ;; Ok (concat ls)
  | AAgg _ _ _ _ | AEl1 _ _ _ | AEl2 _ _ _ _ => Err Unmodelled
  end.

(** What is taken is what the adapter's result is made from. *)
Lemma apply_delivered (src : nd cell) ks :
  apply_numpy src ks = (d <- delivered false src ks ;;
    if 1 <? length (tuple_keys ks)
    then foldM (fun arr it => np_take arr (snd it) (fst it - count_if is_scalar (firstn (S (fst it)) (cut_keys ks)))) d (tuple_keys ks)
    else Ok d).
Proof.
  unfold apply_numpy, delivered. cbv zeta. destruct (1 <? length (tuple_keys ks)); [reflexivity|]. destruct (np_index src ks); reflexivity.
Qed.
End Reads.
