(** ResultType: the dtype of the NumPy array that [ndarray()], [masked_array()],
    [biggus.ndarrays] and [biggus.masked_arrays] return.  Not the array's own
    [dtype] property ([dtype], Arrays.v). *)
From Verif Require Import Base PySlice Keys NDArray Arrays Realise.

Section ResultType.
Context {V : Type} (O : numops V).
Variable f8 : nat.                               (* np.dtype('f8'), the dtype of np.ma.masked *)
Variable maxc : nat.
Variable garbage : list nat -> option V.
Variable fuel : nat.
Notation cell := (option V).
Notation barr := (@barr V).

(** NumPy returns the constant np.ma.masked, whatever the dtype, for a single masked
    element: indexing a masked array down to one, and np.ma operations on arrays
    without dimensions. *)
Definition lone_masked (r : res (nd cell)) : bool :=
  match r with
  | Ok d => match nshape d with [] => match nget d [] with None => true | Some _ => false end | _ => false end
  | Err _ => false
  end.

(** [a.ndarray()] ([m = false]) or [a.masked_array()] ([m = true]), if it returns.
    Simplified: what a source returns when it is indexed has the source's dtype or is
    np.ma.masked; the numpy and numpy.ma functions of an operation give the same
    dtype. *)
Fixpoint result_dt (m : bool) (a : barr) : nat :=
  match a with
  | AConst _ _ d => d                                                            (* 1250-1258: np.empty(self.shape, self._dtype) *)
  | AAdapt ortho c ks =>                                                         (* 1473-1491 *)
      if lone_masked (realise_adapter O true ortho c ks) then f8 else c_dtype c
  | ANewAx c _ | ABcast c _ _ | ATrans c _ => result_dt m c                      (* 855-861, 1105-1118, 1707-1715: views *)
  | AMaskV c _ => result_dt m c                                                  (* 716-717 and 1179-1181: np.ma.masked_equal *)
  | AAsTy _ d => d                                                               (* 1151-1157: .astype(self.dtype) *)
  | AStack _ _ | AMosaic _ _ => dtype a                                          (* 1823-1832, 2053-2070: np.empty(..., dtype=self.dtype) *)
  | AAgg _ _ _ d => d                                                            (* 2658-2668 and 312-317 *)
  | AEl1 o x _ =>                                                                (* 3023-3036: the operation on results of the engine, of dtype x.dtype (312-317) *)
      if m && lone_masked (realise O maxc garbage fuel true a) then f8 else o1_dt o (dtype x)
  | AEl2 o x y _ =>
      if m && lone_masked (realise O maxc garbage fuel true a) then f8 else o2_dt o (dtype x) (dtype y)
  end.

(** 302-334: [biggus.ndarrays([a])[0]] or [biggus.masked_arrays([a])[0]]: the chunks
    are stored into an array allocated with [dtype=array.dtype], and converted to it. *)
Definition group_dt (a : barr) : nat := dtype a.
End ResultType.
