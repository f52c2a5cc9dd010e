(** ResultFill: the fill value carried by the masked array that [masked_array()]
    and [biggus.masked_arrays] return.  Not the array's own [fill_value] property
    ([fillv], Arrays.v): the one NumPy keeps in the result. *)
From Verif Require Import Base PySlice Keys NDArray Arrays Realise.

Section ResultFill.
Context {V : Type} (O : numops V).
Notation cell := (option V).
Notation barr := (@barr V).

(** None: no fill value was ever set, so NumPy supplies the default of the dtype
    when asked.  Simplifications: the fill value of a source that is a masked
    array counts as set; NumPy's conversion of a fill value to another dtype always
    succeeds. *)
Fixpoint rfill (a : barr) : option V :=
  match a with
  | AConst _ _ _ => None                       (* 1255-1258: np.ma.empty *)
  | AAdapt _ c _ =>                            (* 1484-1491: an indexed masked array keeps its fill value; otherwise fill_value=self.fill_value *)
      Some (match c_fill c with Some v => v | None => vdfill O (c_dtype c) end)
  | ANewAx c _ | ATrans c _ => rfill c         (* 859-861, 1711-1715: indexing and transposing keep it *)
  | ABcast _ _ _ => None                       (* 1110-1118: np.ma.masked_array(array, mask=mask) *)
  | AAsTy c d => option_map (vcast O d) (rfill c)  (* 1155-1157: MaskedArray.astype converts it *)
  | AMaskV c v => Some (vcast O (dtype c) v)   (* 1179-1181: np.ma.masked_equal sets it *)
  | AStack _ _ | AMosaic _ _ => Some (fillv O a)   (* 1830-1832, 2068-2070: fill_value=self.fill_value *)
  | AAgg _ _ _ _ => None                       (* 312-314, 2662-2668: np.ma.empty *)
  | AEl1 _ _ _ | AEl2 _ _ _ _ => None          (* 3030-3036: an operation on results of the engine, 312-314 *)
  end.
Definition result_fill (a : barr) : V := match rfill a with Some v => v | None => vdfill O (dtype a) end.

(** [a.masked_array()]: the cells and the fill value. *)
Definition masked_result maxc (garbage : list nat -> cell) (fuel : nat) (a : barr) : res (nd cell * V) :=
  e <- realise O maxc garbage fuel true a ;; Ok (e, result_fill a).
(** [biggus.masked_arrays(a)[0]] (302-334, 426-446, 2082-2105): whatever the array,
    its chunks are stored into np.ma.empty. *)
Definition group_result maxc (garbage : list nat -> cell) (fuel : nat) (a : barr) : res (nd cell * V) :=
  e <- engine_eval O maxc garbage (realise O maxc garbage fuel true) true a ;; Ok (e, vdfill O (dtype a)).
End ResultFill.
