(** Realise: [ndarray()] ([m = false]) and [masked_array()] ([m = true]) of every
    class, with the streaming engine in its sequential (Kahn) semantics: every
    node turns the complete sequences of chunks on its inputs into the complete
    sequence on its outputs.  Threads.v relates this to the threads and queues. *)
From Verif Require Import Base PySlice Keys NDArray Arrays Chunks Handlers.

Section Realise.
Context {V : Type} (O : numops V).
Notation cell := (option V).
Notation barr := (@barr V).

(** MAX_CHUNK_SIZE (line 2113) and the content of freshly allocated memory
    (np.empty), both arbitrary. *)
Variable maxc : nat.
Variable garbage : list nat -> cell.

Definition is_tuple (k : key) : bool := match k with KTuple _ => true | _ => false end.

(** What a single key selects on a dimension of length n, orthogonally. *)
Definition key_dsel (k : key) (n : nat) : res dsel :=
  match k with
  | KInt i => match norm_int i n with Some j => Ok (DPt j) | None => Err IndexError end
  | KSlice s => l <- slice_idx s n ;; Ok (DLs (map Z.to_nat l))
  | KTuple l | KArr l | KList l =>
      match norm_ints l n with Some r => Ok (DLs r) | None => Err IndexError end
  | KMask m => if length m =? n then Ok (DLs (mask_nonzero m)) else Err IndexError
  | _ => Err TypeError
  end.
Fixpoint keys_dsel (ks : list key) (sh : list nat) : res (list dsel) :=
  match ks, sh with
  | [], _ => Ok (map (fun n => DLs (seq 0 n)) sh)
  | _, [] => Err IndexError
  | k :: ks', n :: sh' => s <- key_dsel k n ;; r <- keys_dsel ks' sh' ;; Ok (s :: r)
  end.

(** 1572-1574 [OrthoArrayAdapter._apply_keys]: the data source itself indexes
    orthogonally (the documented requirement on it). *)
Definition apply_ortho (a : nd cell) (ks : list key) : res (nd cell) :=
  s <- keys_dsel ks (nshape a) ;; Ok (nd_sel a s).

(** 1506-1545 [NumpyArrayAdapter._apply_keys] *)
Definition tuple_keys (ks : list key) : list (nat * list Z) :=
  flat_map (fun ik => match snd ik with KTuple l => [(fst ik, l)] | _ => [] end)
           (combine (seq 0 (length ks)) ks).
Definition cut_keys (ks : list key) : list key :=
  map (fun k => if is_tuple k then KFull else k) ks.
Definition apply_numpy (a : nd cell) (ks : list key) : res (nd cell) :=
  let tk := tuple_keys ks in
  if 1 <? length tk then
    arr <- (if length tk =? length ks then np_index a [KEll] else np_index a (cut_keys ks)) ;;
    foldM (fun arr it => np_take arr (snd it)
                           (fst it - count_if is_scalar (firstn (S (fst it)) (cut_keys ks))))
          arr tk
  else np_index a ks.

(** 1473-1491: [_ArrayAdapter.ndarray] / [masked_array].  Masked cells are
    filled by [ndarray()], except that a 0-dimensional masked element is first
    converted by np.array, which gives 0 (lines 1478-1479 precede 1480-1481). *)
Definition adapter_cell (m : bool) (fill : V) (zero_d : bool) (c : cell) : cell :=
  match c with
  | Some v => Some v
  | None => if m then None else Some (if zero_d then v0 O else fill)
  end.
Definition realise_adapter (m : bool) (ortho : bool) (c : concrete) (ks : list key)
  : res (nd cell) :=
  let src := mkND (c_shape c) (c_cell c) in
  arr <- (if ortho then apply_ortho src ks else apply_numpy src ks) ;;
  let fill := match c_fill c with Some v => v | None => vdfill O (c_dtype c) end in
  Ok (nd_map (adapter_cell m fill (match nshape arr with [] => true | _ => false end)) arr).

(** 1092-1103 [_broadcast_numpy_array]: zero strides on broadcast axes. *)
Fixpoint zero_axes (dict : list (nat * nat)) (ax : nat) (idx : list nat) : list nat :=
  match idx with
  | [] => []
  | i :: idx' => (match dict_find ax dict with Some _ => 0 | None => i end)
                   :: zero_axes dict (S ax) idx'
  end.
Definition bcast_numpy {W} (a : nd W) (dict : list (nat * nat)) (lead : list nat) : res (nd W) :=
  sh <- shape_from_dict (nshape a) dict ;;
  Ok (mkND (lead ++ sh) (fun o => nget a (zero_axes dict 0 (skipn (length lead) o)))).

(** 1179-1181: np.ma.masked_equal; ndarray() is inherited unchanged. *)
Definition mask_equal (m : bool) (v : V) (c : cell) : cell :=
  match c with
  | Some x => if m && veqb O x v then None else Some x
  | None => None
  end.

Definition lift1 (f : V -> V) (c : cell) : cell := match c with Some v => Some (f v) | None => None end.
Definition lift2 (f : V -> V -> V) (a b : cell) : cell :=
  match a, b with Some x, Some y => Some (f x y) | _, _ => None end.

(** 3023-3049: the operation applied in each mode; TypeError without a masked
    equivalent. *)
Definition op1_fun (m : bool) (o : op1) : res (cell -> cell) :=
  if m then match o1_ma o with Some f => Ok f | None => Err TypeError end
  else Ok (lift1 (o1_np o)).
Definition op2_fun (m : bool) (o : op2) : res (cell -> cell -> cell) :=
  if m then match o2_ma o with Some f => Ok f | None => Err TypeError end
  else Ok (lift2 (o2_np o)).

(** 89: Chunk *)
Definition chunk := (list key * nd cell)%type.

Definition key_eqb (a b : key) : bool :=
  match a, b with
  | KInt x, KInt y => (x =? y)%Z
  | KSlice s, KSlice t => slice_eqb s t
  | _, _ => false
  end.
Definition keys_eqb := list_eqb key_eqb.

(** 2249-2252 [input_iteration_order] *)
Definition input_order (axis : nat) (order : list nat) : list nat :=
  map (fun i => if i <? axis then i else S i) order ++ [axis].

(** 2275-2293 [_AggregationStreamsHandler.process_chunks] and 271-273 (final
    [finalise]).  Simplified: a chunk with the same output keys but another shape
    than the running arrays (only possible for misaligned elementwise operands)
    is not followed. *)
Section AggStream.
  Context (h : handler V) (axis n : nat).
  Definition agg_process (st : nd (hst h)) (d : nd cell) : res (nd (hst h)) :=
    if negb (shape_eqb (nshape st) (remove_at axis (nshape d))) then Err Unmodelled
    else if hbad h (nth axis (nshape d) 0) (prodn (nshape st) =? 0) then Err EvalError
    else Ok (mkND (nshape st) (fun o => hstep h (nget st o) (column d axis o))).
  Definition agg_boot (d : nd cell) : nd (hst h) :=
    mkND (remove_at axis (nshape d)) (fun _ => hboot h).
  Definition agg_finalise (k : list key) (st : nd (hst h)) : chunk :=
    (k, nd_map (hfin h n) st).
  Fixpoint agg_loop (cur : option (list key * nd (hst h))) (cs : list chunk)
    : res (list chunk) :=
    match cs with
    | [] => match cur with
            | Some (k, st) => Ok [agg_finalise k st]
            | None => Err AttrErr
            end
    | (k, d) :: cs' =>
        let k' := remove_at axis k in
        let same := match cur with Some (k0, _) => keys_eqb k' k0 | None => false end in
        let st0 := match cur with
                   | Some (_, st) => if same then st else agg_boot d
                   | None => agg_boot d
                   end in
        st1 <- agg_process st0 d ;;
        r <- agg_loop (Some (k', st1)) cs' ;;
        Ok (match cur with
            | Some (k0, st) => if same then r else agg_finalise k0 st :: r
            | None => r
            end)
    end.
End AggStream.

(** 2929-2933 [_ElementwiseStreamsHandler.process_chunks] over lock-step inputs
    (262-270): stops when any input is finished. *)
Fixpoint zip_stream (f : cell -> cell -> cell) (xs ys : list chunk) : res (list chunk) :=
  match xs, ys with
  | (k, x) :: xs', (_, y) :: ys' =>
      d <- np_op2 f x y ;; r <- zip_stream f xs' ys' ;; Ok ((k, d) :: r)
  | _, _ => Ok []
  end.

Section Engine.
  (** [rz]: realisation of (chunks of) producer arrays. *)
  Variable rz : barr -> res (nd cell).
  Variable m : bool.

  (** 175-204 [ProducerNode.run] *)
  Definition producer (a : barr) (order : list nat) : res (list chunk) :=
    mapM (fun k => b <- getitem a k ;; d <- rz b ;; Ok (k, d))
         (chunk_index_gen maxc (shape a) order).

  (** The chunks emitted by the node of [a] (369-385 [_make_node], 253-278
      [ConsumerNode.run]): arrays with a streams handler (aggregations and
      elementwise operations) stream, every other class is a producer. *)
  Fixpoint stream (a : barr) (order : list nat) : res (list chunk) :=
    match a with
    | AAgg g c axis _ =>
        cs <- stream c (input_order axis order) ;;
        agg_loop (handler_of O m g) axis (nth axis (shape c) 0) None cs
    | AEl1 o c _ =>
        f <- op1_fun m o ;;
        cs <- stream c order ;; Ok (map (fun ch => (fst ch, nd_map f (snd ch))) cs)
    | AEl2 o c1 c2 _ =>
        f <- op2_fun m o ;;
        xs <- stream c1 order ;; ys <- stream c2 order ;; zip_stream f xs ys
    | _ => producer a order
    end.

  (** 302-334 [NdarrayNode] and 387-424 [Group.evaluate] for one array: store
      every chunk into fresh memory. *)
  Definition engine_eval (a : barr) : res (nd cell) :=
    cs <- stream a (seq 0 (ndim a)) ;; np_setitems (mkND (shape a) garbage) cs.
End Engine.

(** 2056-2079: the assignments of [LinearMosaic.ndarray] *)
Definition mosaic_writes (nd_ axis : nat) (lens : list nat) (ds : list (nd cell))
  : list (list key * nd cell) :=
  combine (map (fun on => set_nth axis (sl (fst on) (fst on + snd on)) (repeat KFull nd_))
               (combine (offsets_from 0 lens) lens)) ds.

(** [ndarray()] / [masked_array()].  The fuel bounds the nesting of engine
    evaluations (an engine producer may itself contain computed arrays). *)
Fixpoint realise (fuel : nat) (m : bool) (a : barr) {struct fuel} : res (nd cell) :=
  match fuel with
  | 0 => Err OutOfFuel
  | S f =>
    (fix go (a : barr) : res (nd cell) :=
       match a with
       | AConst sh v _ => Ok (mkND sh (fun _ => Some v))                    (* 1250-1258 *)
       | AAdapt ortho c ks => realise_adapter m ortho c ks                  (* 1473-1491 *)
       | ANewAx c na =>                                                     (* 855-861 *)
           d <- go c ;;
           np_index d (newax_layout KNew (repeat KFull (ndim c)) na)
       | ABcast c dict lead => d <- go c ;; bcast_numpy d dict lead         (* 1105-1118 *)
       | AAsTy c dt => d <- go c ;; Ok (nd_map (lift1 (vcast O dt)) d)      (* 1151-1157 *)
       | AMaskV c v => d <- go c ;; Ok (nd_map (mask_equal m v) d)          (* 1179-1181 *)
       | ATrans c axes => d <- go c ;; Ok (np_transpose d axes)             (* 1707-1715 *)
       | AStack ssh items =>                                                (* 1824-1836 *)
           ds <- mapM go items ;;
           np_setitems (mkND (shape a) garbage)
                       (combine (map (map (fun i => KInt (Z.of_nat i))) (ndindex ssh)) ds)
       | AMosaic tiles axis =>                                              (* 2056-2079 *)
           ds <- mapM go tiles ;;
           np_setitems (mkND (shape a) garbage)
                       (mosaic_writes (ndim a) axis (map (fun t => nth axis (shape t) 0) tiles) ds)
       | AAgg _ _ _ _ => engine_eval (realise f m) m a                      (* 2662-2668 *)
       | AEl1 o c _ =>                                                      (* 3023-3036 *)
           g <- op1_fun m o ;;
           d <- engine_eval (realise f m) m c ;; Ok (nd_map g d)
       | AEl2 o c1 c2 _ =>
           g <- op2_fun m o ;;
           x <- engine_eval (realise f m) m c1 ;;
           y <- engine_eval (realise f m) m c2 ;; np_op2 g x y
       end) a
  end.

(** 2082-2105 [ndarrays]/[masked_arrays] through 426-446: one group, each array
    evaluated, results in request order.  Sharing of nodes between the arrays is
    modelled in Threads.v. *)
Definition ndarrays (fuel : nat) (m : bool) (l : list barr) : res (list (nd cell)) :=
  mapM (engine_eval (realise fuel m) m) l.

(** 2162-2196 [save] of one array into one NumPy-like target. *)
Definition save_writes (fuel : nat) (m : bool) (a : barr) : res (list (list key * nd cell)) :=
  mapM (fun k => b <- getitem a k ;; d <- realise fuel m b ;; Ok (k, d))
       (save_keys maxc (shape a)).
Definition save (fuel : nat) (m : bool) (a : barr) (target : nd cell) : res (nd cell) :=
  ws <- save_writes fuel m a ;; np_setitems target ws.

End Realise.
