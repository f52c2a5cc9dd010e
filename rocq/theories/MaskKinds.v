(** MaskKinds: a second, finer model of evaluation (Realise.v) that also follows
    how a NumPy result carries its mask, and the integer kind of the running
    totals.  Both can make an aggregation fail that Realise.v computes. *)
From Verif Require Import Base PySlice Keys NDArray Arrays Chunks Handlers Realise.

(** What the code meets as [data]: an ndarray or NumPy scalar, which has no [mask]
    attribute; a MaskedArray whose mask is [nomask]; one with a mask array. *)
Inductive mkind := Plain | Bare | Full.
Definition is_full (k : mkind) : bool := match k with Full => true | _ => false end.
(** Kinds of dtypes: np.dtype.kind, as far as += distinguishes them. *)
Inductive dclass := DBool | DUInt | DOther.

Section Kinds.
Context {V : Type} (O : numops V).
Variable maxc : nat.
Variable garbage : list nat -> option V.
Notation cell := (option V).
Notation barr := (@barr V).
Notation chunk := (@chunk V).

(** Facts about NumPy objects that the main model leaves out: [t_bare c], the
    concrete source has no mask array (an ndarray, or a MaskedArray with nomask);
    [t_dom1]/[t_dom2], the numpy.ma function has a domain (sqrt, divide, ...) and
    so always returns a mask array; [t_cls], the class of a dtype. *)
Record traits := mkT { t_bare : @concrete V -> bool; t_dom1 : @op1 V -> bool; t_dom2 : @op2 V -> bool; t_cls : nat -> dclass }.
Variable T : traits.

Definition zero_d {W} (d : nd W) : bool := match nshape d with [] => true | _ => false end.
Definition seen (c : cell) : bool := match c with Some _ => true | None => false end.
Definition kchunk := (chunk * mkind)%type.

(** biggus/_init.py:1484-1491: indexing keeps [nomask]; a 0-dimensional element is
    wrapped again, with a mask only when it is masked. *)
Definition adapt_kind (c : @concrete V) (d : nd cell) : mkind :=
  if t_bare T c then Bare else if zero_d d then (if seen (nget d []) then Bare else Full) else Full.
(** numpy.ma functions (np 1.13, ma/core.py _MaskedUnaryOperation.__call__ and
    the binary ones): a 0-dimensional result is a NumPy scalar or [masked]. *)
Definition el_kind (dom : bool) (ks : list mkind) (d : nd cell) : mkind :=
  if zero_d d then (if seen (nget d []) then Plain else Full)
  else if dom || existsb is_full ks then Full else Bare.
(** 1179-1181 through np.ma.masked_equal, which leaves [nomask] when nothing is
    equal *)
Definition maskv_kind (m : bool) (k : mkind) (d : nd cell) : mkind :=
  if is_full k then Full else if m && existsb (fun i => negb (seen (nget d i))) (ndindex (nshape d)) then Full else Bare.
(** 302-334, 1824-1836, 2056-2079: assignment into ma.empty gives it a mask when
    an assigned value has one *)
Definition store_kind (ks : list mkind) : mkind := if existsb is_full ks then Full else Bare.

(** [process_data] of the handlers 2226-2609 on a chunk of kind [k], source dtype
    [dt]: 2428-2430 [data.mask] and [np.all(data.mask, axis)], where [nomask] is
    0-dimensional and NumPy lets only axis 0 pass; 2411-2431, 2448, 2484-2486
    [running += ...] with same-kind casting from the default integer. *)
Definition process_check (m : bool) (g : @agg V) (axis dt : nat) (k : mkind) : res unit :=
  match g with
  | GSum =>
      if m then match k with
                | Plain => Err AttrErr
                | Bare => if axis =? 0 then match t_cls T dt with DBool => Err TypeError | _ => Ok tt end else Err IndexError
                | Full => match t_cls T dt with DBool => Err TypeError | _ => Ok tt end
                end
      else match t_cls T dt with DBool => Err TypeError | _ => Ok tt end
  | GMean _ =>
      match t_cls T dt with DBool => Err TypeError | DUInt => if m then Err TypeError else Ok tt | DOther => Ok tt end
  | _ => Ok tt
  end.

(** The kind of the last chunk of each run of chunks with the same output keys
    (2275-2293): what min and max return. *)
Fixpoint last_kinds (axis : nat) (cur : option (list key * mkind)) (cs : list kchunk) : list mkind :=
  match cs with
  | [] => match cur with Some (_, k) => [k] | None => [] end
  | ((key, _), k) :: cs' =>
      let key' := remove_at axis key in
      match cur with
      | Some (k0, kk) => if keys_eqb key' k0 then last_kinds axis (Some (key', k)) cs' else kk :: last_kinds axis (Some (key', k)) cs'
      | None => last_kinds axis (Some (key', k)) cs'
      end
  end.
(** [finalise] (2313-2609): counts are ndarrays; min and max have the kind of what
    np.min returned (0-dimensional: wrapped by np.ma.array); sums, means and
    deviations get a mask. *)
Definition out_kind (g : @agg V) (d : nd cell) (k : mkind) : mkind :=
  match g with
  | GCount => Plain
  | GMin | GMax => if zero_d d then (if seen (nget d []) then Bare else Full) else k
  | _ => Full
  end.

Section Engine.
  Variable rz : barr -> res (nd cell * mkind).
  Variable m : bool.
  (** As Realise.producer and Realise.stream *)
  Definition kproducer (a : barr) (order : list nat) : res (list kchunk) :=
    mapM (fun k => b <- getitem a k ;; dk <- rz b ;; Ok ((k, fst dk), snd dk)) (chunk_index_gen maxc (shape a) order).
  Fixpoint kstream (a : barr) (order : list nat) : res (list kchunk) :=
    match a with
    | AAgg g c axis _ =>
        cs <- kstream c (input_order axis order) ;;
        _ <- mapM (fun ch => process_check m g axis (dtype c) (snd ch)) cs ;;
        r <- agg_loop (handler_of O m g) axis (nth axis (shape c) 0) None (map fst cs) ;;
        Ok (map (fun p => (fst p, out_kind g (snd (fst p)) (snd p))) (combine r (last_kinds axis None cs)))
    | AEl1 o c _ =>
        f <- op1_fun m o ;;
        cs <- kstream c order ;;
        Ok (map (fun ch => let d := nd_map f (snd (fst ch)) in ((fst (fst ch), d), el_kind (t_dom1 T o) [snd ch] d)) cs)
    | AEl2 o c1 c2 _ =>
        f <- op2_fun m o ;;
        xs <- kstream c1 order ;; ys <- kstream c2 order ;;
        r <- zip_stream f (map fst xs) (map fst ys) ;;
        Ok (map (fun p => (fst p, el_kind (t_dom2 T o) [fst (snd p); snd (snd p)] (snd (fst p))))
                (combine r (combine (map snd xs) (map snd ys))))
    | _ => kproducer a order
    end.
  (** 387-424: any error in a thread surfaces as Exception('error during
      evaluation') *)
  Definition kengine (a : barr) : res (nd cell * mkind) :=
    match (cs <- kstream a (seq 0 (ndim a)) ;;
           d <- np_setitems (mkND (shape a) garbage) (map fst cs) ;; Ok (d, store_kind (map snd cs)))
    with Ok r => Ok r | Err _ => Err EvalError end.
End Engine.

(** [ndarray()] / [masked_array()] with the kind of the result (meaningless for
    [ndarray()]).  712-726 [ArrayContainer]: an AttributeError of the contained
    array's [masked_array()] is caught, and np.ma.masked_array(self.array) - that
    is, its [ndarray()] - taken instead; [ndarray()] fails again. *)
Fixpoint krealise (fuel : nat) (m : bool) (a : barr) {struct fuel} : res (nd cell * mkind) :=
  match fuel with
  | 0 => Err OutOfFuel
  | S f =>
    (fix go (m : bool) (a : barr) {struct a} : res (nd cell * mkind) :=
       let inner c := match go m c with
                      | Err AttrErr => if m then (r <- go false c ;; Ok (fst r, Bare)) else Err AttrErr
                      | r => r
                      end in
       match a with
       | AConst sh v _ => Ok (mkND sh (fun _ => Some v), Bare)              (* 1260-1263 *)
       | AAdapt ortho c ks =>                                               (* 1484-1491 *)
           d <- realise_adapter O m ortho c ks ;; Ok (d, adapt_kind c d)
       | ANewAx c na =>                                                     (* 859-861 *)
           dk <- inner c ;;
           d <- np_index (fst dk) (newax_layout KNew (repeat KFull (ndim c)) na) ;; Ok (d, snd dk)
       | ABcast c dict lead =>                                              (* 1110-1118 *)
           dk <- inner c ;;
           match m, snd dk with
           | true, Plain => Err AttrErr                                     (* 1112: ma.mask *)
           | _, k => d <- bcast_numpy (fst dk) dict lead ;; Ok (d, k)
           end
       | AAsTy c dt => dk <- inner c ;; Ok (nd_map (lift1 (vcast O dt)) (fst dk), snd dk)
       | AMaskV c v =>
           dk <- inner c ;; let d := nd_map (mask_equal O m v) (fst dk) in Ok (d, maskv_kind m (snd dk) d)
       | ATrans c axes => dk <- inner c ;; Ok (np_transpose (fst dk) axes, snd dk)
       | AStack ssh items =>
           ds <- mapM (go m) items ;;
           d <- np_setitems (mkND (shape a) garbage)
                  (combine (map (map (fun i => KInt (Z.of_nat i))) (ndindex ssh)) (map fst ds)) ;;
           Ok (d, store_kind (map snd ds))
       | AMosaic tiles axis =>
           ds <- mapM (go m) tiles ;;
           d <- np_setitems (mkND (shape a) garbage)
                  (mosaic_writes (ndim a) axis (map (fun t => nth axis (shape t) 0) tiles) (map fst ds)) ;;
           Ok (d, store_kind (map snd ds))
       | AAgg _ _ _ _ => kengine (krealise f m) m a
       | AEl1 o c _ =>
           g <- op1_fun m o ;;
           dk <- kengine (krealise f m) m c ;;
           let d := nd_map g (fst dk) in Ok (d, el_kind (t_dom1 T o) [snd dk] d)
       | AEl2 o c1 c2 _ =>
           g <- op2_fun m o ;;
           x <- kengine (krealise f m) m c1 ;;
           y <- kengine (krealise f m) m c2 ;;
           d <- np_op2 g (fst x) (fst y) ;; Ok (d, el_kind (t_dom2 T o) [snd x; snd y] d)
       end) m a
  end.
End Kinds.
Arguments mkT {V}. Arguments t_bare {V}. Arguments t_dom1 {V}. Arguments t_dom2 {V}. Arguments t_cls {V}.
