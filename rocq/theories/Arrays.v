(** Arrays: the biggus Array classes as a datatype, their constructors' checks,
    [.shape], [.dtype], [.fill_value] and [__getitem__]. *)
From Verif Require Import Base PySlice Keys NDArray.

(** Element arithmetic (NumPy scalars), a parameter of the model.  A dtype is an
    opaque label. *)
Record numops (V : Type) := mkOps {
  v0 : V; vadd : V -> V -> V;
  vsum : list V -> V;         (* np.sum of the values, in NumPy's own order *)
  vsub : V -> V -> V; vmul : V -> V -> V;
  vdiv : V -> V -> V; vofn : nat -> V; vsqrt : V -> V;
  vmin : V -> V -> V; vmax : V -> V -> V;
  veqb : V -> V -> bool; vltb : V -> V -> bool;
  vcast : nat -> V -> V;      (* astype(dtype) *)
  vdfill : nat -> V;          (* default fill_value of a dtype *)
  dt_float : nat -> nat;      (* dtype of (x / 1.) *)
  dt_int : nat                (* np.dtype('i') *)
}.
Arguments v0 {V}. Arguments vadd {V}. Arguments vsum {V}. Arguments vsub {V}. Arguments vmul {V}.
Arguments vdiv {V}. Arguments vofn {V}. Arguments vsqrt {V}. Arguments vmin {V}.
Arguments vmax {V}. Arguments veqb {V}. Arguments vltb {V}. Arguments vcast {V}.
Arguments vdfill {V}. Arguments dt_float {V}. Arguments dt_int {V}.

Section Arrays.
Context {V : Type} (O : numops V).

(** An array cell: [None] is a masked element. *)
Definition cell := option V.

(** A concrete data source (/repo/biggus/_init.py:1314-1317): a NumPy array,
    masked array or orthogonally indexable variable.  [c_fill = None] when the
    source has no fill_value attribute.  Simplified: the data hidden under a
    mask is not represented. *)
Record concrete := mkC {
  c_shape : list nat; c_cell : list nat -> cell; c_fill : option V; c_dtype : nat
}.

(** The aggregations (/repo/biggus/_init.py:2304-2609 and 2699-2916). *)
Inductive agg := GCount | GMin | GMax | GSum | GMean (mdtol : V) | GStd (ddof : V) | GVar (ddof : V).

(** Elementwise operations (/repo/biggus/_init.py:2936-2996): the NumPy function,
    its numpy.ma equivalent if any, and the dtype NumPy gives the result.
    [o2_dtpy d f]: dtype for a Python scalar (f: it is a float) as second
    operand. *)
Record op1 := mkOp1 { o1_np : V -> V; o1_ma : option (cell -> cell); o1_dt : nat -> nat }.
Record op2 := mkOp2 { o2_np : V -> V -> V; o2_ma : option (cell -> cell -> cell);
                      o2_dt : nat -> nat -> nat; o2_dtpy : nat -> bool -> nat }.

(** The Array classes.
    - [AConst sh v d]: ConstantArray (1206-1263)
    - [AAdapt ortho c keys]: OrthoArrayAdapter / NumpyArrayAdapter (1308-1574)
    - [ANewAx a na]: NewAxesArray (729-861)
    - [ABcast a dict lead]: BroadcastArray (864-1118)
    - [AAsTy a d]: AsDataTypeArray (1121-1157)
    - [AMaskV a v]: MaskValueArray (1160-1181)
    - [ATrans a axes]: TransposedArray (1609-1715)
    - [AStack ssh items]: ArrayStack (1718-1836), items in C order
    - [AMosaic tiles axis]: LinearMosaic (1911-2079)
    - [AAgg g a axis d]: _Aggregation (2622-2676)
    - [AEl1]/[AEl2]: _Elementwise (2936-3049) with one / two operands *)
Inductive barr :=
| AConst (sh : list nat) (v : V) (d : nat)
| AAdapt (ortho : bool) (c : concrete) (ks : list key)
| ANewAx (a : barr) (na : list nat)
| ABcast (a : barr) (dict : list (nat * nat)) (lead : list nat)
| AAsTy (a : barr) (d : nat)
| AMaskV (a : barr) (v : V)
| ATrans (a : barr) (axes : list nat)
| AStack (ssh : list nat) (items : list barr)
| AMosaic (tiles : list barr) (axis : nat)
| AAgg (g : agg) (a : barr) (axis : nat) (d : nat)
| AEl1 (o : op1) (a : barr) (d : nat)
| AEl2 (o : op2) (a b : barr) (d : nat).

(** ** Shapes *)

(** 764-788 [NewAxesArray.shape], [_newaxis_keys], [_is_newaxis]: [na_i] copies
    of [one] before item [i] of [base].  The code inserts from the highest axis
    down, so that insertions do not disturb lower positions. *)
Fixpoint newax_layout {A} (one : A) (base : list A) (na : list nat) : list A :=
  match na with
  | [] => base
  | n :: na' => repeat one n ++ match base with
                                | [] => []
                                | b :: base' => b :: newax_layout one base' na'
                                end
  end.

(** 1075-1090 [_shape_from_broadcast_dict] *)
Definition shape_from_dict (sh : list nat) (dict : list (nat * nat)) : res (list nat) :=
  foldM (fun sh al =>
           let '(axis, len) := al in
           if length sh <=? axis then Err ValueError
           else if nth axis sh 0 =? 1 then Ok (set_nth axis len sh) else Err ValueError)
        sh dict.

Definition get_ok {A} (d : A) (r : res A) : A := match r with Ok a => a | Err _ => d end.

(** 1669-1671 with 1635-1667 [TransposedArray.shape] = [_apply_axes_mapping]
    forwards: result[forward_map[axis]] = shape[axis], where forward_map sends
    axes[dest] to dest. *)
Definition forward_axes (axes : list nat) : list nat :=
  map (fun ax => match index_of ax axes with Some d => d | None => 0 end) (seq 0 (length axes)).
Definition apply_forward {A} (d : A) (axes : list nat) (target : list A) : list A :=
  scatter (forward_axes axes) target (repeat d (length axes)).
(** inverse=True: result[axes[axis]] = item *)
Definition apply_inverse {A} (d : A) (axes : list nat) (target : list A) : list A :=
  scatter axes target (repeat d (length axes)).

(** The [shape] property of each class.  Total: error cases cannot occur on
    arrays accepted by the constructors. *)
Fixpoint shape (a : barr) : list nat :=
  match a with
  | AConst sh _ _ => sh                                                 (* 1240-1242 *)
  | AAdapt _ c ks => get_ok [] (sliced_shape (c_shape c) ks)            (* 1339-1341 *)
  | ANewAx a na => newax_layout 1 (shape a) na                          (* 763-771 *)
  | ABcast a dict lead => lead ++ get_ok [] (shape_from_dict (shape a) dict) (* 897-905 *)
  | AAsTy a _ | AMaskV a _ => shape a                                   (* 699-701 *)
  | ATrans a axes => apply_forward 0 axes (shape a)                     (* 1666-1668 *)
  | AStack ssh items => ssh ++ match items with [] => [] | it :: _ => shape it end (* 1795-1797 *)
  | AMosaic tiles axis =>                                               (* 1966-1974 *)
      match tiles with
      | [] => []
      | t :: ts => set_nth axis (fold_left Nat.add (map (fun t => nth axis (shape t) 0) ts)
                                           (nth axis (shape t) 0)) (shape t)
      end
  | AAgg _ a axis _ => remove_at axis (shape a)                         (* 2637-2641 *)
  | AEl1 _ a _ => shape a                                               (* 3002-3004 *)
  | AEl2 _ a _ _ => shape a
  end.

Definition ndim (a : barr) : nat := length (shape a).

(** The [dtype] property of each class. *)
Fixpoint dtype (a : barr) : nat :=
  match a with
  | AConst _ _ d | AAsTy _ d | AAgg _ _ _ d | AEl1 _ _ d | AEl2 _ _ _ d => d
  | AAdapt _ c _ => c_dtype c
  | ANewAx a _ | ABcast a _ _ | AMaskV a _ | ATrans a _ => dtype a
  | AStack _ items => match items with [] => 0 | it :: _ => dtype it end
  | AMosaic tiles _ => match tiles with [] => 0 | t :: _ => dtype t end
  end.

(** Lines 1735-1749 with 1757-1762 (ArrayStack) and 1926-1957 (LinearMosaic): the
    first part's fill value is kept while every further one agrees, and becomes
    None for good at the first that does not; the default of the dtype replaces
    None.  [veqb] stands for "equal, or both NaN". *)
Definition fill_loop (first : V) (others : list V) : option V :=
  fold_left (fun acc f => match acc with
                          | Some v => if veqb O f v then Some v else None
                          | None => None
                          end) others (Some first).
Definition common_fill (d : nat) (first : V) (others : list V) : V :=
  match fill_loop first others with Some v => v | None => vdfill O d end.

(** The [fill_value] property (473-476, 1333-1337, 1791-1793, 1963-1965). *)
Fixpoint fillv (a : barr) : V :=
  match a with
  | AAdapt _ c _ => match c_fill c with Some v => v | None => vdfill O (c_dtype c) end
  | AStack _ items => match items with
                      | [] => v0 O
                      | it :: _ => common_fill (dtype it) (fillv it) (map fillv items)
                      end
  | AMosaic tiles _ => match tiles with
                       | [] => v0 O
                       | t :: ts => common_fill (dtype t) (fillv t) (map fillv ts)
                       end
  | a => vdfill O (dtype a)
  end.

(** ** Constructors *)

(** 745-757 [NewAxesArray.__init__] *)
Definition mk_newax (a : barr) (na : list nat) : res barr :=
  if ndim a + 1 =? length na then Ok (ANewAx a na) else Err ValueError.

Definition dict_find (x : nat) (d : list (nat * nat)) : option nat :=
  match find (fun p => fst p =? x) d with Some p => Some (snd p) | None => None end.
(** [d.update(e)] on dictionaries with integer keys *)
Definition dict_set (d : list (nat * nat)) (p : nat * nat) : list (nat * nat) :=
  if existsb (fun q => fst q =? fst p) d
  then map (fun q => if fst q =? fst p then p else q) d
  else d ++ [p].
Definition dict_update (d e : list (nat * nat)) : list (nat * nat) := fold_left dict_set e d.

(** 884-905 [BroadcastArray.__init__]: an existing BroadcastArray is merged.
    Simplified: broadcast lengths are naturals (line 1083's check for negative
    lengths cannot fire). *)
Definition mk_bcast (a : barr) (dict : list (nat * nat)) (lead : list nat) : res barr :=
  let '(a, dict, lead) :=
    match a with
    | ABcast a0 d0 l0 => (a0, dict_update d0 dict, lead ++ l0)
    | _ => (a, dict, lead)
    end in
  _ <- shape_from_dict (shape a) dict ;;
  if existsb (fun n => n <? 1) lead then Err ValueError else Ok (ABcast a dict lead).

(** 1610-1632 [TransposedArray.__init__].  Simplified: axes are non-negative. *)
Definition mk_trans (a : barr) (axes : option (list nat)) : res barr :=
  match axes with
  | None => Ok (ATrans a (rev (seq 0 (ndim a))))
  | Some axes => if length axes =? ndim a then Ok (ATrans a axes) else Err ValueError
  end.

(** 1730-1762 [ArrayStack.__init__]; [stack.flat[0]] fails on an empty stack. *)
Definition mk_stack (ssh : list nat) (items : list barr) : res barr :=
  match items with
  | [] => Err IndexError
  | it :: _ =>
    if forallb (fun x => shape_eqb (shape x) (shape it) && (dtype x =? dtype it)) items
    then Ok (AStack ssh items) else Err ValueError
  end.

(** 1913-1957 [LinearMosaic.__init__] *)
Definition mk_mosaic (tiles : list barr) (axis : Z) : res barr :=
  match tiles with
  | [] => Err IndexError
  | t :: ts =>
    if negb ((0 <=? axis) && (axis <? Z.of_nat (ndim t)))%Z then Err ValueError else
    let ax := Z.to_nat axis in
    let common := remove_at ax (shape t) in
    _ <- mapM (fun x =>
                 if ndim x <=? ax then Err IndexError      (* del shape[axis] *)
                 else if negb (shape_eqb (remove_at ax (shape x)) common) then Err ValueError
                 else if negb (dtype x =? dtype t) then Err ValueError
                 else Ok tt) ts ;;
    Ok (AMosaic tiles ax)
  end.

(** 1314-1326 [_ArrayAdapter.__init__] with 1347-1380 [_cleanup_new_key]. *)
Definition cleanup_key (k : key) (n : nat) : res key :=
  let z := Z.of_nat n in
  match k with
  | KInt i => if ((z <=? i) || (i <? - z))%Z then Err IndexError else Ok k
  | KSlice _ => Ok k
  | KMask m => if n <? length m then Err IndexError else Ok k
  | KTuple l | KArr l | KList l =>
      if existsb (fun i => (z <=? i) || (i <? - z))%Z l then Err IndexError else Ok (KTuple l)
  | _ => Err TypeError
  end.

Definition mk_adapter (ortho : bool) (c : concrete) (ks : list key) : res barr :=
  if length (c_shape c) <? length ks then Err AssertErr else
  _ <- mapM (fun kn => cleanup_key (fst kn) (snd kn)) (combine ks (c_shape c)) ;;
  Ok (AAdapt ortho c ks).

(** ** Broadcasting of operands *)

(** 990-1025 [_compute_broadcast_shape] *)
Definition pad_ones (n : nat) (sh : list nat) : list nat := repeat 1 n ++ sh.
Definition compute_bshape (s1 s2 : list nat) : res (list nat) :=
  let p2 := pad_ones (length s1 - length s2) s2 in
  let p1 := pad_ones (length s2 - length s1) s1 in
  mapM (fun xy => let '(x, y) := xy in
                  if x =? y then Ok x else if x =? 1 then Ok y
                  else if y =? 1 then Ok x else Err ValueError) (combine p1 p2).

(** 1062-1072: the dictionary of axes whose length changes. *)
Definition bdict (full sh : list nat) : list (nat * nat) :=
  flat_map (fun t => let '(ax, (f, s)) := t in if f =? s then [] else [(ax, f)])
           (combine (seq 0 (length sh)) (combine full sh)).

(** 1027-1073 [_compute_broadcast_kwargs] and 966-988 [broadcast_arrays] *)
Definition broadcast_one (a : barr) (full : list nat) (off : nat) : res barr :=
  let lead := firstn off full in
  let dict := bdict (skipn off full) (shape a) in
  match lead, dict with
  | [], [] => Ok a
  | _, _ => mk_bcast a dict lead
  end.

Definition broadcast_arrays (a b : barr) : res (barr * barr) :=
  full <- compute_bshape (shape a) (shape b) ;;
  a' <- broadcast_one a full (ndim b - ndim a) ;;
  b' <- broadcast_one b full (ndim a - ndim b) ;;
  Ok (a', b').

(** 2945-2996 [_Elementwise.__init__] with two operands.  [py]: the second
    operand was a Python scalar ([Some true]: a float). *)
Definition mk_el2 (o : op2) (a b : barr) (py : option bool) : res barr :=
  ab <- broadcast_arrays a b ;;
  let '(a', b') := ab in
  let d := match py with
           | Some isf => o2_dtpy o (dtype a') isf
           | None => o2_dt o (dtype a') (dtype b')
           end in
  Ok (AEl2 o a' b' d).

(** the same with one operand (2955-2966) *)
Definition mk_el1 (o : op1) (a : barr) : barr := AEl1 o a (o1_dt o (dtype a)).

(** 500-502 [Array.astype] and 1142-1143 [AsDataTypeArray.astype] *)
Definition astype (a : barr) (d : nat) : barr :=
  match a with AAsTy c _ => AAsTy c d | _ => AAsTy a d end.

(** 1184-1204 [masked_equal] *)
Definition masked_equal (a : barr) (v : V) : barr := AMaskV a v.

(** ** Indexing *)

(** 790-853: the loop of [NewAxesArray.__getitem__].  State: counts of new axes,
    axes to combine (most recent first), [is_newaxis], keys for the contained
    array, [existing_array_axis], the broadcast dictionary. *)
Fixpoint newax_loop (keys : list key) (ki : nat) (na : list nat) (comb : list nat)
         (isnew : list bool) (ckeys : list key) (eaa : nat) (bd : list (nat * nat))
  : res (list nat * list nat * list key * list (nat * nat)) :=
  match keys with
  | [] => Ok (na, comb, ckeys, bd)
  | KNew :: ks =>
      newax_loop ks (S ki) (set_nth eaa (S (nth eaa na 0)) na) comb isnew ckeys eaa bd
  | k :: ks =>
      match isnew with
      | [] => Err IndexError                                   (* pop from empty list *)
      | true :: isnew' =>
          match k with
          | KInt i => if ((-1 <=? i) && (i <? 1))%Z
                      then newax_loop ks (S ki) (set_nth eaa (pred (nth eaa na 0)) na)
                                      comb isnew' ckeys eaa bd
                      else Err IndexError
          | KSlice s => l <- slice_idx s 1 ;;
                        newax_loop ks (S ki) na comb isnew' ckeys eaa
                                   (if length l =? 1 then bd else bd ++ [(ki, length l)])
          | KTuple l => if existsb (fun i => negb ((-1 <=? i) && (i <? 1))%Z) l
                        then Err IndexError
                        else newax_loop ks (S ki) na comb isnew' ckeys eaa
                                        (bd ++ [(ki, length l)])
          | _ => Err NotImplementedErr
          end
      | false :: isnew' =>
          newax_loop ks (S ki) na (if is_scalar k then eaa :: comb else comb) isnew'
                     (ckeys ++ [k]) (S eaa) bd
      end
  end.

(** 846-848: [new_axes[axis] += new_axes.pop(axis + 1)], highest axis first. *)
Definition combine_axes (na : list nat) (comb_desc : list nat) : list nat :=
  fold_left (fun na axis => remove_at (S axis)
                              (set_nth axis (nth axis na 0 + nth (S axis) na 0) na))
            comb_desc na.

(** 790-853 [NewAxesArray.__getitem__] over a contained array with [nd]
    dimensions that is indexed by [child]. *)
Definition newax_getitem (child : list key -> res barr) (nd : nat) (na : list nat)
           (keys : list key) : res barr :=
  ks <- full_keys keys (nd + fold_right Nat.add 0 na) ;;
  t <- newax_loop ks 0 na [] (newax_layout true (repeat false nd) na) [] 0 [] ;;
  let '(na', comb, ckeys, bd) := t in
  a <- child ckeys ;;
  r <- mk_newax a (combine_axes na' comb) ;;
  match bd with [] => Ok r | _ => mk_bcast r bd [] end.

(** 508-520 [Array.__getitem__] in terms of the class's [_getitem_full_keys].
    In the newaxis branch the fresh NewAxesArray indexes the array itself with
    the remaining keys, which hold no newaxis. *)
Definition base_getitem (gfk : list key -> res barr) (nd : nat) (keys : list key) : res barr :=
  ks <- full_keys keys nd ;;
  if existsb is_new ks then
    newax_getitem (fun ks' => ks'' <- full_keys ks' nd ;;
                              if existsb is_new ks'' then Err Unmodelled else gfk ks'')
                  nd (repeat 0 (nd + 1)) ks
  else gfk ks.

(** Python's [key == slice(None)] in a boolean context (line 960): comparing an
    ndarray of two or more elements is an ambiguous truth value. *)
Definition key_is_full (k : key) : res bool :=
  match k with
  | KSlice s => Ok (slice_eqb s full_slice)
  | KArr l => if 1 <? length l then Err ValueError else Ok false
  | KMask l => if 1 <? length l then Err ValueError else Ok false
  | _ => Ok false
  end.
(** [all(key == slice(None) for key in keys)] with short circuit *)
Fixpoint all_full (ks : list key) : res bool :=
  match ks with
  | [] => Ok true
  | k :: ks' => b <- key_is_full k ;; if b then all_full ks' else Ok false
  end.

(** 933-958: the loop of [BroadcastArray._getitem_full_keys]; [ax] is the axis
    of the contained array, [sh] the broadcast sizes from there on. *)
Fixpoint bcast_loop (dict : list (nat * nat)) (keys : list key) (sh : list nat)
         (ax removed : nat) : res (list key * list (nat * nat)) :=
  match keys with
  | [] => Ok ([], [])
  | k :: ks =>
    match dict_find ax dict with
    | None =>
        r <- bcast_loop dict ks (tl sh) (S ax) (if is_scalar k then S removed else removed) ;;
        Ok (k :: fst r, snd r)
    | Some _ =>
        let n := hd 0 sh in
        match k with
        | KSlice s =>
            l <- slice_idx s n ;;
            r <- bcast_loop dict ks (tl sh) (S ax) removed ;;
            Ok (KFull :: fst r, (ax - removed, length l) :: snd r)
        | KInt i =>
            if ((- Z.of_nat n <=? i) && (i <? Z.of_nat n))%Z then
              r <- bcast_loop dict ks (tl sh) (S ax) (S removed) ;;
              Ok (KInt 0 :: fst r, snd r)
            else Err IndexError
        | _ => Err NotImplementedErr
        end
    end
  end.

(** 1645-1700: axes of the result after the scalar axes are removed, highest
    first. *)
Definition drop_axis (order : list nat) (s : nat) : list nat :=
  map (fun ax => if s <=? ax then ax - 1 else ax) (filter (fun ax => negb (ax =? s)) order).
Definition scalar_positions (ks : list key) : list nat :=
  filter (fun i => is_scalar (nth i ks KBad)) (seq 0 (length ks)).
Definition new_order (order : list nat) (ks : list key) : list nat :=
  fold_left drop_axis (rev (scalar_positions ks)) order.

(** 1976-1988: drop trailing [slice(None)] keys. *)
Definition key_full_b (k : key) : bool :=
  match k with KSlice s => slice_eqb s full_slice | _ => false end.
Fixpoint trim_keys (ks : list key) : list key :=
  match ks with
  | [] => []
  | k :: ks' => match trim_keys ks' with
                | [] => if key_full_b k then [] else [k]
                | t => k :: t
                end
  end.

(** 1997-1999: [offsets = np.cumsum([0] + axis_lengths[:-1])] *)
Fixpoint offsets_from (o : nat) (lens : list nat) : list nat :=
  match lens with [] => [] | n :: ls => o :: offsets_from (o + n) ls end.

(** 2003, 2022: [np.searchsorted(splits, i) - 1] with [splits = offsets - 1]
    (non-decreasing): the number of splits below [i], minus one.  The result
    indexes Python-style, so -1 designates the last tile. *)
Definition tile_of (offs : list nat) (i : Z) : Z :=
  (Z.of_nat (count_if (fun o => Z.of_nat o - 1 <? i)%Z offs) - 1)%Z.
Definition py_nth {A} (d : A) (l : list A) (i : Z) : A :=
  if (i <? 0)%Z then nth (Z.to_nat (Z.of_nat (length l) + i)) l d else nth (Z.to_nat i) l d.

(** 2023-2024: [itertools.groupby] on consecutive equal tile numbers. *)
Fixpoint group_runs (l : list (Z * Z)) : list (Z * list Z) :=
  match l with
  | [] => []
  | (i, t) :: l' => match group_runs l' with
                    | (t', is) :: r => if (t =? t')%Z then (t, i :: is) :: r
                                       else (t, [i]) :: (t', is) :: r
                    | [] => [(t, [i])]
                    end
  end.

(** 2027-2043: the key for one tile. *)
Definition tile_key (off : nat) (is : list Z) : key :=
  match is with
  | [i] => KSlice (mkS (Some (i - Z.of_nat off)%Z) (Some (i - Z.of_nat off + 1)%Z) (Some 1%Z))
  | _ => KArr (map (fun i => i - Z.of_nat off)%Z is)
  end.

(** What [LinearMosaic._getitem_full_keys] decides from the tile lengths along
    the axis and the (trimmed) keys: pass the keys to every tile; index one
    tile; or index a list of tiles and join them along a new axis. *)
Inductive mplan :=
| PAll (keys : list key) (axis : nat)
| POne (tile : nat) (keys : list key)
| PMany (parts : list (nat * list key)) (axis : nat).

Definition tile_num (ntiles : nat) (t : Z) : nat :=
  Z.to_nat (if (t <? 0)%Z then Z.of_nat ntiles + t else t)%Z.

(** 1976-2054 [LinearMosaic._getitem_full_keys] *)
Definition mosaic_plan (lens : list nat) (axis : nat) (full : list key) : res mplan :=
  let keys := trim_keys full in
  if length keys <=? axis then Ok (PAll keys (axis - count_if is_scalar keys)) else
  let offs := offsets_from 0 lens in
  let new_axis := axis - count_if is_scalar (firstn axis keys) in
  let many (idx : list Z) (neg : bool) :=
    let groups := group_runs (map (fun i => (i, tile_of offs i)) idx) in
    let parts := map (fun g => let '(t, is) := g in
                               (tile_num (length lens) t,
                                set_nth axis (tile_key (py_nth 0 offs t) is) keys)) groups in
    Ok (PMany (if neg then rev parts else parts) new_axis) in
  match nth axis keys KBad with
  | KInt i => let t := tile_of offs i in
              Ok (POne (tile_num (length lens) t)
                       (set_nth axis (KInt (i - Z.of_nat (py_nth 0%nat offs t))%Z) keys))
  | KSlice s => l <- slice_idx s (fold_right Nat.add 0 lens) ;;
                many l (match s_step s with Some st => (st <? 0)%Z | None => false end)
  | KTuple l | KArr l | KList l => many l false
  | KMask [] => many [] false
  | KMask _ => Err TypeError     (* in-place subtraction from a boolean array *)
  | _ => Err TypeError
  end.

(** 1382-1421 [_remap_new_key] on an explicit list of positions. *)
Definition remap_key (ind : list Z) (k : key) : res key :=
  let n := length ind in
  let z := Z.of_nat n in
  let at_ (i : Z) := nth (Z.to_nat (if (i <? 0)%Z then i + z else i)) ind 0%Z in
  match k with
  | KInt i => if ((z <=? i) || (i <? - z))%Z then Err IndexError else Ok (KInt (at_ i))
  | KSlice s => l <- slice_idx s n ;; Ok (KTuple (map at_ l))
  | KMask m => if n <? length m then Err IndexError
               else if length m =? n
                    then Ok (KTuple (map (fun i => nth i ind 0%Z) (mask_nonzero m)))
                    else Err IndexError
  | KTuple l | KArr l | KList l =>
      if existsb (fun i => (z <=? i) || (i <? - z))%Z l then Err IndexError
      else Ok (KTuple (map at_ l))
  | _ => Err TypeError
  end.

(** Indexing a stored boolean mask as if it were a list of positions: the
    fall-through branch at 1446-1448 when the stored key is a boolean array.
    A slice slices the mask; an integer yields a NumPy boolean (a key that
    [_cleanup_new_key] rejects); a tuple yields a tuple of booleans, which NumPy
    reads as a mask. *)
Definition remap_mask (m : list bool) (k : key) : res key :=
  let n := length m in
  let z := Z.of_nat n in
  let at_ (i : Z) := nth (Z.to_nat (if (i <? 0)%Z then i + z else i)) m false in
  match k with
  | KInt i => if ((z <=? i) || (i <? - z))%Z then Err IndexError else Err TypeError
  | KSlice s => l <- slice_idx s n ;; Ok (KMask (map at_ l))
  | _ => Err Unmodelled
  end.

(** 1423-1467 [_ArrayAdapter._getitem_full_keys]: combine stored keys with new
    ones along the concrete shape.  Slicing a slice gives the tuple of the
    selected positions ([indices] is a tuple). *)
Fixpoint remap_keys (sh : list nat) (src new : list key) {struct src} : res (list key) :=
  match src with
  | [] => mapM (fun kn => cleanup_key (fst kn) (snd kn)) (combine new sh)
  | s :: src' =>
    match new with
    | [] => Ok src
    | k :: new' =>
      match sh with
      | [] => Err IndexError
      | n :: sh' =>
        match s with
        | KInt _ => r <- remap_keys sh' src' new ;; Ok (s :: r)
        | KSlice sl => ind <- slice_idx sl n ;; k' <- remap_key ind k ;;
                       r <- remap_keys sh' src' new' ;; Ok (k' :: r)
        | KTuple l | KArr l | KList l => k' <- remap_key l k ;;
                       r <- remap_keys sh' src' new' ;; Ok (k' :: r)
        | KMask m => k' <- remap_mask m k ;;
                     r <- remap_keys sh' src' new' ;; Ok (k' :: r)
        | _ => Err TypeError
        end
      end
    end
  end.

(** [a.__getitem__(keys)] for every class. *)
Fixpoint getitem (a : barr) (keys : list key) {struct a} : res barr :=
  match a with
  | AConst sh v d =>                                                    (* 1244-1248 *)
      sh' <- sliced_shape sh keys ;; Ok (AConst sh' v d)
  | AAdapt o c ks =>                                                    (* 508-520, 1423-1467 *)
      base_getitem (fun fks => ks' <- remap_keys (c_shape c) ks fks ;; mk_adapter o c ks')
                   (ndim a) keys
  | ANewAx c na => newax_getitem (getitem c) (ndim c) na keys           (* 790-853 *)
  | ABcast c dict lead =>                                               (* 915-964 *)
      base_getitem
        (fun fks =>
           lead' <- sliced_shape lead (firstn (length lead) fks) ;;
           r <- bcast_loop dict (skipn (length lead) fks)
                           (skipn (length lead) (shape a)) 0 0 ;;
           b <- all_full (fst r) ;;
           sub <- (if b then Ok c else getitem c (fst r)) ;;
           mk_bcast sub (snd r) lead')
        (ndim a) keys
  | AAsTy c d => c' <- getitem c keys ;; Ok (AAsTy c' d)                (* 1145-1149 *)
  | AMaskV c v => c' <- getitem c keys ;; Ok (AMaskV c' v)              (* 1175-1177 *)
  | ATrans c axes =>                                                    (* 1674-1705 *)
      base_getitem
        (fun fks =>
           let rk := apply_inverse KBad axes fks in
           c' <- getitem c rk ;; mk_trans c' (Some (new_order axes rk)))
        (ndim a) keys
  | AStack ssh items =>                                                 (* 1799-1815 *)
      base_getitem
        (fun fks =>
           let sk := firstn (length ssh) fks in
           let ik := skipn (length ssh) fks in
           let gets := map (fun it => getitem it) items in
           ssh' <- sliced_shape ssh sk ;;
           st <- np_index (mkND ssh (ravel ssh)) sk ;;
           match ssh' with
           | [] => (nth (nget st []) gets (fun _ => Err IndexError)) ik
           | _ => if shape_eqb (nshape st) ssh' then
                    its <- mapM (fun idx => (nth (nget st idx) gets (fun _ => Err IndexError)) ik)
                                (ndindex ssh') ;;
                    mk_stack ssh' its
                  else Err IndexError
           end)
        (ndim a) keys
  | AMosaic tiles axis =>                                               (* 1976-2054 *)
      base_getitem
        (fun fks =>
           let gets := map (fun t => getitem t) tiles in
           p <- mosaic_plan (map (fun t => nth axis (shape t) 0) tiles) axis fks ;;
           match p with
           | PAll ks ax => ts <- mapM (fun g => g ks) gets ;; mk_mosaic ts (Z.of_nat ax)
           | POne t ks => (nth t gets (fun _ => Err IndexError)) ks
           | PMany parts ax =>
               ts <- mapM (fun p => (nth (fst p) gets (fun _ => Err IndexError)) (snd p)) parts ;;
               mk_mosaic ts (Z.of_nat ax)
           end)
        (ndim a) keys
  | AAgg g c axis d =>                                                  (* 2647-2660 *)
      base_getitem
        (fun fks =>
           let ks := insert_at axis KFull fks in
           c' <- getitem c ks ;;
           Ok (AAgg g c' (axis - count_if is_scalar (firstn axis ks)) d))
        (ndim a) keys
  | AEl1 o c d =>                                                       (* 3014-3021 *)
      base_getitem (fun fks => c' <- getitem c fks ;; Ok (mk_el1 o c')) (ndim a) keys
  | AEl2 o c1 c2 d =>
      base_getitem (fun fks => c1' <- getitem c1 fks ;; c2' <- getitem c2 fks ;;
                               mk_el2 o c1' c2' None) (ndim a) keys
  end.

End Arrays.
