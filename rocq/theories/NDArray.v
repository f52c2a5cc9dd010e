(** NDArray: n-dimensional arrays and the NumPy primitives the code calls.
    NumPy is external to /repo: these executable definitions are the trusted
    model of its documented behaviour (NumPy 1.13 - 1.18, versions that
    accept the code's [data[list_of_slices]]). *)
From Verif Require Import Base PySlice Keys.

(** An array: its shape and its content at each multi-index; content outside
    the shape is meaningless. *)
Record nd (W : Type) := mkND { nshape : list nat; nget : list nat -> W }.
Arguments mkND {W}.
Arguments nshape {W}.
Arguments nget {W}.

(** [idx] is a valid multi-index of shape [sh]. *)
Definition inb (sh idx : list nat) : Prop := Forall2 lt idx sh.

(** Equality of arrays: same shape, same content at every valid index. *)
Definition nd_eq {W} (a b : nd W) : Prop :=
  nshape a = nshape b /\ forall idx, inb (nshape a) idx -> nget a idx = nget b idx.

Definition nd_map {W X} (f : W -> X) (a : nd W) : nd X :=
  mkND (nshape a) (fun i => f (nget a i)).

(** np.ndindex: all multi-indices in C order. *)
Fixpoint ndindex (sh : list nat) : list (list nat) :=
  match sh with
  | [] => [[]]
  | n :: sh' => flat_map (fun i => map (cons i) (ndindex sh')) (seq 0 n)
  end.

(** C-order flat position of a multi-index. *)
Fixpoint ravel (sh idx : list nat) : nat :=
  match sh, idx with
  | _ :: sh', i :: idx' => i * prodn sh' + ravel sh' idx'
  | _, _ => 0
  end.

(** *** Per-dimension selections *)

(** What one key selects: a single position (the dimension disappears), a list
    of positions, or a new axis of length one. *)
Inductive dsel := DPt (i : nat) | DLs (l : list nat) | DNew.

(** Shape of, and index map into, the orthogonal (outer) selection. *)
Fixpoint sel_shape (s : list dsel) : list nat :=
  match s with
  | [] => []
  | DPt _ :: s' => sel_shape s'
  | DLs l :: s' => length l :: sel_shape s'
  | DNew :: s' => 1 :: sel_shape s'
  end.

Fixpoint sel_map (s : list dsel) (o : list nat) : list nat :=
  match s with
  | [] => []
  | DPt i :: s' => i :: sel_map s' o
  | DLs l :: s' => match o with [] => [] | j :: o' => nth j l 0 :: sel_map s' o' end
  | DNew :: s' => match o with [] => [] | _ :: o' => sel_map s' o' end
  end.

Definition nd_sel {W} (a : nd W) (s : list dsel) : nd W :=
  mkND (sel_shape s) (fun o => nget a (sel_map s o)).

(** Python index normalisation on a dimension of length n. *)
Definition norm_int (i : Z) (n : nat) : option nat :=
  let z := Z.of_nat n in
  if ((- z <=? i) && (i <? z))%Z
  then Some (Z.to_nat (if (i <? 0)%Z then i + z else i)) else None.

Fixpoint norm_ints (l : list Z) (n : nat) : option (list nat) :=
  match l with
  | [] => Some []
  | i :: l' => match norm_int i n, norm_ints l' n with
               | Some j, Some r => Some (j :: r)
               | _, _ => None
               end
  end.

(** Positions of the True entries of a boolean mask. *)
Fixpoint mask_nonzero_from (i : nat) (m : list bool) : list nat :=
  match m with
  | [] => []
  | b :: m' => if b then i :: mask_nonzero_from (S i) m' else mask_nonzero_from (S i) m'
  end.
Definition mask_nonzero := mask_nonzero_from 0.

(** NumPy key expansion for a tuple of keys: at most one Ellipsis, replaced by
    full slices; missing trailing keys are full slices. *)
Definition n_real (keys : list key) : nat :=
  count_if (fun k => negb (is_new k) && negb (is_ell k)) keys.

Fixpoint expand_at_ell (fill : list key) (keys : list key) : list key :=
  match keys with
  | [] => []
  | k :: ks => if is_ell k then fill ++ ks else k :: expand_at_ell fill ks
  end.

Definition np_expand (keys : list key) (ndim : nat) : res (list key) :=
  if 1 <? count_if is_ell keys then Err IndexError else
  if ndim <? n_real keys then Err IndexError else
  let fill := repeat KFull (ndim - n_real keys) in
  Ok (if existsb is_ell keys then expand_at_ell fill keys else keys ++ fill).

(** *** ndarray.__getitem__ *)

(** One NumPy index item applied to one dimension. *)
Inductive isel := IPt (i : nat) | IAdv (l : list nat) | ISl (l : list nat) | INew.

Definition np_isel (k : key) (n : nat) : res isel :=
  match k with
  | KInt i => match norm_int i n with Some j => Ok (IPt j) | None => Err IndexError end
  | KSlice s => l <- slice_idx s n ;; Ok (ISl (map Z.to_nat l))
  | KTuple l | KArr l | KList l =>
      match norm_ints l n with Some r => Ok (IAdv r) | None => Err IndexError end
  | KMask m => if length m =? n then Ok (IAdv (mask_nonzero m)) else Err IndexError
  | _ => Err IndexError
  end.

Fixpoint np_isels (keys : list key) (sh : list nat) : res (list isel) :=
  match keys with
  | [] => Ok []
  | KNew :: ks => r <- np_isels ks sh ;; Ok (INew :: r)
  | k :: ks => match sh with
               | [] => Err IndexError
               | n :: sh' => s <- np_isel k n ;; r <- np_isels ks sh' ;; Ok (s :: r)
               end
  end.

Definition is_adv (s : isel) : bool := match s with IAdv _ => true | _ => false end.
Definition is_pt (s : isel) : bool := match s with IPt _ => true | _ => false end.

(** Common length of the advanced index lists under broadcasting. *)
Fixpoint adv_len (s : list isel) : res nat :=
  match s with
  | [] => Ok 1
  | IAdv l :: s' =>
      n <- adv_len s' ;;
      if n =? 1 then Ok (length l)
      else if (length l =? 1) || (length l =? n) then Ok n else Err IndexError
  | _ :: s' => adv_len s'
  end.

(** Number of dimensions contributed by slices/newaxis before the first
    advanced index (integers count as advanced when a list is present). *)
Fixpoint lead_basic (s : list isel) : nat :=
  match s with
  | ISl _ :: s' | INew :: s' => S (lead_basic s')
  | _ => 0
  end.

(** Are the advanced indices (lists and integers) next to each other? *)
Fixpoint drop_basic (s : list isel) : list isel :=
  match s with
  | ISl _ :: s' | INew :: s' => drop_basic s'
  | _ => s
  end.
Fixpoint drop_adv (s : list isel) : list isel :=
  match s with
  | IPt _ :: s' | IAdv _ :: s' => drop_adv s'
  | _ => s
  end.
Definition adv_contig (s : list isel) : bool :=
  negb (existsb (fun x => is_adv x || is_pt x) (drop_adv (drop_basic s))).

(** Shape of the slice/newaxis part. *)
Fixpoint basic_shape (s : list isel) : list nat :=
  match s with
  | [] => []
  | ISl l :: s' => length l :: basic_shape s'
  | INew :: s' => 1 :: basic_shape s'
  | _ :: s' => basic_shape s'
  end.

(** Source index for advanced coordinate [j] and basic coordinates [o]. *)
Fixpoint isel_map (s : list isel) (j : nat) (o : list nat) : list nat :=
  match s with
  | [] => []
  | IPt i :: s' => i :: isel_map s' j o
  | IAdv l :: s' => nth (if length l =? 1 then 0 else j) l 0 :: isel_map s' j o
  | ISl l :: s' => match o with [] => [] | i :: o' => nth i l 0 :: isel_map s' j o' end
  | INew :: s' => match o with [] => [] | _ :: o' => isel_map s' j o' end
  end.

(** NumPy [a[keys]] for a tuple of keys: basic indexing, or advanced indexing in
    which the index lists are broadcast together ("zipped") and their common
    dimension replaces them in place when they are adjacent and comes first
    otherwise. *)
Definition np_index {W} (a : nd W) (keys : list key) : res (nd W) :=
  ks <- np_expand keys (length (nshape a)) ;;
  s <- np_isels ks (nshape a) ;;
  if existsb is_adv s then
    n <- adv_len s ;;
    let p := if adv_contig s then lead_basic s else 0 in
    Ok (mkND (insert_at p n (basic_shape s))
             (fun o => nget a (isel_map s (nth p o 0) (remove_at p o))))
  else
    Ok (mkND (basic_shape s) (fun o => nget a (isel_map s 0 o))).

(** [np.take(a, key, axis)] for a tuple of integers (mode='raise'); an empty
    tuple becomes a float array and is rejected with TypeError. *)
Definition np_take {W} (a : nd W) (l : list Z) (axis : nat) : res (nd W) :=
  match l with
  | [] => Err TypeError
  | _ => match norm_ints l (nth axis (nshape a) 0) with
         | None => Err IndexError
         | Some r => Ok (mkND (set_nth axis (length r) (nshape a))
                              (fun o => nget a (set_nth axis (nth (nth axis o 0) r 0) o)))
         end
  end.

(** *** Broadcasting *)

(** One dimension of NumPy broadcasting. *)
Definition bdim (a b : nat) : option nat :=
  if a =? b then Some a else if a =? 1 then Some b else if b =? 1 then Some a else None.

(** Broadcast of two shapes given last dimension first. *)
Fixpoint bshape_rev (a b : list nat) : option (list nat) :=
  match a, b with
  | [], _ => Some b
  | _, [] => Some a
  | x :: a', y :: b' => match bdim x y, bshape_rev a' b' with
                        | Some z, Some r => Some (z :: r)
                        | _, _ => None
                        end
  end.

(** np.broadcast_shapes *)
Definition np_bshape (a b : list nat) : option (list nat) :=
  match bshape_rev (rev a) (rev b) with Some r => Some (rev r) | None => None end.

(** Index into an array of shape [sh] for index [o] of a shape it was broadcast
    to: leading extra coordinates dropped, stretched dimensions read at 0. *)
Fixpoint bidx (sh o : list nat) : list nat :=
  match sh, o with
  | n :: sh', i :: o' => (if n =? 1 then 0 else i) :: bidx sh' o'
  | _, _ => []
  end.
Definition bc_idx (sh o : list nat) : list nat := bidx sh (skipn (length o - length sh) o).

(** A binary ufunc on two arrays. *)
Definition np_op2 {W X Y} (f : W -> X -> Y) (a : nd W) (b : nd X) : res (nd Y) :=
  match np_bshape (nshape a) (nshape b) with
  | None => Err ValueError
  | Some sh => Ok (mkND sh (fun o => f (nget a (bc_idx (nshape a) o)) (nget b (bc_idx (nshape b) o))))
  end.

(** Can a value of shape [v] be assigned to a region of shape [t]?  Leading
    ones of the value are dropped, the rest must broadcast to [t]. *)
Fixpoint assignable_rev (v t : list nat) : bool :=
  match v, t with
  | [], _ => true
  | x :: v', [] => (x =? 1) && assignable_rev v' []
  | x :: v', y :: t' => ((x =? y) || (x =? 1)) && assignable_rev v' t'
  end.

(** Where, if anywhere, a selection of integers and lists puts index [idx]. *)
Fixpoint sel_pos (s : list dsel) (idx : list nat) : option (list nat) :=
  match s, idx with
  | [], [] => Some []
  | DPt i :: s', x :: idx' => if x =? i then sel_pos s' idx' else None
  | DLs l :: s', x :: idx' =>
      match index_of x l, sel_pos s' idx' with
      | Some j, Some r => Some (j :: r)
      | _, _ => None
      end
  | _, _ => None
  end.

(** [a[sel] = v]: NumPy item assignment for integer/slice keys. *)
Definition nd_assign {W} (a : nd W) (s : list dsel) (v : nd W) : res (nd W) :=
  if assignable_rev (rev (nshape v)) (rev (sel_shape s)) then
    let vsh := skipn (length (nshape v) - length (sel_shape s)) (nshape v) in
    let lead := repeat 0 (length (nshape v) - length (sel_shape s)) in
    Ok (mkND (nshape a)
             (fun idx => match sel_pos s idx with
                         | Some o => nget v (lead ++ bc_idx vsh o)
                         | None => nget a idx
                         end))
  else Err ValueError.

(** Selection made by integer/slice keys on a shape, for assignment. *)
Fixpoint assign_sels (keys : list key) (sh : list nat) : res (list dsel) :=
  match keys, sh with
  | [], _ => Ok (map (fun n => DLs (seq 0 n)) sh)
  | KInt i :: ks, n :: sh' =>
      match norm_int i n with
      | None => Err IndexError
      | Some j => r <- assign_sels ks sh' ;; Ok (DPt j :: r)
      end
  | KSlice s :: ks, n :: sh' =>
      l <- slice_idx s n ;; r <- assign_sels ks sh' ;; Ok (DLs (map Z.to_nat l) :: r)
  | _, [] => Err IndexError
  | _, _ => Err Unmodelled
  end.

(** [a[keys] = v] *)
Definition np_setitem {W} (a : nd W) (keys : list key) (v : nd W) : res (nd W) :=
  s <- assign_sels keys (nshape a) ;; nd_assign a s v.

(** A sequence of item assignments. *)
Definition np_setitems {W} (a : nd W) (ws : list (list key * nd W)) : res (nd W) :=
  foldM (fun r w => np_setitem r (fst w) (snd w)) a ws.

(** a.transpose(axes) *)
Fixpoint scatter {A} (axes : list nat) (items : list A) (acc : list A) : list A :=
  match axes, items with
  | ax :: axes', x :: items' => scatter axes' items' (set_nth ax x acc)
  | _, _ => acc
  end.
Definition np_transpose {W} (a : nd W) (axes : list nat) : nd W :=
  mkND (map (fun ax => nth ax (nshape a) 0) axes)
       (fun o => nget a (scatter axes o (repeat 0 (length axes)))).

(** The values of [a] along [axis] at output index [o] (one column). *)
Definition column {W} (a : nd W) (axis : nat) (o : list nat) : list W :=
  map (fun i => nget a (insert_at axis i o)) (seq 0 (nth axis (nshape a) 0)).
