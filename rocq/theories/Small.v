(** Small: the user-level constructors and helpers of /repo/biggus/_init.py that
    are independent of indexing: aggregation functions and axis normalisation,
    operators, multidim_array_stack, size and nbytes, stack item assignment and
    integer accumulators. *)
From Verif Require Import Base PySlice Keys NDArray Arrays.
From Coq Require Import QArith.
Local Open Scope nat_scope.

(** ** Aggregation functions *)

(** What a user may pass as [axis]: None, an integer, an iterable (other than a
    string or a mapping) whose items are integers ([Some]) or not ([None]), or
    anything else. *)
Inductive axis_arg := AxNone | AxInt (i : Z) | AxSeq (l : list (option Z)) | AxOther.

(** biggus/_init.py:2679-2696 [_normalise_axis]; [None] is Python's None *)
Definition normalise_axis (ax : axis_arg) (nd : nat) : res (option (list nat)) :=
  axes <- match ax with
          | AxNone => Ok None
          | AxInt i => Ok (Some [i])
          | AxSeq l => if forallb (fun x => match x with Some _ => true | None => false end) l
                       then Ok (Some (flat_map (fun x => match x with Some i => [i] | None => [] end) l))
                       else Err TypeError
          | AxOther => Err TypeError
          end ;;
  match axes with
  | None => Ok None
  | Some l =>
      let l := map (fun i => if (0 <=? i)%Z then i else (Z.of_nat nd + i)%Z) l in
      if forallb (fun i => (0 <=? i)%Z && (i <? Z.of_nat nd)%Z) l
      then Ok (Some (map Z.to_nat l)) else Err ValueError
  end.

Section Aggregate.
Context {V : Type} (O : numops V).

(** The dtype given by each function: 2722, 2752, 2782, 2812, 2849, 2881, 2914 *)
Definition agg_dtype (g : @agg V) (d : nat) : nat :=
  match g with
  | GCount => dt_int O
  | GMin | GMax | GSum => d
  | GMean _ | GStd _ | GVar _ => dt_float O d
  end.
(** 2699-2916 [count], [min], [max], [sum], [mean], [std], [var]: min, max and
    sum assert a single axis (2750, 2780, 2810), the others raise
    AxisSupportError (2717-2719, 2846-2848, 2878-2880, 2911-2913). *)
Definition aggregate (g : @agg V) (a : @barr V) (ax : axis_arg) : res (@barr V) :=
  axes <- normalise_axis ax (ndim a) ;;
  match axes with
  | Some [axis] => Ok (AAgg g a axis (agg_dtype g (dtype a)))
  | _ => Err (match g with GMin | GMax | GSum => AssertErr | _ => AxisSupportErr end)
  end.
End Aggregate.

(** ** Operators *)
Section Operators.
Context {V : Type}.

(** What may stand beside an operator: a biggus array, a number (with its dtype
    and whether it is a Python int/float rather than a NumPy scalar; [Some true]
    for a float), or an object [ensure_array] rejects.  A NumPy number or array as
    the left operand decides by itself whether it gives way: NumpyLeft.v. *)
Inductive operand := PArr (a : @barr V) | PNum (v : V) (d : nat) (py : option bool) | POther.

(** 3288-3306 [ensure_array] *)
Definition ensure_array (x : operand) : res (@barr V) :=
  match x with
  | PArr a => Ok a
  | PNum v d _ => Ok (AConst [] v d)
  | POther => Err TypeError
  end.
Definition py_of (x : operand) : option bool := match x with PNum _ _ py => py | _ => None end.

(** The operators of the class (581-665). *)
Inductive opname := OpAdd | OpSub | OpMul | OpFloorDiv | OpDiv | OpTrueDiv | OpPow.
(** The ufunc wrappers the methods call (3117-3124), as NumPy gives them. *)
Record ufuncs := mkU {
  np_add : @op2 V; np_subtract : @op2 V; np_multiply : @op2 V; np_floor_divide : @op2 V;
  np_divide : @op2 V; np_true_divide : @op2 V; np_power : @op2 V }.

(** 2936-2996: [_Elementwise(x, y, ufunc)] on arbitrary operands *)
Definition elementwise2 (f : @op2 V) (x y : operand) : res (@barr V) :=
  a <- ensure_array x ;; b <- ensure_array y ;; mk_el2 f a b (py_of y).

(** 581-665: [__add__(self, other)] calls [add(self, other)] and so on; a
    TypeError becomes NotImplemented ([Ok None]). *)
Definition method_fun (u : ufuncs) (o : opname) : @op2 V :=
  match o with
  | OpAdd => np_add u | OpSub => np_subtract u | OpMul => np_multiply u
  | OpFloorDiv => np_floor_divide u | OpDiv => np_divide u
  | OpTrueDiv => np_true_divide u | OpPow => np_power u
  end.
Definition not_implemented (r : res (@barr V)) : res (option (@barr V)) :=
  match r with Ok a => Ok (Some a) | Err TypeError => Ok None | Err e => Err e end.
Definition op_method (u : ufuncs) (o : opname) (self : @barr V) (other : operand) : res (option (@barr V)) :=
  not_implemented (elementwise2 (method_fun u o) (PArr self) other).
(** [__radd__(self, other)] calls [add(other, self)] and so on *)
Definition rop_method (u : ufuncs) (o : opname) (self : @barr V) (other : operand) : res (option (@barr V)) :=
  not_implemented (elementwise2 (method_fun u o) other (PArr self)).

(** Python's evaluation of [x op y] when at least one side is a biggus array:
    the left method, then the reflected one of the right operand, then
    TypeError.  Simplified: the reflected method is not tried when both operands
    are biggus arrays of the same class; it would give NotImplemented again. *)
Definition binary (u : ufuncs) (o : opname) (x y : operand) : res (@barr V) :=
  l <- match x with PArr a => op_method u o a y | _ => Ok None end ;;
  match l with
  | Some r => Ok r
  | None => r <- match y with PArr b => rop_method u o b x | _ => Ok None end ;;
            match r with Some r => Ok r | None => Err TypeError end
  end.
End Operators.
Arguments operand : clear implicits.
Arguments ufuncs : clear implicits.

(** ** multidim_array_stack (1838-1908) *)
Inductive order := OrdC | OrdF | OrdBad.
Section Multi.
Context {V : Type}.
Notation barr := (@barr V).

(** 1588-1606 [_groups_of] applied to a list: consecutive groups of [length]; a
    zero length makes [range] raise ValueError *)
Definition groups_of {A} (n : nat) (l : list A) : list (list A) :=
  map (fun i => firstn n (skipn (i * n) l)) (seq 0 ((length l + n - 1) / n)).
(** [l[i::num]] *)
Definition every {A} (num i : nat) (l : list A) : list A :=
  flat_map (fun p => match nth_error l p with Some x => [x] | None => [] end)
           (map (fun t => i + t * num) (seq 0 ((length l - i + num - 1) / num))).
(** 1886-1905: one round of subdivision.  Dividing by a zero length raises
    (ZeroDivisionError, written RuntimeErr; ValueError from range). *)
Definition subdivide (o : order) (n : nat) (l : list barr) : res (list barr) :=
  match o with
  | OrdF => if n =? 0 then Err RuntimeErr else
            let num := length l / n in
            if n =? length l then mapM (mk_stack [length l]) [l]
            else mapM (fun s => mk_stack [length s] s) (map (fun i => every num i l) (seq 0 num))
  | OrdC => if n =? 0 then Err ValueError else
            mapM (fun s => mk_stack [length s] s) (groups_of n l)
  | OrdBad => Err TypeError
  end.
(** 1865-1908; [arrays] is the flat sequence of arrays. *)
Definition multidim_array_stack (arrays : list barr) (sh : list nat) (o : order) : res barr :=
  if negb (prodn sh =? length arrays) then Err ValueError else
  r <- foldM (fun l n => subdivide o n l) arrays (rev sh) ;;
  match r with x :: _ => Ok x | [] => Err IndexError end.
End Multi.

(** ** size and nbytes *)

(** Two's complement wrap-around of NumPy integers of [w] bits. *)
Definition wrap (w : Z) (z : Z) : Z := ((z + 2 ^ (w - 1)) mod 2 ^ w - 2 ^ (w - 1))%Z.
(** biggus/_init.py:486-489 [nbytes]: np.product in 64-bit integers, then times
    the item size *)
Definition nbytes {V} (itemsize : nat -> Z) (a : @barr V) : Z :=
  wrap 64 (fold_left (fun p n => wrap 64 (p * Z.of_nat n)) (shape a) 1 * itemsize (dtype a))%Z.
(** 3331-3343 [size]: the unit (0: B, 1: KiB, 2: MiB, 3: GiB, 4: TiB) and the
    number printed before it (to two decimals, except for B) *)
Definition size_of (n : Z) : nat * Q :=
  if (n <? Z.shiftl 1 10)%Z then (0, inject_Z n)
  else if (n <? Z.shiftl 1 20)%Z then (1, (inject_Z n / inject_Z (Z.shiftl 1 10))%Q)
  else if (n <? Z.shiftl 1 30)%Z then (2, (inject_Z n / inject_Z (Z.shiftl 1 20))%Q)
  else if (n <? Z.shiftl 1 40)%Z then (3, (inject_Z n / inject_Z (Z.shiftl 1 30))%Q)
  else (4, (inject_Z n / inject_Z (Z.shiftl 1 40))%Q).

(** ** Integer accumulators *)

(** 2432-2453 [_MeanStreamsHandler] on integers of [w] bits: the running total
    has the array's dtype; np.sum of a chunk accumulates in 64 bits and is cast
    back when added. *)
Definition int_mean (w : Z) (pieces : list (list Z)) : Q :=
  let t := fold_left (fun t l => wrap w (t + wrap 64 (fold_left (fun s x => wrap 64 (s + x)) l 0)))%Z pieces 0%Z in
  (inject_Z t / inject_Z (Z.of_nat (length (concat pieces))))%Q.
(** 2394-2408 [_SumStreamsHandler] likewise *)
Definition int_sum (w : Z) (pieces : list (list Z)) : Z :=
  fold_left (fun t l => wrap w (t + wrap 64 (fold_left (fun s x => wrap 64 (s + x)) l 0)))%Z pieces 0%Z.
(** 2456-2488 [_MeanMaskedStreamsHandler] on signed integers of [w] bits: both
    counters have the array's dtype too (for unsigned integers and booleans NumPy
    refuses [+=] of an int64: TypeError, not modelled here).  [None] is a masked
    result; 0/0 and n/0 in line 2479 are NaN and infinity. *)
Definition int_mean_masked (w : Z) (mdtol : Q) (pieces : list (list (option Z))) : option Q :=
  let vals l := flat_map (fun c => match c with Some x => [x] | None => [] end) l in
  let add t (x : Z) := wrap w (t + wrap 64 x) in
  let n := fold_left (fun t l => add t (Z.of_nat (length (vals l)))) pieces 0%Z in
  let k := fold_left (fun t l => add t (Z.of_nat (length l - length (vals l)))) pieces 0%Z in
  let t := fold_left (fun t l => add t (fold_left (fun s x => wrap 64 (s + x)) (vals l) 0)%Z) pieces 0%Z in
  let d := wrap w (k + n) in
  if (n =? 0)%Z then None
  else if negb (Qle_bool 1 mdtol)
          && (if (d =? 0)%Z then (0 <? k)%Z else negb (Qle_bool (inject_Z k / inject_Z d) mdtol))
       then None
       else Some (inject_Z t / inject_Z n)%Q.

(** ** Axes of a transposition, as the user gives them *)

(** biggus/_init.py:1622-1628: only the number of axes is checked; None stands
    for all of them reversed. *)
Definition transpose_axes (nd : nat) (axes : option (list Z)) : res (list Z) :=
  match axes with
  | None => Ok (rev (map Z.of_nat (seq 0 nd)))
  | Some axes => if length axes =? nd then Ok axes else Err ValueError
  end.
(** 1629-1630: [{src: dest for dest, src in enumerate(axes)}]: the last of equal
    sources wins. *)
Fixpoint map_get (k : Z) (d : list (Z * nat)) (found : option nat) : option nat :=
  match d with
  | [] => found
  | (k', v) :: d' => map_get k d' (if (k' =? k)%Z then Some v else found)
  end.
Definition forward_map (axes : list Z) : list (Z * nat) := combine axes (seq 0 (length axes)).
(** 1635-1667 [_apply_axes_mapping], forwards; a place that is never assigned
    keeps None. *)
Definition apply_mapping {A} (nd : nat) (axes : list Z) (target : list A) : res (list (option A)) :=
  if negb (length target =? nd) then Err ValueError else
  foldM (fun result ax => match map_get (Z.of_nat (fst ax)) (forward_map axes) None with
                          | None => Err KeyErr
                          | Some d => Ok (set_nth d (Some (snd ax)) result)
                          end)
        (repeat None nd) (combine (seq 0 (length target)) target).
(** 1670-1672: the [shape] of [array.transpose(axes)] for an array of shape [sh] *)
Definition transposed_shape (sh : list nat) (axes : option (list Z)) : res (list (option nat)) :=
  axes <- transpose_axes (length sh) axes ;; apply_mapping (length sh) axes sh.

(** ** Stack item assignment: objects with identity *)
Section Heap.
Context {V : Type}.
Notation barr := (@barr V).

(** The object arrays behind the ArrayStacks in existence: location, and the
    items stored there, in C order.  Simplified: items are not stacks that are
    themselves assigned to. *)
Definition heap := list (list barr).
(** An ArrayStack object: its stack shape and the location of its items; or an
    array of another class. *)
Inductive obj := OStack (ssh : list nat) (loc : nat) | OVal (a : barr).
Definition items_at (h : heap) (loc : nat) : list barr := nth loc h [].
(** The array an object stands for at the moment. *)
Definition content (h : heap) (x : obj) : barr :=
  match x with OStack ssh loc => AStack ssh (items_at h loc) | OVal a => a end.

(** biggus/_init.py:1799-1815 with 508-520: indexing.  A result that is an
    ArrayStack gets a new object array ([np.array(stack)] at 1808, or the one a
    nested constructor made). *)
Definition obj_getitem (h : heap) (x : obj) (keys : list key) : res (heap * obj) :=
  r <- getitem (content h x) keys ;;
  match r with
  | AStack ssh items => Ok (h ++ [items], OStack ssh (length h))
  | r => Ok (h, OVal r)
  end.
(** 1817-1822 [ArrayStack.__setitem__]: the keys must be as many integers as
    there are stack dimensions; NumPy checks their range; neither shape nor
    dtype of the value is checked. *)
Definition setitem_pos (ssh : list nat) (keys : list key) : res nat :=
  if negb (length keys =? length ssh) then Err AssertErr else
  if negb (forallb is_scalar keys) then Err AssertErr else
  idx <- mapM (fun kn => match fst kn with
                         | KInt i => match norm_int i (snd kn) with Some j => Ok j | None => Err IndexError end
                         | _ => Err AssertErr end) (combine keys ssh) ;;
  Ok (ravel ssh idx).
Definition obj_setitem (h : heap) (x : obj) (keys : list key) (value : barr) : res heap :=
  match x with
  | OStack ssh loc => p <- setitem_pos ssh keys ;;
                      Ok (set_nth loc (set_nth p value (items_at h loc)) h)
  | OVal _ => Err TypeError
  end.
End Heap.
Arguments heap : clear implicits.
Arguments obj : clear implicits.
