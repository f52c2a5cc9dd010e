(** Memory: evaluation (Realise.v) once more, in terms of memory.  NumPy arrays are
    views of buffers; basic indexing, transposing and broadcasting make views,
    other operations new buffers; running totals, results and targets are updated
    in place.  Simplified: the data and the mask of a masked array are one buffer of
    cells; temporary arrays inside one statement are not allocated. *)
From Verif Require Import Base PySlice Keys NDArray Arrays Chunks Handlers Realise.

Section Memory.
Context {V : Type} (O : numops V).
Notation cell := (option V).
Notation barr := (@barr V).

(** An element of a buffer: data, or one of the integer and boolean arrays of the
    aggregation handlers. *)
Inductive mcell := MV (c : cell) | MN (n : nat) | MB (b : bool).
Definition buffer := list nat -> mcell.
Definition heap := list buffer.
Definition look (h : heap) (l : nat) : buffer := nth l h (fun _ => MV None).
(** An element read as data: integer arrays hold numbers. *)
Definition cellv (x : mcell) : cell := match x with MV c => c | MN n => Some (vofn O n) | MB _ => None end.
Definition natv (x : mcell) : nat := match x with MN n => n | _ => 0 end.
Definition boolv (x : mcell) : bool := match x with MB b => b | _ => false end.
Definition numv (x : mcell) : V := val0 O (cellv x).

(** A NumPy array: a buffer, and where in it each element is. *)
Record view := mkV { vloc : nat; vix : nd (list nat) }.
Definition read (h : heap) (v : view) : nd cell := nd_map (fun j => cellv (look h (vloc v) j)) (vix v).
Definition whole (l : nat) (sh : list nat) : view := mkV l (mkND sh (fun i => i)).

(** Computations on memory that may raise: changes made before stay. *)
Definition M (A : Type) := heap -> res A * heap.
Definition ret {A} (a : A) : M A := fun h => (Ok a, h).
Definition bindM {A B} (x : M A) (f : A -> M B) : M B :=
  fun h => match x h with (Ok a, h') => f a h' | (Err e, h') => (Err e, h') end.
Definition lift {A} (r : res A) : M A := fun h => (r, h).
Definition look_at {A} (f : heap -> A) : M A := fun h => (Ok (f h), h).
Local Notation "x <~ e ;; f" := (bindM e (fun x => f)) (at level 61, e at next level, right associativity).
Section MapMM.
  Context {A B : Type} (f : A -> M B).
  Fixpoint mapMM (l : list A) : M (list B) :=
    match l with
    | [] => ret []
    | x :: xs => y <~ f x ;; ys <~ mapMM xs ;; ret (y :: ys)
    end.
End MapMM.
Fixpoint foldMM {A S} (f : S -> A -> M S) (s : S) (l : list A) : M S :=
  match l with
  | [] => ret s
  | x :: xs => s' <~ f s x ;; foldMM f s' xs
  end.

(** A new buffer; a new array with given values; [x op= ...] on a whole array; the
    same on row [r] of a two-part array. *)
Definition alloc (b : buffer) : M nat := fun h => (Ok (length h), h ++ [b]).
Definition fresh (d : nd cell) : M view := l <~ alloc (fun i => MV (nget d i)) ;; ret (whole l (nshape d)).
Definition put (l : nat) (b : buffer) : M unit := fun h => (Ok tt, set_nth l b h).
Definition upd (l : nat) (f : list nat -> mcell -> mcell) : M unit :=
  fun h => put l (fun j => f j (look h l j)) h.
Definition upd_row (l r : nat) (f : list nat -> mcell -> mcell) : M unit :=
  fun h => put l (fun j => match j with
                           | i :: o => if i =? r then f o (look h l j) else look h l j
                           | [] => look h l j
                           end) h.

(** ** The aggregation handlers on memory (2304-2609) *)
Record mhandler := mkMH {
  mst : Type;
  mboot : list nat -> M mst;                  (* bootstrap(shape) *)
  mstep : nat -> mst -> view -> M mst;        (* process_data, along an axis *)
  mfin : list nat -> nat -> mst -> M view;    (* finalise; n: length of the axis *)
  mbad : nat -> bool -> bool                  (* does process_data raise? *)
}.
Definition num (v : V) : mcell := MV (Some v).
(** The values in the column of output element [o]. *)
Definition col (h : heap) (d : view) (axis : nat) (o : list nat) : list cell := column (read h d) axis o.

(** 2304-2315 *)
Definition m_count : mhandler :=
  mkMH nat (fun _ => ret 0) (fun axis k d => ret (k + nth axis (nshape (vix d)) 0))
       (fun sh n k => fresh (mkND sh (fun _ => Some (vofn O k)))) never.
(** 2318-2327 *)
Definition m_count_m : mhandler :=
  mkMH nat (fun _ => alloc (fun _ => MN 0))
       (fun axis l d => h <~ look_at (fun h => h) ;;
                        _ <~ upd l (fun o x => MN (natv x + length (somes (col h d axis o)))) ;; ret l)
       (fun sh n l => ret (whole l sh)) never.
(** 2330-2391: [self.result = np.min(...)] is a new array *)
Definition m_pick (pick : list cell -> cell) : mhandler :=
  mkMH nat (fun _ => alloc (fun _ => num (v0 O)))
       (fun axis l d => h <~ look_at (fun h => h) ;; alloc (fun o => MV (pick (col h d axis o))))
       (fun sh n l => ret (whole l sh)) no_ident.
(** 2394-2408 *)
Definition add_sum (l axis : nat) (d : view) (vals : list cell -> list V) : M unit :=
  h <~ look_at (fun h => h) ;; upd l (fun o x => num (vadd O (numv x) (vsum O (vals (col h d axis o))))).
Definition m_sum : mhandler :=
  mkMH nat (fun _ => alloc (fun _ => num (v0 O)))
       (fun axis l d => _ <~ add_sum l axis d (map (val0 O)) ;; ret l)
       (fun sh n l => ret (whole l sh)) never.
(** 2411-2429: [array.mask = self.mask] is set on the running total itself *)
Definition m_sum_m : mhandler :=
  mkMH (nat * nat) (fun _ => t <~ alloc (fun _ => num (v0 O)) ;; k <~ alloc (fun _ => MB true) ;; ret (t, k))
       (fun axis st d =>
          h <~ look_at (fun h => h) ;;
          _ <~ upd (snd st) (fun o x => MB (boolv x && forallb (fun c => negb (is_some c)) (col h d axis o))) ;;
          _ <~ add_sum (fst st) axis d (map (val0 O)) ;; ret st)
       (fun sh n st =>
          h <~ look_at (fun h => h) ;;
          _ <~ upd (fst st) (fun o x => if boolv (look h (snd st) o) then MV None else x) ;; ret (whole (fst st) sh)) never.
(** 2432-2453 *)
Definition m_mean : mhandler :=
  mkMH nat (fun _ => alloc (fun _ => num (v0 O)))
       (fun axis l d => _ <~ add_sum l axis d (map (val0 O)) ;; ret l)
       (fun sh n l => h <~ look_at (fun h => h) ;;
                      fresh (mkND sh (fun o => Some (vdiv O (numv (look h l o)) (vofn O n))))) never.
(** 2456-2488 *)
Definition m_mean_m (mdtol : V) : mhandler :=
  mkMH (nat * nat * nat)
       (fun _ => c <~ alloc (fun _ => MN 0) ;; mc <~ alloc (fun _ => MN 0) ;; t <~ alloc (fun _ => num (v0 O)) ;; ret (c, mc, t))
       (fun axis st d =>
          let '(c, mc, t) := st in
          h <~ look_at (fun h => h) ;;
          _ <~ upd c (fun o x => MN (natv x + length (somes (col h d axis o)))) ;;
          _ <~ upd mc (fun o x => MN (natv x + (length (col h d axis o) - length (somes (col h d axis o))))) ;;
          _ <~ add_sum t axis d (map (val0 O)) ;; ret st)
       (fun sh n st =>
          let '(c, mc, t) := st in
          h <~ look_at (fun h => h) ;;
          fresh (mkND sh (fun o =>
            let cc := natv (look h c o) in let mm := natv (look h mc o) in
            if cc =? 0 then None
            else if vltb O mdtol (vofn O 1) && vltb O mdtol (vdiv O (vofn O mm) (vadd O (vofn O mm) (vofn O cc)))
            then None else Some (vdiv O (numv (look h t o)) (vofn O cc))))) never.

(** 2517-2536: the chunk is copied ([rollaxis(...).astype]); while [k == 1] the
    running mean [self.a] is row 0 of that copy, a view; [self.a += temp] and
    [self.q += temp] are in place. *)
Definition std_row (q : nat) (dc : nat) (st : nat * nat) (i : nat) : M (nat * nat) :=
  let '(k, a) := st in
  let k := S k in
  h <~ look_at (fun h => h) ;;
  let temp o := vdiv O (vsub O (numv (look h dc (i :: o))) (numv (look h a (0 :: o)))) (vofn O k) in
  _ <~ upd_row a 0 (fun o x => num (vadd O (numv x) (temp o))) ;;
  _ <~ upd q (fun o x => num (vadd O (numv x) (vmul O (vmul O (temp o) (temp o)) (vofn O (k * (k - 1)))))) ;;
  ret (k, a).
Definition rolled (d : nd cell) (axis : nat) : buffer :=
  fun j => match j with i :: o => num (val0 O (nget d (insert_at axis i o))) | [] => num (v0 O) end.
Definition std_data (axis : nat) (st : nat * option nat * nat) (d : view) : M (nat * option nat * nat) :=
  let '(k, a, q) := st in
  h <~ look_at (fun h => h) ;;
  dc <~ alloc (rolled (read h d) axis) ;;
  let rows := seq 0 (nth axis (nshape (vix d)) 0) in
  let a := if k =? 1 then Some dc else a in
  let rows := if k =? 1 then tl rows else rows in
  match a with
  | None => lift (Err AttrErr)
  | Some a => r <~ foldMM (std_row q dc) (k, a) rows ;; ret (fst r, Some (snd r), q)
  end.
(** 2499-2515: [self.q /= ...] in place, then a new array *)
Definition std_fin (ddof : V) (sh : list nat) (st : nat * option nat * nat) : M view :=
  let '(k, a, q) := st in
  _ <~ upd q (fun o x => num (vdiv O (numv x) (vsub O (vofn O k) ddof))) ;;
  h <~ look_at (fun h => h) ;;
  fresh (mkND sh (fun o => Some (vsqrt O (numv (look h q o))))).
Definition std_boot : M (nat * option nat * nat) := q <~ alloc (fun _ => num (v0 O)) ;; ret (1, None, q).
(** 2598-2609: [chunk.data * chunk.data] *)
Definition squared (x : M view) : M view :=
  v <~ x ;; h <~ look_at (fun h => h) ;; fresh (nd_map (sq O) (read h v)).
Definition m_std (ddof : V) : mhandler :=
  mkMH _ (fun _ => std_boot) std_data (fun sh n st => std_fin ddof sh st) no_first.
Definition m_var (ddof : V) : mhandler :=
  mkMH _ (fun _ => std_boot) std_data (fun sh n st => squared (std_fin ddof sh st)) no_first.

(** 2571-2595, one slice of the chunk (flattened, so copied): [self.a],
    [self.running_count] and [self.q] are updated in place. *)
Definition std_m_slice (axis : nat) (d : view) (st : nat * nat * nat) (i : nat) : M (nat * nat * nat) :=
  let '(c, a, q) := st in
  h <~ look_at (fun h => h) ;;
  let x o := nget (read h d) (insert_at axis i o) in
  let boot o := negb (natv (look h c o) =? 0) in
  let have o := is_some (x o) in
  _ <~ upd a (fun o y => if boot o then y else num (val0 O (x o))) ;;
  _ <~ upd c (fun o y => if have o then MN (S (natv y)) else MN (natv y)) ;;
  h2 <~ look_at (fun h => h) ;;
  let cnt o := natv (look h2 c o) in
  let temp o := vdiv O (vsub O (val0 O (x o)) (numv (look h2 a o))) (vofn O (cnt o)) in
  _ <~ upd a (fun o y => if boot o && have o then num (vadd O (numv y) (temp o)) else num (numv y)) ;;
  _ <~ upd q (fun o y => if boot o && have o
                         then num (vadd O (numv y) (vmul O (vmul O (temp o) (temp o)) (vmul O (vofn O (cnt o)) (vsub O (vofn O (cnt o)) (vofn O 1)))))
                         else num (numv y)) ;;
  ret st.
Definition std_m_boot : M (nat * nat * nat) :=
  a <~ alloc (fun _ => num (v0 O)) ;; q <~ alloc (fun _ => num (v0 O)) ;; c <~ alloc (fun _ => MN 0) ;; ret (c, a, q).
Definition std_m_data (axis : nat) (st : nat * nat * nat) (d : view) : M (nat * nat * nat) :=
  foldMM (std_m_slice axis d) st (seq 0 (nth axis (nshape (vix d)) 0)).
(** 2559-2569 *)
Definition std_m_fin (ddof : V) (sh : list nat) (n : nat) (st : nat * nat * nat) : M view :=
  let '(c, a, q) := st in
  h <~ look_at (fun h => h) ;;
  fresh (mkND sh (fun o => hfin (h_std_m O ddof) n (natv (look h c o), numv (look h a o), numv (look h q o)))).
Definition m_std_m (ddof : V) : mhandler := mkMH _ (fun _ => std_m_boot) std_m_data (std_m_fin ddof) never.
Definition m_var_m (ddof : V) : mhandler :=
  mkMH _ (fun _ => std_m_boot) std_m_data (fun sh n st => squared (std_m_fin ddof sh n st)) never.

(** 2670-2676 and the classes chosen at 2720-2916, as [Handlers.handler_of] *)
Definition mhandler_of (masked : bool) (g : @agg V) : mhandler :=
  match g, masked with
  | GCount, false => m_count | GCount, true => m_count_m
  | GMin, false => m_pick (fun l => vmin_list O (map (val0 O) l)) | GMin, true => m_pick (fun l => vmin_list O (somes l))
  | GMax, false => m_pick (fun l => vmax_list O (map (val0 O) l)) | GMax, true => m_pick (fun l => vmax_list O (somes l))
  | GSum, false => m_sum | GSum, true => m_sum_m
  | GMean _, false => m_mean | GMean t, true => m_mean_m t
  | GStd d, false => m_std d | GStd d, true => m_std_m d
  | GVar d, false => m_var d | GVar d, true => m_var_m d
  end.

(** ** Streams *)
Definition mchunk := (list key * view)%type.

(** 2275-2293 [process_chunks] and 271-273, as [Realise.agg_loop]: finalise the
    finished run first, then bootstrap, then process. *)
Section AggStream.
  Context (h : mhandler) (axis n : nat).
  Fixpoint magg_loop (cur : option (list key * list nat * mst h)) (cs : list mchunk) : M (list mchunk) :=
    match cs with
    | [] => match cur with
            | Some (k, sh, st) => v <~ mfin h sh n st ;; ret [(k, v)]
            | None => lift (Err AttrErr)
            end
    | (k, d) :: cs' =>
        let k' := remove_at axis k in
        let osh := remove_at axis (nshape (vix d)) in
        let same := match cur with Some (k0, _, _) => keys_eqb k' k0 | None => false end in
        out <~ (match cur with
                | Some (k0, sh, st) => if same then ret [] else v <~ mfin h sh n st ;; ret [(k0, v)]
                | None => ret []
                end) ;;
        st0 <~ (match cur with
                | Some (_, sh, st) => if same then ret (sh, st) else st <~ mboot h osh ;; ret (osh, st)
                | None => st <~ mboot h osh ;; ret (osh, st)
                end) ;;
        let '(sh, st) := st0 in
        if negb (shape_eqb sh osh) then lift (Err Unmodelled)
        else if mbad h (nth axis (nshape (vix d)) 0) (prodn sh =? 0) then lift (Err EvalError)
        else st1 <~ mstep h axis st d ;;
             r <~ magg_loop (Some (k', sh, st1)) cs' ;; ret (out ++ r)
    end.
End AggStream.

(** 2929-2933 *)
Fixpoint mzip (f : cell -> cell -> cell) (xs ys : list mchunk) : M (list mchunk) :=
  match xs, ys with
  | (k, x) :: xs', (_, y) :: ys' =>
      h <~ look_at (fun h => h) ;; d <~ lift (np_op2 f (read h x) (read h y)) ;; v <~ fresh d ;;
      r <~ mzip f xs' ys' ;; ret ((k, v) :: r)
  | _, _ => ret []
  end.

(** A result array filled piece by piece (302-334, 1824-1836, 2056-2079), and an
    assignment to an existing array. *)
Variable garbage : list nat -> cell.
Definition write (l : nat) (sh : list nat) (k : list key) (v : view) : M unit :=
  h <~ look_at (fun h => h) ;; d <~ lift (np_setitem (read h (whole l sh)) k (read h v)) ;; put l (fun j => MV (nget d j)).
Definition store (sh : list nat) (ws : list mchunk) : M view :=
  l <~ alloc (fun j => MV (garbage j)) ;;
  _ <~ foldMM (fun _ w => write l sh (fst w) (snd w)) tt ws ;; ret (whole l sh).

(** ** The array classes *)

(** Where a source's data is; and whether realising it copies: sources that read
    from elsewhere (a file), and for [ndarray()] masked sources ([filled()],
    1480-1481), do; ndarrays, and masked arrays for [masked_array()], do not. *)
Variable place : @concrete V -> nat.
Variable copies : bool -> @concrete V -> bool.
Variable maxc : nat.

Definition is_basic (k : key) : bool := match k with KInt _ | KSlice _ => true | _ => false end.
(** 1473-1491 with 1506-1545 and 1572-1574: indexing by integers and slices only
    gives a view of the source (a 0-dimensional result is wrapped again, a copy),
    other indexing a copy. *)
Definition madapter (m ortho : bool) (c : @concrete V) (ks : list key) : M view :=
  let src := mkND (c_shape c) (fun i => i) in
  if forallb is_basic ks && negb (copies m c) then
    ix <~ lift (if ortho then s <- keys_dsel ks (c_shape c) ;; Ok (nd_sel src s) else np_index src ks) ;;
    match nshape ix with
    | [] => h <~ look_at (fun h => h) ;; fresh (read h (mkV (place c) ix))
    | _ => ret (mkV (place c) ix)
    end
  else
    h <~ look_at (fun h => h) ;;
    d <~ lift (realise_adapter O m ortho (mkC (c_shape c) (fun i => cellv (look h (place c) i)) (c_fill c) (c_dtype c)) ks) ;; fresh d.

Section Engine.
  Variable rz : barr -> M view.
  Variable m : bool.
  (** 175-204 *)
  Definition mproducer (a : barr) (order : list nat) : M (list mchunk) :=
    mapMM (fun k => b <~ lift (getitem a k) ;; v <~ rz b ;; ret (k, v)) (chunk_index_gen maxc (shape a) order).
  (** 253-278, 369-385; elementwise operations allocate (2929-2933) *)
  Fixpoint mstream (a : barr) (order : list nat) : M (list mchunk) :=
    match a with
    | AAgg g c axis _ =>
        cs <~ mstream c (input_order axis order) ;;
        magg_loop (mhandler_of m g) axis (nth axis (shape c) 0) None cs
    | AEl1 o c _ =>
        f <~ lift (op1_fun m o) ;;
        cs <~ mstream c order ;;
        mapMM (fun ch => h <~ look_at (fun h => h) ;; v <~ fresh (nd_map f (read h (snd ch))) ;; ret (fst ch, v)) cs
    | AEl2 o c1 c2 _ =>
        f <~ lift (op2_fun m o) ;;
        xs <~ mstream c1 order ;; ys <~ mstream c2 order ;; mzip f xs ys
    | _ => mproducer a order
    end.
  (** 302-334, 387-424 *)
  Definition mengine (a : barr) : M view := cs <~ mstream a (seq 0 (ndim a)) ;; store (shape a) cs.
End Engine.

(** [ndarray()] / [masked_array()], as [Realise.realise].  Views: new axes (855-861),
    broadcasting (1092-1118), transposing (1707-1715), [ndarray()] of a
    MaskValueArray (inherited).  [astype] (1151-1157) and masked_equal (1179-1181)
    copy.  Simplified: a stack or mosaic realises all its parts before storing the
    first. *)
Fixpoint mrealise (fuel : nat) (m : bool) (a : barr) {struct fuel} : M view :=
  match fuel with
  | 0 => lift (Err OutOfFuel)
  | S f =>
    (fix go (a : barr) : M view :=
       match a with
       | AConst sh v _ => fresh (mkND sh (fun _ => Some v))
       | AAdapt ortho c ks => madapter m ortho c ks
       | ANewAx c na => v <~ go c ;; ix <~ lift (np_index (vix v) (newax_layout KNew (repeat KFull (ndim c)) na)) ;; ret (mkV (vloc v) ix)
       | ABcast c dict lead => v <~ go c ;; ix <~ lift (bcast_numpy (vix v) dict lead) ;; ret (mkV (vloc v) ix)
       | AAsTy c dt => v <~ go c ;; h <~ look_at (fun h => h) ;; fresh (nd_map (lift1 (vcast O dt)) (read h v))
       | AMaskV c x => v <~ go c ;; if m then h <~ look_at (fun h => h) ;; fresh (nd_map (mask_equal O m x) (read h v)) else ret v
       | ATrans c axes => v <~ go c ;; ret (mkV (vloc v) (np_transpose (vix v) axes))
       | AStack ssh items =>
           vs <~ mapMM go items ;; store (shape a) (combine (map (map (fun i => KInt (Z.of_nat i))) (ndindex ssh)) vs)
       | AMosaic tiles axis =>
           vs <~ mapMM go tiles ;;
           store (shape a) (combine (map (fun on => set_nth axis (sl (fst on) (fst on + snd on)) (repeat KFull (ndim a)))
                                         (combine (offsets_from 0 (map (fun t => nth axis (shape t) 0) tiles)) (map (fun t => nth axis (shape t) 0) tiles))) vs)
       | AAgg _ _ _ _ => mengine (mrealise f m) m a
       | AEl1 o c _ =>
           g <~ lift (op1_fun m o) ;;
           v <~ mengine (mrealise f m) m c ;; h <~ look_at (fun h => h) ;; fresh (nd_map g (read h v))
       | AEl2 o c1 c2 _ =>
           g <~ lift (op2_fun m o) ;;
           x <~ mengine (mrealise f m) m c1 ;;
           y <~ mengine (mrealise f m) m c2 ;; h <~ look_at (fun h => h) ;; d <~ lift (np_op2 g (read h x) (read h y)) ;; fresh d
       end) a
  end.
(** 2082-2105, 426-446: one array after the other *)
Definition marrays (fuel : nat) (m : bool) (l : list barr) : M (list view) := mapMM (mengine (mrealise fuel m) m) l.
(** 2162-2196: [target] is the array at location [t], of shape [sh] *)
Definition msave (fuel : nat) (m : bool) (a : barr) (t : nat) (sh : list nat) : M unit :=
  foldMM (fun _ k => b <~ lift (getitem a k) ;; v <~ mrealise fuel m b ;; write t sh k v) tt (save_keys maxc (shape a)).
End Memory.
