(** Spec: what the properties are stated against.  Nothing here models /repo:
    it is the intended meaning of indexing, of each kind of array and of each
    aggregation, written as directly as possible. *)
From Verif Require Import Base PySlice Keys NDArray Arrays.

(** ** Orthogonal indexing *)

(** What one key selects on a dimension of length n: an integer selects one
    position (negative: from the end), a slice the positions of
    [range( *slice.indices(n))], a sequence of integers those positions, a
    boolean mask of length n the positions of its True entries. *)
Definition sel_key (k : key) (n : nat) : option dsel :=
  match k with
  | KInt i => match norm_int i n with Some j => Some (DPt j) | None => None end
  | KSlice s => match slice_idx s n with
                | Ok l => Some (DLs (map Z.to_nat l)) | Err _ => None end
  | KTuple l | KArr l | KList l =>
      match norm_ints l n with Some r => Some (DLs r) | None => None end
  | KMask m => if length m =? n then Some (DLs (mask_nonzero m)) else None
  | _ => None
  end.

(** The selections of a fully expanded key tuple. *)
Fixpoint sel_keys (ks : list key) (sh : list nat) : option (list dsel) :=
  match ks with
  | [] => match sh with [] => Some [] | _ => None end
  | KNew :: ks' => match sel_keys ks' sh with Some r => Some (DNew :: r) | None => None end
  | k :: ks' => match sh with
                | [] => None
                | n :: sh' => match sel_key k n, sel_keys ks' sh' with
                              | Some s, Some r => Some (s :: r)
                              | _, _ => None
                              end
                end
  end.

(** The selection a user's key tuple denotes on an array of shape [sh]; [None]
    when the keys are not valid for that shape. *)
Definition oselect (keys : list key) (sh : list nat) : option (list dsel) :=
  match np_expand keys (length sh) with
  | Ok ks => sel_keys ks sh
  | Err _ => None
  end.

(** [a[keys]] with orthogonal meaning: see [sel_shape], [sel_map] and [nd_sel] in
    NDArray.v.  [valid_keys]: the keys make sense on that shape. *)
Definition valid_keys (keys : list key) (sh : list nat) : Prop := oselect keys sh <> None.
Definition oindex {W} (a : nd W) (keys : list key) : nd W :=
  match oselect keys (nshape a) with Some s => nd_sel a s | None => a end.

(** ** Aggregates of one column *)
Section Aggregates.
Context {V : Type} (O : numops V).
Notation cell := (option V).

(** The unmasked observations of a column. *)
Fixpoint obs (l : list cell) : list V :=
  match l with
  | [] => []
  | Some v :: l' => v :: obs l'
  | None :: l' => obs l'
  end.
(** The values of a column of an unmasked array. *)
Definition plain_val (c : cell) : V := match c with Some v => v | None => v0 O end.

Definition total (l : list V) : V := fold_right (vadd O) (v0 O) l.
Definition mean_of (l : list V) : V := vdiv O (total l) (vofn O (length l)).
(** Sum of squared deviations from the mean. *)
Definition sumsq_dev (l : list V) : V :=
  total (map (fun x => vmul O (vsub O x (mean_of l)) (vsub O x (mean_of l))) l).
Definition var_of (ddof : V) (l : list V) : V :=
  vdiv O (sumsq_dev l) (vsub O (vofn O (length l)) ddof).
Definition std_of (ddof : V) (l : list V) : V := vsqrt O (var_of ddof l).
Fixpoint best (pick : V -> V -> V) (l : list V) : cell :=
  match l with
  | [] => None
  | x :: l' => match best pick l' with None => Some x | Some y => Some (pick x y) end
  end.

(** Masked variance and deviation: no observation, or as many as [ddof], or a
    negative quotient gives a masked result. *)
Definition masked_var (ddof : V) (l : list V) : cell :=
  let den := vsub O (vofn O (length l)) ddof in
  if (length l =? 0) || veqb O den (v0 O) || vltb O (var_of ddof l) (v0 O)
  then None else Some (var_of ddof l).
Definition masked_std (ddof : V) (l : list V) : cell :=
  match masked_var ddof l with None => None | Some _ => Some (std_of ddof l) end.
Definition frac_masked (l : list cell) : V :=
  vdiv O (vofn O (length l - length (obs l))) (vofn O (length l)).

(** The aggregate of a whole column, unmasked and masked. *)
Definition agg_spec (m : bool) (g : agg) (col : list cell) : cell :=
  if m then
    let xs := obs col in
    match g with
    | GCount => Some (vofn O (length xs))
    | GMin => best (vmin O) xs
    | GMax => best (vmax O) xs
    | GSum => if length xs =? 0 then None else Some (total xs)
    | GMean mdtol =>
        if (length xs =? 0)
           || (vltb O mdtol (vofn O 1) && vltb O mdtol (frac_masked col))
        then None else Some (mean_of xs)
    | GStd ddof => masked_std ddof xs
    | GVar ddof => masked_var ddof xs
    end
  else
    let xs := map plain_val col in
    match g with
    | GCount => Some (vofn O (length xs))
    | GMin => best (vmin O) xs
    | GMax => best (vmax O) xs
    | GSum => Some (total xs)
    | GMean _ => Some (mean_of xs)
    | GStd ddof => Some (std_of ddof xs)
    | GVar ddof => Some (var_of ddof xs)
    end.

End Aggregates.

(** ** The meaning of an array expression *)
Section Denotation.
Context {V : Type} (O : numops V).
Notation cell := (option V).
Notation barr := (@barr V).

Definition full_sels (sh : list nat) : list dsel := map (fun n => DLs (seq 0 n)) sh.

(** Concatenation of a list of arrays along an axis. *)
Fixpoint concat_get (tiles : list (nd cell)) (axis : nat) (o : list nat) : cell :=
  match tiles with
  | [] => None
  | t :: ts => let n := nth axis (nshape t) 0 in
               let i := nth axis o 0 in
               if i <? n then nget t o else concat_get ts axis (set_nth axis (i - n) o)
  end.
Definition nd_concat (tiles : list (nd cell)) (axis : nat) : nd cell :=
  mkND (match tiles with
        | [] => []
        | t :: _ => set_nth axis (fold_right Nat.add 0 (map (fun t => nth axis (nshape t) 0) tiles))
                            (nshape t)
        end)
       (concat_get tiles axis).

(** Stacking: the item at stack index [i] is found at [result[i]]. *)
Definition nd_stack (ssh : list nat) (items : list (nd cell)) : nd cell :=
  mkND (ssh ++ match items with [] => [] | it :: _ => nshape it end)
       (fun o => nget (nth (ravel ssh (firstn (length ssh) o)) items (mkND [] (fun _ => None)))
                      (skipn (length ssh) o)).

(** Transposition: source coordinate [axes_d] is result coordinate [d]. *)
Definition nd_transpose (axes : list nat) (a : nd cell) : nd cell :=
  mkND (map (fun ax => nth ax (nshape a) 0) axes)
       (fun o => nget a (map (fun ax => match index_of ax axes with
                                        | Some d => nth d o 0 | None => 0 end)
                             (seq 0 (length axes)))).

Definition fill_cell (m : bool) (fill : V) (c : cell) : cell :=
  match c with Some v => Some v | None => if m then None else Some fill end.
Definition eq_mask (m : bool) (v : V) (c : cell) : cell :=
  match c with
  | Some x => if m then (if veqb O x v then None else Some x) else Some x
  | None => None
  end.
Definition map_cell (f : V -> V) (c : cell) : cell :=
  match c with Some v => Some (f v) | None => None end.
Definition op1_sem (m : bool) (o : op1) : cell -> cell :=
  if m then match o1_ma o with Some f => f | None => fun _ => None end
  else map_cell (o1_np o).
Definition op2_sem (m : bool) (o : op2) : cell -> cell -> cell :=
  if m then match o2_ma o with Some f => f | None => fun _ _ => None end
  else fun a b => match a, b with Some x, Some y => Some (o2_np o x y) | _, _ => None end.

(** The array an expression stands for: [m = false] as an ndarray, [m = true] as
    a masked array. *)
Fixpoint den (m : bool) (a : barr) : nd cell :=
  match a with
  | AConst sh v _ => mkND sh (fun _ => Some v)
  | AAdapt _ c ks =>
      nd_map (fill_cell m (match c_fill c with Some v => v | None => vdfill O (c_dtype c) end))
             (oindex (mkND (c_shape c) (c_cell c)) ks)
  | ANewAx a na => nd_sel (den m a) (newax_layout DNew (full_sels (nshape (den m a))) na)
  | ABcast a dict lead =>
      mkND (lead ++ get_ok [] (shape_from_dict (nshape (den m a)) dict))
           (fun o => nget (den m a) (bc_idx (nshape (den m a)) o))
  | AAsTy a d => nd_map (map_cell (vcast O d)) (den m a)
  | AMaskV a v => nd_map (eq_mask m v) (den m a)
  | ATrans a axes => nd_transpose axes (den m a)
  | AStack ssh items => nd_stack ssh (map (den m) items)
  | AMosaic tiles axis => nd_concat (map (den m) tiles) axis
  | AAgg g a axis _ =>
      mkND (remove_at axis (nshape (den m a)))
           (fun o => agg_spec O m g (column (den m a) axis o))
  | AEl1 o a _ => nd_map (op1_sem m o) (den m a)
  | AEl2 o a b _ => mkND (nshape (den m a))
                         (fun i => op2_sem m o (nget (den m a) i) (nget (den m b) i))
  end.

(** ** Well-formed expressions: what the constructors guarantee *)

(** The keys an adapter may store. *)
Definition stored_key (k : key) : Prop :=
  match k with KInt _ | KSlice _ | KTuple _ | KMask _ => True | _ => False end.

(** The dtype recorded by elementwise operations is the one recomputed from the
    operands' dtypes (it is, unless an operand was a Python scalar). *)
Fixpoint dt_stable (a : barr) : Prop :=
  match a with
  | AConst _ _ _ | AAdapt _ _ _ => True
  | ANewAx a _ | ABcast a _ _ | AMaskV a _ | ATrans a _ => dt_stable a
  | AAsTy _ _ | AAgg _ _ _ _ => True
  | AStack _ items => fold_right (fun it P => dt_stable it /\ P) True items
  | AMosaic tiles _ => fold_right (fun t P => dt_stable t /\ P) True tiles
  | AEl1 o a d => dt_stable a /\ d = o1_dt o (dtype a)
  | AEl2 o a b d => dt_stable a /\ dt_stable b /\ d = o2_dt o (dtype a) (dtype b)
  end.

Fixpoint wf (a : barr) : Prop :=
  match a with
  | AConst _ _ _ => True
  | AAdapt _ c ks => Forall stored_key ks /\ valid_keys ks (c_shape c)
  | ANewAx a na => wf a /\ length na = S (ndim a)
  | ABcast a dict lead =>
      wf a /\ NoDup (map fst dict) /\ is_ok (shape_from_dict (shape a) dict) = true
      /\ Forall (fun n => 1 <= n) lead
  | AAsTy a _ | AMaskV a _ => wf a
  | ATrans a axes => wf a /\ length axes = ndim a /\ NoDup axes /\ Forall (fun x => x < ndim a) axes
  | AStack ssh items =>
      items <> [] /\ length items = prodn ssh
      /\ fold_right (fun it P => (wf it /\ dt_stable it) /\ P) True items
      /\ Forall (fun it => shape it = shape (hd it items) /\ dtype it = dtype (hd it items)) items
  | AMosaic tiles axis =>
      tiles <> []
      /\ fold_right (fun t P => (wf t /\ dt_stable t) /\ P) True tiles
      /\ Forall (fun t => axis < ndim t
                          /\ remove_at axis (shape t) = remove_at axis (shape (hd t tiles))
                          /\ dtype t = dtype (hd t tiles)) tiles
  | AAgg _ a axis _ => wf a /\ axis < ndim a
  | AEl1 _ a _ => wf a
  | AEl2 _ a b _ => wf a /\ wf b /\ shape a = shape b
  end.

End Denotation.
