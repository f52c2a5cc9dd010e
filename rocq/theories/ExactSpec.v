(** ExactSpec: what an aggregation computes, operation by operation.  No law of
    arithmetic is assumed anywhere, so this also describes floating point, where
    the order of the additions matters.

    [pieces] below are the blocks of one column (the elements along the aggregated
    axis at one position of the other dimensions), in order; [None] is a masked
    element, [n] the length of the column. *)
From Verif Require Import Base NDArray Arrays Spec.

(** How many of the [n] items of a dimension one block holds when an item has [r]
    elements and the chunk limit is [maxc]. *)
Definition width (maxc r n : nat) : nat := if n * r <=? maxc then n else Nat.max 1 (maxc / r).
(** The blocks: consecutive positions, all of that width but the last; one empty
    block if there is no item. *)
Definition dim_blocks (maxc r n : nat) : list (list nat) :=
  let w := width maxc r n in
  map (fun i => seq (i * w) (Nat.min w (n - i * w))) (seq 0 (Nat.max 1 ((n + w - 1) / w))).
(** The blocks of each dimension of an array; the items of a dimension have the
    elements of the later dimensions. *)
Fixpoint grid (maxc : nat) (sh : list nat) : list (list (list nat)) :=
  match sh with [] => [] | n :: sh' => dim_blocks maxc (prodn sh') n :: grid maxc sh' end.

Section ExactSpec.
Context {V : Type} (O : numops V).
Notation cell := (option V).

(** The NumPy sum of each piece (masked elements count as 0), added up in order,
    starting from 0. *)
Definition running (pieces : list (list cell)) : V :=
  fold_left (vadd O) (map (fun p => vsum O (map (plain_val O) p)) pieces) (v0 O).
Definition first_best (pick : V -> V -> V) (l : list V) : cell :=
  match l with [] => None | x :: l' => Some (fold_left pick l' x) end.
(** Welford's recurrence from [k] observations with mean [a] and sum of squared
    deviations [q]; [scale k] is k(k-1). *)
Fixpoint welford (scale : nat -> V) (k : nat) (a q : V) (xs : list V) : V :=
  match xs with
  | [] => q
  | x :: xs' => let d := vdiv O (vsub O x a) (vofn O (S k)) in
                welford scale (S k) (vadd O a d) (vadd O q (vmul O (vmul O d d) (scale (S k)))) xs'
  end.
Definition squares (scale : nat -> V) (xs : list V) : V :=
  match xs with [] => v0 O | x :: xs' => welford scale 1 x (v0 O) xs' end.
(** The observations the unmasked deviation sees: pieces of one item at the
    beginning are forgotten when another piece follows. *)
Fixpoint remembered (pieces : list (list cell)) : list cell :=
  match pieces with
  | [] => []
  | p :: rest => match p, rest with [_], _ :: _ => remembered rest | _, _ => p ++ concat rest end
  end.
Definition plain_std (ddof : V) (pieces : list (list cell)) : V :=
  let xs := map (plain_val O) (remembered pieces) in
  vsqrt O (vdiv O (squares (fun k => vofn O (k * (k - 1))) xs) (vsub O (vofn O (length xs)) ddof)).
Definition hidden_std (ddof : V) (pieces : list (list cell)) : cell :=
  let xs := obs (concat pieces) in
  let d := vsub O (vofn O (length xs)) ddof in
  let v := vdiv O (squares (fun k => vmul O (vofn O k) (vsub O (vofn O k) (vofn O 1))) xs) d in
  if (length xs =? 0) || veqb O d (v0 O) || vltb O v (v0 O) then None else Some (vsqrt O v).

(** [m = false]: ndarray(), [m = true]: masked_array(). *)
Definition in_pieces (m : bool) (g : @agg V) (n : nat) (pieces : list (list cell)) : cell :=
  let seen := length (obs (concat pieces)) in
  match g, m with
  | GCount, false => Some (vofn O n)
  | GCount, true => Some (vofn O seen)
  | GMin, false => first_best (vmin O) (map (plain_val O) (last pieces []))
  | GMin, true => first_best (vmin O) (obs (last pieces []))
  | GMax, false => first_best (vmax O) (map (plain_val O) (last pieces []))
  | GMax, true => first_best (vmax O) (obs (last pieces []))
  | GSum, false => Some (running pieces)
  | GSum, true => if seen =? 0 then None else Some (running pieces)
  | GMean _, false => Some (vdiv O (running pieces) (vofn O n))
  | GMean mdtol, true =>
      if seen =? 0 then None
      else if vltb O mdtol (vofn O 1) && vltb O mdtol (vdiv O (vofn O (n - seen)) (vadd O (vofn O (n - seen)) (vofn O seen)))
      then None else Some (vdiv O (running pieces) (vofn O seen))
  | GStd ddof, false => Some (plain_std ddof pieces)
  | GStd ddof, true => hidden_std ddof pieces
  | GVar ddof, false => let s := plain_std ddof pieces in Some (vmul O s s)
  | GVar ddof, true => match hidden_std ddof pieces with Some s => Some (vmul O s s) | None => None end
  end.

(** Aggregations that raise when there is nothing to aggregate. *)
Definition needs_item (m : bool) (g : @agg V) : Prop :=
  match g, m with GMin, _ | GMax, _ | GStd _, false | GVar _, false => True | _, _ => False end.
End ExactSpec.
