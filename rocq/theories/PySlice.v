(** PySlice: Python slices and ranges.  CPython library behaviour
    ([slice.indices], [range]) that /repo/biggus/_init.py calls at lines 825,
    943, 1440, 2018 and 3218; part of the trusted model of the runtime. *)
From Verif Require Import Base.
Local Open Scope Z_scope.

(** A Python [slice(start, stop, step)]; [None] is Python's None. *)
Record pslice := mkS { s_start : option Z; s_stop : option Z; s_step : option Z }.

(** [slice(None)] *)
Definition full_slice : pslice := mkS None None None.

(** One bound of CPython's PySlice_AdjustIndices: add the length to a negative
    value, then clamp into [lower, upper]. *)
Definition clamp_bound (n lower upper v : Z) : Z :=
  if v <? 0 then (if v + n <? lower then lower else v + n)
  else (if upper <? v then upper else v).

(** [slice.indices(n)]: (start, stop, step), ValueError on step 0. *)
Definition slice_indices (s : pslice) (n : nat) : res (Z * Z * Z) :=
  let n := Z.of_nat n in
  let step := match s_step s with None => 1 | Some v => v end in
  if step =? 0 then Err ValueError else
  let neg := step <? 0 in
  let lower := if neg then -1 else 0 in
  let upper := if neg then n - 1 else n in
  let start := match s_start s with
               | None => if neg then upper else lower
               | Some v => clamp_bound n lower upper v end in
  let stop := match s_stop s with
              | None => if neg then lower else upper
              | Some v => clamp_bound n lower upper v end in
  Ok (start, stop, step).

(** [len(range(start, stop, step))] *)
Definition range_len (start stop step : Z) : nat :=
  if 0 <? step then Z.to_nat ((stop - start + step - 1) / step)
  else Z.to_nat ((start - stop - step - 1) / (- step)).

(** [list(range(start, stop, step))] *)
Definition py_range (start stop step : Z) : list Z :=
  map (fun i => start + Z.of_nat i * step) (seq 0 (range_len start stop step)).

(** [range( *s.indices(n))] as a list of positions. *)
Definition slice_idx (s : pslice) (n : nat) : res (list Z) :=
  t <- slice_indices s n ;;
  match t with (a, b, c) => Ok (py_range a b c) end.

Definition slice_eqb (a b : pslice) : bool :=
  opt_eqb Z.eqb (s_start a) (s_start b) && opt_eqb Z.eqb (s_stop a) (s_stop b)
  && opt_eqb Z.eqb (s_step a) (s_step b).
